(** Visibility between points and close pairs (geom/points/). *)
From Coq Require Import Reals List Bool Arith.
From Verif Require Import Prelude VecModel GeomModel TriModel PolyModel.
Import ListNotations.
Local Open Scope R_scope.

(** are_points_visible (points/visibility.py:43-59): the loops over the arrays
    of edges stop at the first intersection. *)
Definition edge_blocks (p q : vec) (e : vec * vec) : bool :=
  if points_equal (fst e) p || points_equal (fst e) q || points_equal (snd e) p || points_equal (snd e) q then false
  else match line_segment_intersection p q (fst e) (snd e) with Some _ => true | None => false end.
(** are_points_visible (geom/points/visibility.py:43-59). *)
Definition are_points_visible (p q : vec) (blocks : list (list (vec * vec))) : nat :=
  if existsb (existsb (edge_blocks p q)) blocks then 0%nat else 1%nat.

(** visibility_matrix (points/visibility.py:13-39).  The matrix holds the
    numbers 0 and 1; entries are set one by one. *)
Definition eye (n : nat) : list (list nat) := map (fun i => map (fun j => if (i =? j)%nat then 1%nat else 0%nat) (seq 0 n)) (seq 0 n).
Fixpoint set_nth {A} (i : nat) (x : A) (l : list A) : list A :=
  match l, i with
  | [], _ => []
  | _ :: r, O => x :: r
  | y :: r, S i' => y :: set_nth i' x r
  end.
Definition entry (m : list (list nat)) (i j : nat) : nat := nth j (nth i m []) 0%nat.
Definition set_entry (m : list (list nat)) (i j v : nat) : list (list nat) := set_nth i (set_nth j v (nth i m [])) m.
(** visibility_matrix (geom/points/visibility.py:13-39). *)
Definition visibility_matrix (pts : list vec) (blocks : list (list (vec * vec))) : result (list (list nat)) :=
  do c <- are_points_coplanar pts GEOM_ATOL;
  if negb c then Err AssertionError
  else
    let n := length pts in
    let upper := concat (map (fun i => map (fun j => (i, j)) (seq (i + 1) (n - (i + 1)))) (seq 0 n)) in
    let lower := concat (map (fun i => map (fun j => (i, j)) (seq 0 i)) (seq 0 n)) in
    let m1 := fold_left (fun m ij => set_entry m (fst ij) (snd ij) (are_points_visible (nth (fst ij) pts vzero) (nth (snd ij) pts vzero) blocks)) upper (eye n) in
    Ok (fold_left (fun m ij => set_entry m (fst ij) (snd ij) (entry m (snd ij) (fst ij))) lower m1).

(** find_close_pairs (points/find_close_pairs.py:11-70).  Pairs are (distance,
    i, j); sorted() compares tuples, the order is strict because (i, j) differ. *)
Definition pair_le (a b : R * (nat * nat)) : bool :=
  Rltb (fst a) (fst b) ||
  (Reqb (fst a) (fst b) && ((fst (snd a) <? fst (snd b))%nat || ((fst (snd a) =? fst (snd b))%nat && (snd (snd a) <=? snd (snd b))%nat))).
(** With the above (points/find_close_pairs.py:11-70). *)
Fixpoint insert_pair (x : R * (nat * nat)) (l : list (R * (nat * nat))) : list (R * (nat * nat)) :=
  match l with
  | [] => [x]
  | y :: r => if pair_le x y then x :: l else y :: insert_pair x r
  end.
(** With the above (points/find_close_pairs.py:11-70). *)
Definition sort_pairs (l : list (R * (nat * nat))) : list (R * (nat * nat)) := fold_right insert_pair [] l.
(** Lines 40-47. *)
Definition candidate_pairs (pts0 pts1 : list vec) (vis_only : bool) (blocks : list (list (vec * vec))) : list (R * (nat * nat)) :=
  concat (map (fun ip => concat (map (fun jq =>
    if vis_only && (are_points_visible (snd ip) (snd jq) blocks =? 0)%nat then []
    else [(norm (vsub (snd jq) (snd ip)), (fst ip, fst jq))]) (enumerate pts1))) (enumerate pts0)).
(** Lines 49-60. *)
Fixpoint take_unused (l : list (R * (nat * nat))) (used0 used1 : list nat) : list (nat * nat) :=
  match l with
  | [] => []
  | (_, (i, j)) :: r => if negb (memb i used0) && negb (memb j used1) then (i, j) :: take_unused r (i :: used0) (j :: used1) else take_unused r used0 used1
  end.
(** find_close_pairs (geom/points/find_close_pairs.py:11-70). *)
Definition find_close_pairs (pts0 pts1 : list vec) (n : nat) (vis_only : bool) : result (list (vec * vec)) :=
  do e0 <- polygon_edges pts0; do e1 <- polygon_edges pts1;
  let indices := take_unused (sort_pairs (candidate_pairs pts0 pts1 vis_only [e0; e1])) [] [] in
  if (length indices <? n)%nat then Err ValueError
  else Ok (map (fun ij => (nth (fst ij) pts0 vzero, nth (snd ij) pts1 vzero)) (firstn n indices)).
