(** Mesh statistics (_to_be_ported/mesh/quality/mesh_stats.py) and the least
    area of a face (min_triangle_area.py).  The numbers are modelled, not the
    text they are printed in. *)
From Coq Require Import ZArith Reals List Bool Arith.
From Verif Require Import Prelude VecModel GeomModel TriModel VoxModel MeshModel MshModel ContModel.
Import ListNotations.
Local Open Scope R_scope.

(** np.histogram(values, bins=10) for a list that is not empty: the range is
    that of the values, or half a unit around the only value.  numpy computes a
    bin by division and corrects it by comparing with the edges, which is the
    floor in exact arithmetic; the last bin takes the largest value. *)
Definition hist_range (lo hi : R) : R * R := if Reqb lo hi then (lo - 1 / 2, hi + 1 / 2) else (lo, hi).
Definition bin_edges (r : R * R) : list R := map (fun i => fst r + INR i * ((snd r - fst r) / 10)) (seq 0 11).
Definition bin_of (r : R * R) (x : R) : nat := Nat.min 9 (Z.to_nat (floor (10 * (x - fst r) / (snd r - fst r)))).
Definition hist_counts (r : R * R) (l : list R) : list nat := map (fun i => length (filter (fun x => (bin_of r x =? i)%nat) l)) (seq 0 10).
(** np.mean. *)
Definition mean (l : list R) : R := fold_left Rplus l 0 / INR (length l).
(** Maximum, mean and minimum of a list (lines 43-48, 84-86); np.max and max
    of an empty list raise ValueError. *)
Record summary := Sum { s_max : R; s_avg : R; s_min : R }.
Definition summarise (l : list R) : result summary := do hi <- lmax l; do lo <- lmin l; Ok (Sum hi (mean l) lo).

(** What is printed (52-65, 88-99): numbers of vertices and of elements, their
    sizes, lengths of edges for faces, and the bins. *)
Inductive stats :=
  | Surface (nv ne : nat) (areas edges : summary) (bins : list R) (hist : list nat)
  | Volume (nv ne : nat) (volumes : summary) (bins : list R) (hist : list nat)
  | Unknown (n : nat).
(** Lengths of the three edges of a face (33-39). *)
Definition face_edges (vs : list vec) (f : element) : result (list R) :=
  do p0 <- (do i <- at_index f 0; at_index vs i);
  do p1 <- (do i <- at_index f 1; at_index vs i);
  do p2 <- (do i <- at_index f 2; at_index vs i);
  Ok [norm (vsub p1 p0); norm (vsub p2 p1); norm (vsub p0 p2)].
(** mesh_stats (14-103).  The branch for an empty volume mesh (lines 70-71)
    cannot be reached. *)
Definition mesh_stats (vs : list vec) (els : list element) : result stats :=
  do e0 <- at_index els 0;
  if (length e0 =? 3)%nat then
    do areas <- mapM (face_area vs) els;
    do edges <- mapM (face_edges vs) els;
    do sa <- summarise areas; do se <- summarise (concat edges);
    let r := hist_range (s_min sa) (s_max sa) in
    Ok (Surface (length vs) (length els) sa se (bin_edges r) (hist_counts r areas))
  else if (length e0 =? 4)%nat then
    do vols <- mapM (element_volume vs) els;
    do sv <- summarise vols;
    let r := hist_range (s_min sv) (s_max sv) in
    Ok (Volume (length vs) (length els) sv (bin_edges r) (hist_counts r vols))
  else Ok (Unknown (length e0)).
(** minimum_triangle_area (min_triangle_area.py:4-6). *)
Definition minimum_triangle_area (delta : R) : R := delta ^ 2 / 8.
