(** Ear clipping: triangulate (geom/triangles.py:193-275), generic in the
    points and in the two geometric predicates. *)
From Coq Require Import Reals List Bool Arith.
From Verif Require Import Prelude VecModel GeomModel.
Import ListNotations.

(** Triangles are triples of indices (rows of the returned array). *)
Notation itri := (nat * nat * nat)%type.

(** list.pop(i): removes the element at index i; out of range it is an
    IndexError (which triangulate never reaches). *)
Fixpoint pop_at {A} (i : nat) (l : list A) : result (list A) :=
  match l, i with
  | [], _ => Err IndexError
  | _ :: r, O => Ok r
  | x :: r, S i' => do r' <- pop_at i' r; Ok (x :: r')
  end.

(** l[i] for i >= 0. *)
Definition at_index {A} (l : list A) (i : nat) : result A :=
  match nth_error l i with Some x => Ok x | None => Err IndexError end.

Section Tri.
Context {P : Type}.
(** is_corner_convex(prev, curr, next, vn) and is_point_inside(test, prev,
    curr, next) of triangles.py. *)
Context (convex : P -> P -> P -> result bool) (inside : P -> P -> P -> P -> result bool).

(** The for loop over the remaining vertices (lines 247-259).  All vertices
    are tested: the break is commented out in the source. *)
Fixpoint any_inside (pts : list P) (a b c : nat) (vs : list (nat * P)) (acc : bool) : result bool :=
  match vs with
  | [] => Ok acc
  | (i, _) :: r =>
      if (i =? a) || (i =? b) || (i =? c) then any_inside pts a b c r acc
      else
        do q <- at_index pts i; do pa <- at_index pts a; do pb <- at_index pts b; do pc <- at_index pts c;
        do t <- inside q pa pb pc;
        any_inside pts a b c r (if t then true else acc)
  end.

(** The while loop (lines 226-273); [None] stands for the retry with flipped
    points (line 229).  [fuel] bounds the iterations; see tri_fuel_enough. *)
Fixpoint ear_loop (fuel : nat) (pts : list P) (vs : list (nat * P)) (tris : list itri) (pos num_fail : nat) : result (option (list itri)) :=
  match fuel with
  | O => Err OutOfFuel
  | S fuel' =>
      if length vs <=? 2 then Ok (Some tris)
      else if length pts <? num_fail then Ok None
      else
        let pos := if length vs - 1 <? pos then 0 else pos in
        let prev_pos := if 0 <? pos then pos - 1 else length vs - 1 in
        let next_pos := if pos <? length vs - 1 then pos + 1 else 0 in
        do p <- at_index vs prev_pos; do c <- at_index vs pos; do n <- at_index vs next_pos;
        do conv <- convex (snd p) (snd c) (snd n);
        if conv then
          do bad <- any_inside pts (fst p) (fst c) (fst n) vs false;
          if bad then ear_loop fuel' pts vs tris (pos + 1) (num_fail + 1)
          else do vs' <- pop_at pos vs; ear_loop fuel' pts vs' (tris ++ [(fst p, fst c, fst n)]) pos num_fail
        else ear_loop fuel' pts vs tris (pos + 1) (num_fail + 1)
  end.

(** vertices = [(i, p) for i, p in enumerate(pts)] (line 221). *)
Definition enumerate (pts : list P) : list (nat * P) := combine (seq 0 (length pts)) pts.

(** The recursion on num_try (lines 215-219, 229): [tries] is 2 - num_try and
    [vn_zero] is np.isclose(np.linalg.norm(vn), 0). *)
Fixpoint triangulate_from (tries : nat) (vn_zero : bool) (pts : list P) : result (list P * list itri) :=
  match tries with
  | O => Err TriangulationError
  | S tries' =>
      if vn_zero then Err TriangulationError
      else
        do r <- ear_loop (2 * length pts + 2) pts (enumerate pts) [] 0 0;
        match r with
        | Some tris => Ok (pts, tris)
        | None => triangulate_from tries' vn_zero (rev pts)
        end
  end.
(** triangulate (geom/triangles.py:194-275). *)
Definition triangulate (vn_zero : bool) (pts : list P) : result (list P * list itri) := triangulate_from 2 vn_zero pts.
End Tri.

(** triangulate(pts, vn) with the predicates of triangles.py at their default
    tolerances; np.isclose(np.linalg.norm(vn), 0) is line 218. *)
Definition ear_convex (vn a b c : vec) : result bool := is_corner_convex a b c vn GEOM_ATOL.
Definition ear_inside (q a b c : vec) : result bool := is_point_inside_triangle q a b c GEOM_ATOL.
Definition triangulate_pts (pts : list vec) (vn : vec) : result (list vec * list itri) :=
  triangulate (ear_convex vn) ear_inside (isclose (norm vn) 0%R RTOL ATOL8) pts.
