(** Specification vocabulary for the voxel grid and the target search. *)
From Coq Require Import Reals ZArith List.
From Verif Require Import Prelude VecModel.
Import ListNotations.
Local Open Scope R_scope.

(** q is a convex combination of the points. *)
Definition in_hull (pts : list vec) (q : vec) : Prop :=
  exists ws, length ws = length pts /\ (forall w, In w ws -> 0 <= w) /\ Rsum ws = 1 /\
    q = V (Rsum (map (fun wp => fst wp * vx (snd wp)) (combine ws pts)))
          (Rsum (map (fun wp => fst wp * vy (snd wp)) (combine ws pts)))
          (Rsum (map (fun wp => fst wp * vz (snd wp)) (combine ws pts))).

Definition in_box (mn mx p : vec) : Prop :=
  vx mn <= vx p <= vx mx /\ vy mn <= vy p <= vy mx /\ vz mn <= vz p <= vz mx.

(** p lies in the cell with the given index (cells are half-open cubes). *)
Definition in_cell (step : R) (key : Z * Z * Z) (p : vec) : Prop :=
  let '(x, y, z) := key in
  IZR x * step <= vx p < (IZR x + 1) * step /\ IZR y * step <= vy p < (IZR y + 1) * step /\ IZR z * step <= vz p < (IZR z + 1) * step.

(** The closed cube of a cell misses the bounding box of the points. *)
Definition misses (step : R) (key : Z * Z * Z) (pts : list vec) : Prop :=
  let '(x, y, z) := key in
  let off (c : vec -> R) (k : Z) := (forall p, In p pts -> c p < IZR k * step) \/ (forall p, In p pts -> (IZR k + 1) * step < c p) in
  off vx x \/ off vy y \/ off vz z.

(** Neighbouring cells. *)
Definition adjacent_cells (a b : Z * Z * Z) : Prop :=
  let '(x, y, z) := a in let '(x', y', z') := b in
  (Z.abs (x' - x) <= 1 /\ Z.abs (y' - y) <= 1 /\ Z.abs (z' - z) <= 1)%Z.

(** p and q differ by at most d in each coordinate. *)
Definition near (d : R) (p q : vec) : Prop :=
  Rabs (vx q - vx p) <= d /\ Rabs (vy q - vy p) <= d /\ Rabs (vz q - vz p) <= d.

(** The polygons that may be a target. *)
Definition candidate (hit : nat -> bool) (transparent order : list nat) (pn : nat) : Prop :=
  In pn order /\ ~ In pn transparent /\ hit pn = true.
