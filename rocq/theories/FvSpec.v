(** Specification vocabulary for the voxel grid in floating point. *)
From Coq Require Import Reals List ZArith.
From Verif Require Import Prelude VecModel FlSpec.
Import ListNotations.
Local Open Scope R_scope.

(** A float that may be the size of a cell: positive and not absurdly small. *)
Definition cell_size (s : R) : Prop := f64 s /\ powerRZ 2 (-900) <= s.

(** All coordinates are floats. *)
Definition f64_vec (p : vec) : Prop := f64 (vx p) /\ f64 (vy p) /\ f64 (vz p).

(** x is not (almost) a multiple of s. *)
Definition off_grid (s x : R) : Prop := forall k, 1 / 10 ^ 8 <= Rabs (x / s - IZR k).

(** No float lies between the computed end of cell k and the computed beginning
    of cell k + 1. *)
Definition seamless (rnd : R -> R) (s : R) (k : Z) : Prop :=
  forall y, f64 y -> ~ (rnd (rnd (IZR k * s) + s) < y < rnd (IZR (k + 1) * s)).

(** The floats written 0.1 and 1e-4. *)
Definition tenth : R := IZR 7205759403792794 * powerRZ 2 (-56).
Definition eps4 : R := IZR 7378697629483821 * powerRZ 2 (-66).
(** The floats written 0.09, -0.45 and 0.1001. *)
Definition step_9 : R := IZR 6485183463413514 * powerRZ 2 (-56).
Definition wall_45 : R := IZR (-8106479329266893) * powerRZ 2 (-54).
Definition wall_1001 : R := IZR 7212965163196586 * powerRZ 2 (-56).
