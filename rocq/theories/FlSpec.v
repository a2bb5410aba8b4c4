(** Specification vocabulary for floating point. *)
From Coq Require Import Reals List ZArith.
From Verif Require Import Prelude SimModel FlModel.
Import ListNotations.
Local Open Scope R_scope.

(** The finite float64 numbers: 53 binary digits, exponents from -1074 on
    (without an upper end). *)
Definition f64 (x : R) : Prop :=
  exists m e : Z, x = IZR m * powerRZ 2 e /\ (Z.abs m <= 2 ^ 53)%Z /\ (-1074 <= e)%Z.

(** Rounding to a nearest one, whichever of two. *)
Definition to_nearest (rnd : R -> R) : Prop :=
  forall x, f64 (rnd x) /\ forall y, f64 y -> Rabs (x - rnd x) <= Rabs (x - y).

(** The relative error of one operation. *)
Definition ulp : R := powerRZ 2 (-53).

(** Energies as they may be given: finite, from 0 to 1. *)
Definition unit_energy {A : Type} (r : A * R) : Prop := f64 (snd r) /\ 0 <= snd r <= 1.

(** Ray r is absorbed by absorber sn: it is not exhausted, within this
    absorber's radius and within no earlier one's. *)
Definition absorbed_by {A : Type} (mo : motion A) (sn : nat) (r : A * R) : Prop :=
  m_eps mo < snd r /\ m_within mo (fst r) sn = true /\ forall j, (j < sn)%nat -> m_within mo (fst r) j = false.

(** [due mo sn rays x]: x is the exact sum of the energies absorbed by sn. *)
Inductive due {A : Type} (mo : motion A) (sn : nat) : list (A * R) -> R -> Prop :=
| due_nil : due mo sn [] 0
| due_in r rays x : absorbed_by mo sn r -> due mo sn rays x -> due mo sn (r :: rays) (snd r + x)
| due_out r rays x : ~ absorbed_by mo sn r -> due mo sn rays x -> due mo sn (r :: rays) x.

(** The ray of SimModel.v as a row. *)
Definition as_row (r : SimModel.ray) : (VecModel.vec * VecModel.vec * VecModel.vec) * R :=
  ((r_pos r, r_vel r, r_dpos r), r_en r).
