(** Vocabulary for comparing and rounding points. *)
From Coq Require Import Reals ZArith List.
From Verif Require Import Prelude VecModel.
Import ListNotations.
Local Open Scope R_scope.

(** Every coordinate of p is within 1e-8 + 1e-5 |coordinate of q| of that of q. *)
Definition about (p q : vec) : Prop := forall c, In c [vx; vy; vz] -> Rabs (c p - c q) <= 1 / 100000000 + 1 / 100000 * Rabs (c q).
(** y is the multiple of 1e-8 next to x, the even one of two that are equally near. *)
Definition rounded (x y : R) : Prop := exists m, y = IZR m / 100000000 /\
  (Rabs (x - y) < 1 / 200000000 \/ (Rabs (x - y) = 1 / 200000000 /\ Z.Even m)).
