(** Vocabulary for predefined walls. *)
From Coq Require Import Ascii String Reals List Bool Arith.
From Verif Require Import Prelude VecModel GeomModel GeomSpec TriModel PolyModel SolidModel.
Import ListNotations.
Local Open Scope R_scope.

(** Neighbouring members of a list, not from the last to the first. *)
Definition steps {A} (l : list A) : list (A * A) := combine l (tl l).
(** v turned around the unit vector u by the angle phi. *)
Definition about (u : vec) (phi : R) (v : vec) : vec :=
  vadd (vadd (smul (cos phi) v) (smul (sin phi) (cross u v))) (smul ((1 - cos phi) * dot u v) u).
(** An axis or angle below 1e-13 means no rotation. *)
Definition idle (u : vec) (phi : R) : Prop := norm u < 1 / 10000000000000 \/ Rabs phi < 1 / 10000000000000.
Definition turned_by (u : vec) (phi : R) (f : vec -> vec) : Prop :=
  (idle u phi /\ forall v, f v = v) \/ (~ idle u phi /\ forall v, f v = about u phi v).
(** A rectangle in the xz plane with lower corner (x, z), corners clockwise seen
    from above the plane's far side: up, right, down. *)
Definition upright (x z w h : R) : list vec := [V x 0 z; V x 0 (z + h); V (x + w) 0 (z + h); V (x + w) 0 z].
(** q lies in the parallelogram with corners a, b, c, d. *)
Definition in_para (pts : list vec) (q : vec) : Prop :=
  exists a b c d s t, pts = [a; b; c; d] /\ 0 <= s <= 1 /\ 0 <= t <= 1 /\ q = vadd a (vadd (smul s (vsub d a)) (smul t (vsub b a))).
Definition same_or (name : option str) (rid n : str) : Prop := match name with Some x => n = x | None => n = rid end.
(** Sizes for which the tolerances work. *)
Definition part_fits (h : R) (fl : list vec) : Prop := exists m, 1 / 1000 <= m /\ m <= Rabs h <= 5000 * m /\
  (forall a b, In (a, b) (steps fl) -> m <= norm (vsub b a) <= 5000 * m) /\ forall p, In p fl -> norm p <= 30000 * m.
Definition wall_fits (w h ox oz aw ah : R) (tr : vec) : Prop := exists m, 1 / 1000 <= m /\ (forall x, In x [w; h; aw; ah] -> m <= x <= 5000 * m) /\
  Rabs ox <= 2000 * m /\ Rabs oz <= 2000 * m /\ norm tr <= 20000 * m.
