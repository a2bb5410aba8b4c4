(** Vocabulary for outlines that do not meet themselves. *)
From Coq Require Import Reals List.
From Verif Require Import Prelude VecModel GeomModel GeomSpec.
Import ListNotations.
Local Open Scope R_scope.

(** Different corners, at least three; two different edges have no point in
    common but the corner where one ends and the other starts. *)
Definition simple_outline (pts : list vec) : Prop :=
  NoDup pts /\ (3 <= length pts)%nat /\
  forall a b a' b' m, In (a, b) (cyc_pairs pts) -> In (a', b') (cyc_pairs pts) -> (a, b) <> (a', b') -> on_segment a b m -> on_segment a' b' m -> m = b /\ m = a' \/ m = a /\ m = b'.
