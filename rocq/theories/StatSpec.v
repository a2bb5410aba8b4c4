(** Vocabulary for mesh statistics. *)
From Coq Require Import Reals List Arith.
From Verif Require Import Prelude VecModel GeomModel GeomSpec.
Import ListNotations.
Local Open Scope R_scope.

(** n members of the list have the property. *)
Inductive how_many {A} (P : A -> Prop) : list A -> nat -> Prop :=
  | hm_nil : how_many P [] 0
  | hm_yes x l n : P x -> how_many P l n -> how_many P (x :: l) (S n)
  | hm_no x l n : ~ P x -> how_many P l n -> how_many P (x :: l) n.
Fixpoint sum_of (l : list R) : R := match l with [] => 0 | x :: r => x + sum_of r end.
(** hi, avg, lo are the largest, the average and the smallest member. *)
Definition summarises (l : list R) (hi avg lo : R) : Prop :=
  In hi l /\ In lo l /\ (forall x, In x l -> lo <= x <= hi) /\ avg * INR (length l) = sum_of l.
(** Ten bins of the same width from the least to the largest value (or from half
    a unit below to half a unit above), closed on the left, the last one also on
    the right, with the number of values in each. *)
Definition in_bin (lo w : R) (i : nat) (x : R) : Prop := lo + INR i * w <= x /\ (x < lo + INR (S i) * w \/ (i = 9%nat /\ x = lo + 10 * w)).
Definition histogram (l : list R) (lo hi : R) (bins : list R) (counts : list nat) : Prop :=
  exists b w, 0 < w /\ ((lo < hi /\ b = lo /\ b + 10 * w = hi) \/ (lo = hi /\ b = lo - 1 / 2 /\ w = 1 / 10)) /\
    length bins = 11%nat /\ (forall i e, nth_error bins i = Some e -> e = b + INR i * w) /\
    length counts = 10%nat /\ (forall i n, nth_error counts i = Some n -> how_many (in_bin b w i) l n) /\
    fold_right Nat.add 0%nat counts = length l.
(** The lengths of the edges of a face. *)
Definition has_edges (vs : list vec) (f : list nat) (l : list R) : Prop :=
  exists i j k r p q s, f = i :: j :: k :: r /\ nth_error vs i = Some p /\ nth_error vs j = Some q /\ nth_error vs k = Some s /\
    l = [norm (vsub q p); norm (vsub s q); norm (vsub p s)].
