(** Vocabulary for whole simulations. *)
From Coq Require Import Reals List Bool Arith.
From Verif Require Import Prelude VecModel SimModel RunModel.
Import ListNotations.
Local Open Scope R_scope.

(** What one step may do, in terms of the saved arrays: positions, energies,
    the hits of the step.  No ray appears or disappears; each stays where it
    is or moves as far as its speed takes it; energies stay nonnegative and
    never grow; a ray without energy does not change; what the absorbers get
    is lost by the rays. *)
Definition one_step (sc : scene) (p p' : list vec) (e e' h' : list R) : Prop :=
  length p' = length p /\ length e' = length e /\ length h' = length (absorbers sc) /\
  (forall k q q', nth_error p k = Some q -> nth_error p' k = Some q' -> q' = q \/ norm (vsub q' q) = speed sc * dt sc) /\
  (forall k x x', nth_error e k = Some x -> nth_error e' k = Some x' -> 0 <= x' <= x) /\
  (forall k x, nth_error e k = Some x -> x <= eps sc -> nth_error e' k = Some x /\ nth_error p' k = nth_error p k) /\
  Rsum e' + Rsum h' <= Rsum e.

(** Arrays with one row per step, starting with all rays at the source with
    energy 1 and no hits. *)
Definition simulated (sc : scene) (source : vec) (rays steps : nat) (pos : list (list vec)) (en hit : list (list R)) : Prop :=
  length pos = S steps /\ length en = S steps /\ length hit = S steps /\
  nth_error pos 0 = Some (repeat source rays) /\ nth_error en 0 = Some (repeat 1 rays) /\ nth_error hit 0 = Some (repeat 0 (length (absorbers sc))) /\
  forall i p p' e e' h', nth_error pos i = Some p -> nth_error pos (S i) = Some p' ->
    nth_error en i = Some e -> nth_error en (S i) = Some e' -> nth_error hit (S i) = Some h' -> one_step sc p p' e e' h'.

(** The last rows of a longer array. *)
Definition suffix_of {A} (short long : list A) : Prop := exists front, long = front ++ short.
