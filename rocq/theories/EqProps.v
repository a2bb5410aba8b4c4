(** Comparing polygons, rounding points. *)
From Coq Require Import Reals ZArith List Bool Arith Lra.
From Verif Require Import Prelude VecModel GeomModel GeomSpec SliceModel EqModel EqSpec EqProofs.
Import ListNotations.
Local Open Scope R_scope.

(** C91: polygons with the same number of corners are equal exactly if each
    corner is about the corner of the other one with the same number ... *)
Theorem C91_same_length a b : length a = length b -> exists r, polygon_eq a b = Ok r /\ (r = true <-> Forall2 about a b).
Proof. exact (eq_same a b). Qed.
(** ... so a polygon equals itself ... *)
Theorem C91_reflexive a : polygon_eq a a = Ok true.
Proof. exact (eq_refl_ok a). Qed.
(** ... but comparing polygons with different numbers of corners raises ValueError ... *)
Theorem C91_raises a b : (3 <= length a)%nat -> (3 <= length b)%nat -> (polygon_eq a b = Err ValueError <-> length a <> length b).
Proof. exact (eq_raises a b). Qed.
(** ... equality is not symmetric, nor transitive, and depends on the first corner. *)
Theorem C91_symmetric_refuted : exists a b, length a = 4%nat /\ polygon_eq a b = Ok true /\ polygon_eq b a = Ok false.
Proof. eexists _, _. split; [|exact eq_not_symmetric]. reflexivity. Qed.
Theorem C91_transitive_refuted : exists a b c, length a = 4%nat /\ polygon_eq a b = Ok true /\ polygon_eq b c = Ok true /\ polygon_eq a c = Ok false.
Proof. eexists _, _, _. split; [|exact eq_not_transitive]. reflexivity. Qed.
Theorem C91_rolled_refuted : exists a, length a = 4%nat /\ polygon_eq a (roll_forward a) = Ok false.
Proof. eexists. split; [|exact eq_not_rolled]. reflexivity. Qed.
Example C91_instance : polygon_eq [V 0 0 0; V 1 0 0; V 0 1 0] [V 0 0 0; V 1 0 0; V 1 1 0; V 0 1 0] = Err ValueError /\ Forall2 about [V 0 0 0; V 1 0 0; V 0 1 0] [V 0 0 0; V 1 0 0; V 0 1 0].
Proof. split; [reflexivity|]. repeat (constructor; [exact (about_refl _)|]). constructor. Qed.
Print Assumptions C91_same_length.
Print Assumptions C91_reflexive.
Print Assumptions C91_raises.
Print Assumptions C91_symmetric_refuted.
Print Assumptions C91_transitive_refuted.
Print Assumptions C91_rolled_refuted.

(** C92: rounding gives the nearest multiple of 1e-8, the even one of two ... *)
Theorem C92_round8 x y : round8 x = y <-> rounded x y.
Proof. exact (round8_spec x y). Qed.
(** ... the key of a point consists of its rounded coordinates ... *)
Theorem C92_tuple p a b c : point_to_tuple p = (a, b, c) <-> rounded (vx p) a /\ rounded (vy p) b /\ rounded (vz p) c.
Proof. exact (tuple_spec p a b c). Qed.
(** ... points with the same key are within 1e-8 in each coordinate ... *)
Theorem C92_same_key p q : point_to_tuple p = point_to_tuple q -> forall c, In c [vx; vy; vz] -> Rabs (c p - c q) <= 1 / 100000000.
Proof. exact (tuple_near p q). Qed.
(** ... hashes agree whatever the hash function exactly if the keys do ... *)
Theorem C92_hash p q : (forall hash, point_to_hash hash p = point_to_hash hash q) <-> point_to_tuple p = point_to_tuple q.
Proof. exact (hash_spec p q). Qed.
(** ... but points that count as equal, however close, can have different keys. *)
Theorem C92_equal_points_refuted : exists p q, about p q /\ about q p /\ (forall c, In c [vx; vy; vz] -> Rabs (c p - c q) <= 1 / 10000000000000) /\ point_to_tuple p <> point_to_tuple q.
Proof. exact tuple_differs. Qed.
(** A point is valid exactly if no coordinate is NaN. *)
Theorem C92_valid x y z : is_valid_pt (x, y, z) = true <-> x <> None /\ y <> None /\ z <> None.
Proof. exact (valid_spec x y z). Qed.
Example C92_instance : rounded (5 / 200000000) (2 / 100000000) /\ rounded (7 / 200000000) (4 / 100000000) /\ point_to_tuple (V (5 / 200000000) 0 0) = point_to_tuple (V (2 / 100000000) 0 0).
Proof.
  assert (A : rounded (5 / 200000000) (2 / 100000000)) by (exists 2%Z; split; [reflexivity|]; right; split; [rewrite Rabs_pos_eq; lra|exists 1%Z; reflexivity]).
  split; [exact A|]. split; [exists 4%Z; split; [reflexivity|]; right; split; [rewrite Rabs_left; lra|exists 2%Z; reflexivity]|].
  assert (B : rounded (2 / 100000000) (2 / 100000000)) by (exists 2%Z; split; [reflexivity|]; left; rewrite Rminus_diag_eq, Rabs_R0 by reflexivity; lra).
  unfold point_to_tuple. cbn [vx vy vz]. rewrite (proj2 (round8_spec _ _) A), (proj2 (round8_spec _ _) B). reflexivity.
Qed.
Print Assumptions C92_round8.
Print Assumptions C92_tuple.
Print Assumptions C92_same_key.
Print Assumptions C92_hash.
Print Assumptions C92_equal_points_refuted.
Print Assumptions C92_valid.
