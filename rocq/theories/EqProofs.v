(** Proofs: comparing polygons and rounding points. *)
From Coq Require Import Reals ZArith List Bool Arith Lia Lra.
From Verif Require Import Prelude VecModel VecProofs GeomModel GeomSpec GeomProofs1 GeomProofs2 GeomProofs3 GeomProofs5 VoxProofs SliceModel EqModel EqSpec.
Import ListNotations.
Local Open Scope R_scope.

Lemma about_spec p q : allclose p q RTOL ATOL8 = true <-> about p q.
Proof.
  unfold allclose, isclose, about, RTOL, ATOL8. rewrite !andb_true_iff, !Rleb_true. split.
  - intros ((A & B) & C) c [<-|[<-|[<-|[]]]]; auto.
  - intros H. split; [split|]; apply H; cbn; auto.
Qed.
Lemma eq_same a b : length a = length b -> exists r, polygon_eq a b = Ok r /\ (r = true <-> Forall2 about a b).
Proof.
  intros L. unfold polygon_eq. rewrite L, Nat.eqb_refl. eexists. split; [reflexivity|]. revert b L. induction a as [|p a IH]; intros [|q b] L; try discriminate; cbn [combine forallb].
  - split; auto.
  - injection L as L. specialize (IH b L). cbn [fst snd]. rewrite andb_true_iff, about_spec, IH. split; [intros (A & B); constructor; auto|intros H; inversion H; auto].
Qed.
Lemma eq_raises a b : (3 <= length a)%nat -> (3 <= length b)%nat -> (polygon_eq a b = Err ValueError <-> length a <> length b).
Proof.
  intros La Lb. destruct (Nat.eq_dec (length a) (length b)) as [E|E].
  - destruct (eq_same a b E) as (r & -> & _). split; [discriminate|tauto].
  - split; auto. intros _. unfold polygon_eq. destruct (Nat.eqb_spec (length a) (length b)); [tauto|].
    destruct a as [|? [|? ?]]; cbn [length] in La; try lia. destruct b as [|? [|? ?]]; cbn [length] in Lb; try lia. auto.
Qed.
Lemma about_refl p : about p p.
Proof. intros c _. replace (c p - c p) with 0 by ring. rewrite Rabs_R0. pose proof (Rabs_pos (c p)). lra. Qed.
Lemma eq_refl_ok a : polygon_eq a a = Ok true.
Proof. destruct (eq_same a a (eq_refl _)) as (r & -> & H). f_equal. apply H. clear. induction a; constructor; auto using about_refl. Qed.

(** Not symmetric, not transitive, not independent of the first corner. *)
Definition sq (h : R) : list vec := [V h 0 0; V 1 0 0; V 1 1 0; V 0 1 0].
Lemma sq_eq g h : exists r, polygon_eq (sq g) (sq h) = Ok r /\ (r = true <-> Rabs (g - h) <= 1 / 100000000 + 1 / 100000 * Rabs h).
Proof.
  destruct (eq_same (sq g) (sq h) (eq_refl _)) as (r & E & H). exists r. split; auto. rewrite H. unfold sq. split.
  - intros F. inversion F as [|? ? ? ? A _]; subst. apply (A vx). cbn; auto.
  - intros A. constructor; [|constructor; [apply about_refl|constructor; [apply about_refl|constructor; [apply about_refl|constructor]]]]. intros c [<-|[<-|[<-|[]]]]; cbn [vx vy vz]; auto; rewrite Rminus_0_r, Rabs_R0; lra.
Qed.
Lemma eq_at g h r : polygon_eq (sq g) (sq h) = Ok r -> (r = true <-> Rabs (g - h) <= 1 / 100000000 + 1 / 100000 * Rabs h).
Proof. intros E. destruct (sq_eq g h) as (r' & E' & H). rewrite E in E'. injection E' as <-. auto. Qed.
Lemma eq_not_symmetric : polygon_eq (sq (1 / 100)) (sq (100001 / 10000000 + 1 / 100000000 + 1 / 10000000000000)) = Ok true /\ polygon_eq (sq (100001 / 10000000 + 1 / 100000000 + 1 / 10000000000000)) (sq (1 / 100)) = Ok false.
Proof.
  split.
  - destruct (sq_eq (1 / 100) (100001 / 10000000 + 1 / 100000000 + 1 / 10000000000000)) as (r & -> & H). f_equal. apply H. rewrite Rabs_left, (Rabs_pos_eq (_ + _)) by lra. lra.
  - destruct (sq_eq (100001 / 10000000 + 1 / 100000000 + 1 / 10000000000000) (1 / 100)) as (r & -> & H). f_equal. apply not_true_is_false. intros X. apply H in X. rewrite !Rabs_pos_eq in X by lra. lra.
Qed.
Lemma eq_not_transitive : polygon_eq (sq 0) (sq (1 / 100000000)) = Ok true /\ polygon_eq (sq (1 / 100000000)) (sq (2 / 100000000)) = Ok true /\ polygon_eq (sq 0) (sq (2 / 100000000)) = Ok false.
Proof.
  split; [|split].
  - destruct (sq_eq 0 (1 / 100000000)) as (r & -> & H). f_equal. apply H. rewrite Rabs_left, Rabs_pos_eq by lra. lra.
  - destruct (sq_eq (1 / 100000000) (2 / 100000000)) as (r & -> & H). f_equal. apply H. rewrite Rabs_left, Rabs_pos_eq by lra. lra.
  - destruct (sq_eq 0 (2 / 100000000)) as (r & -> & H). f_equal. apply not_true_is_false. intros X. apply H in X. rewrite Rabs_left, Rabs_pos_eq in X by lra. lra.
Qed.
Lemma eq_not_rolled : polygon_eq (sq 0) (roll_forward (sq 0)) = Ok false.
Proof.
  destruct (eq_same (sq 0) (roll_forward (sq 0)) (eq_refl _)) as (r & -> & H). f_equal. apply not_true_is_false. intros X. apply H in X. unfold sq, roll_forward in X. cbn [last removelast] in X.
  inversion X as [|? ? ? ? A _]; subst. specialize (A vy). cbn [In vx vy vz] in A. specialize (A ltac:(auto)). rewrite Rabs_left, Rabs_R1 in A by lra. lra.
Qed.

(** Rounding. *)
Lemma abs_le_both a b : Rabs a <= b -> - b <= a <= b.
Proof. unfold Rabs. destruct (Rcase_abs a); lra. Qed.
Lemma rint_near x : Rabs (x - IZR (rint x)) < 1 / 2 \/ (Rabs (x - IZR (rint x)) = 1 / 2 /\ Z.Even (rint x)).
Proof.
  unfold rint. pose proof (floor_spec x) as F. set (f := VoxModel.floor x) in *. destruct (Rltb (x - IZR f) (1 / 2)) eqn:A.
  - apply Rltb_true in A. left. rewrite Rabs_pos_eq; lra.
  - apply Rltb_false in A. destruct (Rltb (1 / 2) (x - IZR f)) eqn:B.
    + apply Rltb_true in B. left. rewrite plus_IZR, Rabs_left; lra.
    + apply Rltb_false in B. right. destruct (Z.even f) eqn:C.
      * split; [rewrite Rabs_pos_eq; lra|apply Z.even_spec; auto].
      * rewrite plus_IZR. split; [rewrite Rabs_left; lra|]. apply Z.even_spec. rewrite Z.even_add, C. reflexivity.
Qed.
Lemma near_unique x m m' : Rabs (x - IZR m) < 1 / 2 \/ (Rabs (x - IZR m) = 1 / 2 /\ Z.Even m) -> Rabs (x - IZR m') < 1 / 2 \/ (Rabs (x - IZR m') = 1 / 2 /\ Z.Even m') -> m = m'.
Proof.
  intros A B. assert (A' : Rabs (x - IZR m) <= 1 / 2) by (destruct A as [?|(? & _)]; lra). assert (B' : Rabs (x - IZR m') <= 1 / 2) by (destruct B as [?|(? & _)]; lra).
  apply abs_le_both in A', B'. assert (D : -1 <= IZR m - IZR m' <= 1) by lra. rewrite <- minus_IZR in D. destruct D as (D1 & D2). apply le_IZR in D1, D2.
  destruct (Z.eq_dec m m') as [|N]; auto. exfalso. assert (C : m' = (m + 1)%Z \/ m = (m' + 1)%Z) by lia.
  assert (Ev : Rabs (x - IZR m) = 1 / 2 /\ Rabs (x - IZR m') = 1 / 2).
  { destruct C as [->| ->]; rewrite plus_IZR in *; [replace (x - IZR m) with (1 / 2) by lra|replace (x - IZR m') with (1 / 2) by lra].
    - replace (x - (IZR m + 1)) with (- (1 / 2)) by lra. rewrite Rabs_Ropp, Rabs_pos_eq; lra.
    - replace (x - (IZR m' + 1)) with (- (1 / 2)) by lra. rewrite Rabs_Ropp, Rabs_pos_eq; lra. }
  destruct A as [A|(_ & (u & Eu))]; [lra|]. destruct B as [B|(_ & (w & Ew))]; [lra|]. lia.
Qed.
Lemma rounded_scale x m : Rabs (x - IZR m / 100000000) = Rabs (x * 100000000 - IZR m) / 100000000.
Proof. replace (x - IZR m / 100000000) with ((x * 100000000 - IZR m) * / 100000000) by field. rewrite Rabs_mult, (Rabs_pos_eq (/ 100000000)) by lra. field. Qed.
Lemma round8_spec x y : round8 x = y <-> rounded x y.
Proof.
  unfold round8. split.
  - intros <-. exists (rint (x * 100000000)). split; auto. rewrite rounded_scale. destruct (rint_near (x * 100000000)) as [A|(A & B)]; [left; lra|right; split; auto; lra].
  - intros (m & -> & H). do 2 f_equal. apply (near_unique (x * 100000000)); [apply rint_near|]. rewrite rounded_scale in H. destruct H as [H|(H & E)]; [left; lra|right; split; auto; lra].
Qed.
Lemma tuple_spec p a b c : point_to_tuple p = (a, b, c) <-> rounded (vx p) a /\ rounded (vy p) b /\ rounded (vz p) c.
Proof. unfold point_to_tuple. rewrite <- !round8_spec. split; [intros E; injection E as <- <- <-; auto|intros (-> & -> & ->); auto]. Qed.
Lemma round8_near x : Rabs (x - round8 x) <= 1 / 200000000.
Proof. destruct (proj1 (round8_spec x _) eq_refl) as (m & _ & [H|(H & _)]); lra. Qed.
Lemma tuple_near p q : point_to_tuple p = point_to_tuple q -> forall c, In c [vx; vy; vz] -> Rabs (c p - c q) <= 1 / 100000000.
Proof.
  unfold point_to_tuple. intros E. injection E as Ex Ey Ez.
  assert (G : forall a b, round8 a = round8 b -> Rabs (a - b) <= 1 / 100000000). { intros a b Eab. pose proof (round8_near a) as A. pose proof (round8_near b) as B. rewrite Eab in A. apply abs_le_both in A, B. apply Rabs_le. lra. }
  intros c [<-|[<-|[<-|[]]]]; auto.
Qed.
Lemma tuple_differs : exists p q, about p q /\ about q p /\ (forall c, In c [vx; vy; vz] -> Rabs (c p - c q) <= 1 / 10000000000000) /\ point_to_tuple p <> point_to_tuple q.
Proof.
  exists (V (1 / 200000000) 0 0), (V (1 / 200000000 + 1 / 10000000000000) 0 0).
  split; [|split; [|split]]; try (intros c [<-|[<-|[<-|[]]]]; cbn [vx vy vz]; rewrite ?Rminus_0_r, ?Rabs_R0; try lra; match goal with |- Rabs ?a <= _ => destruct (Rle_dec 0 a); [rewrite (Rabs_pos_eq a) by lra|rewrite (Rabs_left a) by lra] end; try rewrite Rabs_pos_eq by lra; lra).
  assert (A : round8 (1 / 200000000) = 0). { apply round8_spec. exists 0%Z. split; [field|]. right. split; [rewrite Rabs_pos_eq; lra|exists 0%Z; auto]. }
  assert (B : round8 (1 / 200000000 + 1 / 10000000000000) = 1 / 100000000). { apply round8_spec. exists 1%Z. split; auto. left. rewrite Rabs_left; lra. }
  unfold point_to_tuple. cbn [vx]. rewrite A, B. intros E. injection E. lra.
Qed.
Lemma valid_spec x y z : is_valid_pt (x, y, z) = true <-> x <> None /\ y <> None /\ z <> None.
Proof. destruct x, y, z; cbn; split; try discriminate; try (intros _; repeat split; discriminate); auto; intros (? & ? & ?); congruence. Qed.
Lemma hash_spec p q : (forall hash, point_to_hash hash p = point_to_hash hash q) <-> point_to_tuple p = point_to_tuple q.
Proof.
  unfold point_to_hash. split; [|intros -> hash; auto]. intros H. destruct (point_to_tuple p) as ((a, b), c), (point_to_tuple q) as ((a', b'), c').
  specialize (H (fun t => let '(u, v, w) := t in if Req_EM_T u a then if Req_EM_T v b then if Req_EM_T w c then 0%Z else 1%Z else 1%Z else 1%Z)). cbn in H.
  destruct (Req_EM_T a a); [|tauto]. destruct (Req_EM_T b b); [|tauto]. destruct (Req_EM_T c c); [|tauto]. destruct (Req_EM_T a' a) as [->|]; [|discriminate]. destruct (Req_EM_T b' b) as [->|]; [|discriminate]. destruct (Req_EM_T c' c) as [->|]; [auto|discriminate].
Qed.
