(** Proofs for floating point: rounding. *)
From Coq Require Import Reals List Bool Arith ZArith Lra Lia Psatz.
From Verif Require Import Prelude MeshModel VecModel VecProofs VoxModel VoxProofs GeomModel EqProofs SimModel FlModel FlSpec.
Import ListNotations.
Local Open Scope R_scope.

Notation b2 := (powerRZ 2).
Lemma b2_pos e : 0 < b2 e.
Proof. apply powerRZ_lt. lra. Qed.
Lemma b2_add a b : b2 (a + b) = b2 a * b2 b.
Proof. apply powerRZ_add. lra. Qed.
Lemma b2_nat n : b2 (Z.of_nat n) = IZR (2 ^ Z.of_nat n).
Proof. rewrite <- pow_powerRZ, <- pow_IZR. reflexivity. Qed.
Lemma b2_Z n : (0 <= n)%Z -> b2 n = IZR (2 ^ n).
Proof. intros H. rewrite <- (Z2Nat.id n) by auto. apply b2_nat. Qed.
Lemma b2_le a b : (a <= b)%Z -> b2 a <= b2 b.
Proof.
  intros H. replace b with (a + (b - a))%Z by lia. rewrite b2_add, (b2_Z (b - a)) by lia.
  assert (1 <= IZR (2 ^ (b - a))) by (apply IZR_le; pose proof (Z.pow_pos_nonneg 2 (b - a)); lia).
  pose proof (b2_pos a). nra.
Qed.
Lemma b2_mult a b : (a <= b)%Z -> exists k, b2 b = IZR k * b2 a /\ (1 <= k)%Z.
Proof.
  intros H. exists (2 ^ (b - a))%Z. split.
  - rewrite <- b2_Z by lia. rewrite <- b2_add. f_equal. lia.
  - pose proof (Z.pow_pos_nonneg 2 (b - a)). lia.
Qed.

Lemma f64_intro m e : (Z.abs m <= 2 ^ 53)%Z -> (-1074 <= e)%Z -> f64 (IZR m * b2 e).
Proof. intros. exists m, e. auto. Qed.
Lemma f64_0 : f64 0.
Proof. exists 0%Z, 0%Z. split; [lra|]. split; apply Z.leb_le; reflexivity. Qed.
Lemma f64_opp x : f64 x -> f64 (- x).
Proof. intros (m & e & -> & A & B). exists (- m)%Z, e. rewrite opp_IZR. split; [ring|]. rewrite Z.abs_opp. auto. Qed.
Lemma f64_1 : f64 1.
Proof. exists 1%Z, 0%Z. split; [simpl; lra|]. split; apply Z.leb_le; reflexivity. Qed.

(** Floats are whole multiples of the least one. *)
Lemma f64_whole x : f64 x -> exists k, x = IZR k * b2 (-1074).
Proof.
  intros (m & e & -> & A & B). destruct (b2_mult (-1074) e B) as (k & -> & _). exists (m * k)%Z. rewrite mult_IZR. ring.
Qed.

Section Near.
  Context (rnd : R -> R) (NR : to_nearest rnd).
  Lemma rnd_f64 x : f64 (rnd x).
  Proof. apply NR. Qed.
  Lemma rnd_near x y : f64 y -> Rabs (x - rnd x) <= Rabs (x - y).
  Proof. apply NR. Qed.
  Lemma rnd_id x : f64 x -> rnd x = x.
  Proof.
    intros F. pose proof (rnd_near x x F) as H. replace (x - x) with 0 in H by ring. rewrite Rabs_R0 in H.
    pose proof (Rabs_pos (x - rnd x)). assert (E : Rabs (x - rnd x) = 0) by lra.
    destruct (Req_dec (x - rnd x) 0) as [Z|Z]; [lra|]. apply Rabs_no_R0 in Z. contradiction.
  Qed.
  Lemma rnd_le x y : f64 y -> x <= y -> rnd x <= y.
  Proof.
    intros F L. pose proof (rnd_near x y F) as H. destruct (Rle_dec (rnd x) y); auto. exfalso.
    revert H. unfold Rabs. destruct (Rcase_abs (x - rnd x)), (Rcase_abs (x - y)); lra.
  Qed.
  Lemma rnd_ge x y : f64 y -> y <= x -> y <= rnd x.
  Proof.
    intros F L. pose proof (rnd_near x y F) as H. destruct (Rle_dec y (rnd x)); auto. exfalso.
    revert H. unfold Rabs. destruct (Rcase_abs (x - rnd x)), (Rcase_abs (x - y)); lra.
  Qed.
  Lemma rnd_between x a b : f64 a -> f64 b -> a <= x <= b -> a <= rnd x <= b /\ Rabs (x - rnd x) <= (b - a) / 2.
  Proof.
    intros Fa Fb (L1 & L2). split; [split; [apply rnd_ge|apply rnd_le]; auto|].
    pose proof (rnd_near x a Fa) as A. pose proof (rnd_near x b Fb) as B.
    rewrite (Rabs_pos_eq (x - a)) in A by lra. rewrite (Rabs_left1 (x - b)) in B by lra. lra.
  Qed.
End Near.

(** The two multiples of a power around a number. *)
Lemma around x e : exists m, IZR m * b2 e <= x < IZR (m + 1) * b2 e.
Proof.
  exists (VoxModel.floor (x / b2 e)). pose proof (floor_spec (x / b2 e)) as F. pose proof (b2_pos e) as P.
  rewrite plus_IZR. assert (E : x = (x / b2 e) * b2 e) by (field; lra). set (q := x / b2 e) in *. clearbody q. subst x. split; nra.
Qed.

Lemma log2_spec x : 0 < x -> b2 (VoxModel.floor (ln x / ln 2)) <= x < b2 (VoxModel.floor (ln x / ln 2) + 1).
Proof.
  intros P. pose proof (floor_spec (ln x / ln 2)) as F. set (z := VoxModel.floor (ln x / ln 2)) in *. clearbody z.
  assert (L2 : 0 < ln 2) by (rewrite <- ln_1; apply ln_increasing; lra).
  assert (E : x = Rpower 2 (ln x / ln 2)).
  { unfold Rpower. replace (ln x / ln 2 * ln 2) with (ln x) by (field; lra). symmetry. apply exp_ln. auto. }
  rewrite !powerRZ_Rpower by lra. split.
  - rewrite E at 1. destruct (Req_dec (IZR z) (ln x / ln 2)) as [->|N]; [apply Rle_refl|]. left. apply Rpower_lt; lra.
  - rewrite E at 1. apply Rpower_lt; [lra|]. rewrite plus_IZR. lra.
Qed.

Lemma two_52 : IZR (2 ^ 52) = b2 52.
Proof. rewrite b2_Z by lia. reflexivity. Qed.
Lemma two_53 : IZR (2 ^ 53) = b2 53.
Proof. rewrite b2_Z by lia. reflexivity. Qed.

(** Above the subnormal numbers. *)
Lemma binade x e : b2 (52 + e) <= x < b2 (53 + e) ->
  exists m, (2 ^ 52 <= m < 2 ^ 53)%Z /\ IZR m * b2 e <= x < IZR (m + 1) * b2 e.
Proof.
  intros (A & B). destruct (around x e) as (m & M1 & M2). exists m. split; [|auto]. pose proof (b2_pos e) as P.
  rewrite b2_add, <- two_52 in A. rewrite b2_add, <- two_53 in B.
  assert (L1 : IZR (2 ^ 52) < IZR (m + 1)) by (apply (Rmult_lt_reg_r (b2 e)); lra).
  assert (L2 : IZR m < IZR (2 ^ 53)) by (apply (Rmult_lt_reg_r (b2 e)); lra).
  apply lt_IZR in L1, L2. lia.
Qed.
Lemma magnitude x : b2 (-1022) <= x -> exists e, (-1074 <= e)%Z /\ b2 (52 + e) <= x < b2 (53 + e).
Proof.
  intros H. assert (P : 0 < x) by (pose proof (b2_pos (-1022)); lra). pose proof (log2_spec x P) as (A & B).
  set (z := VoxModel.floor (ln x / ln 2)) in *. clearbody z. exists (z - 52)%Z.
  replace (52 + (z - 52))%Z with z by lia. replace (53 + (z - 52))%Z with (z + 1)%Z by lia. split; auto.
  destruct (Z_lt_le_dec z (-1022)) as [C|C]; [|lia]. exfalso.
  assert (b2 (z + 1) <= b2 (-1022)) by (apply b2_le; lia). lra.
Qed.

Section Err.
  Context (rnd : R -> R) (NR : to_nearest rnd).

  (** The relative error. *)
  Lemma normal_error x : b2 (-1022) <= x -> Rabs (x - rnd x) <= ulp * x.
  Proof.
    intros H. destruct (magnitude x H) as (e & E & B). destruct (binade x e B) as (m & M & X).
    destruct (rnd_between rnd NR x (IZR m * b2 e) (IZR (m + 1) * b2 e)) as (_ & D); [apply f64_intro; lia|apply f64_intro; lia|lra|].
    rewrite plus_IZR in D. apply (Rle_trans _ _ _ D). replace ((((IZR m + 1) * b2 e) - IZR m * b2 e) / 2) with (b2 e / 2) by lra.
    destruct B as (B & _). assert (Q : b2 e / 2 = ulp * b2 (52 + e)).
    { unfold ulp. rewrite <- b2_add. replace (-53 + (52 + e))%Z with (-1 + e)%Z by lia. rewrite b2_add. simpl. lra. }
    rewrite Q. apply Rmult_le_compat_l; auto. left. apply b2_pos.
  Qed.
  Lemma small_whole k : 0 <= IZR k * b2 (-1074) < b2 (-1022) -> f64 (IZR k * b2 (-1074)).
  Proof.
    intros (A & B). pose proof (b2_pos (-1074)) as P. apply f64_intro; [|lia].
    assert (A' : 0 <= IZR k) by (apply (Rmult_le_reg_r (b2 (-1074))); lra).
    replace (-1022)%Z with (52 + -1074)%Z in B by reflexivity. rewrite b2_add, <- two_52 in B.
    assert (B' : IZR k < IZR (2 ^ 52)) by (apply (Rmult_lt_reg_r (b2 (-1074))); lra).
    apply le_IZR in A'. apply lt_IZR in B'. lia.
  Qed.
  Lemma sum_error x y : f64 x -> f64 y -> 0 <= x + y -> Rabs (x + y - rnd (x + y)) <= ulp * (x + y).
  Proof.
    intros Fx Fy P. destruct (Rle_dec (b2 (-1022)) (x + y)) as [L|L]; [apply normal_error; auto|].
    destruct (f64_whole x Fx) as (k & Ek). destruct (f64_whole y Fy) as (l & El).
    assert (F : f64 (x + y)).
    { replace (x + y) with (IZR (k + l) * b2 (-1074)) by (rewrite plus_IZR, Ek, El; ring). apply small_whole.
      replace (IZR (k + l) * b2 (-1074)) with (x + y) by (rewrite plus_IZR, Ek, El; ring). lra. }
    rewrite (rnd_id rnd NR _ F). replace (x + y - (x + y)) with 0 by ring. rewrite Rabs_R0.
    apply Rmult_le_pos; auto. left. apply b2_pos.
  Qed.

  (** Up to a power the error is at most half of the last digit before it. *)
  Lemma range_error x k : (-1021 <= k)%Z -> 0 <= x <= b2 k -> Rabs (x - rnd x) <= b2 (k - 53) / 2.
  Proof.
    intros K (A & B). destruct (around x (k - 53)) as (m & M1 & M2). pose proof (b2_pos (k - 53)) as P.
    assert (O : b2 k = IZR (2 ^ 53) * b2 (k - 53)) by (rewrite two_53, <- b2_add; f_equal; lia).
    assert (L1 : (-1 < m)%Z).
    { apply lt_IZR. apply (Rmult_lt_reg_r (b2 (k - 53))); auto. rewrite plus_IZR in M2. lra. }
    assert (L2 : (m <= 2 ^ 53)%Z).
    { apply le_IZR. apply (Rmult_le_reg_r (b2 (k - 53))); auto. lra. }
    destruct (Z.eq_dec m (2 ^ 53)) as [->|N].
    - assert (E : x = IZR (2 ^ 53) * b2 (k - 53)) by lra. rewrite (rnd_id rnd NR x).
      + replace (x - x) with 0 by ring. rewrite Rabs_R0. lra.
      + rewrite E. apply f64_intro; lia.
    - destruct (rnd_between rnd NR x (IZR m * b2 (k - 53)) (IZR (m + 1) * b2 (k - 53))) as (_ & D); [apply f64_intro; lia|apply f64_intro; lia|lra|].
      rewrite plus_IZR in D. lra.
  Qed.
  Lemma unit_error x : 0 <= x <= 1 -> Rabs (x - rnd x) <= ulp / 2.
  Proof. intros H. apply (range_error x 0); [lia|exact H]. Qed.
  Lemma half_error x : 0 <= x <= 1 / 2 -> Rabs (x - rnd x) <= ulp / 4.
  Proof.
    intros H. assert (E : b2 (-1) = 1 / 2) by (simpl; lra). pose proof (range_error x (-1)) as R1. rewrite E in R1.
    replace (ulp / 4) with (b2 (-1 - 53) / 2); [apply R1; [lia|auto]|]. unfold ulp. replace (-1 - 53)%Z with (-1 + -53)%Z by lia. rewrite b2_add, E. lra.
  Qed.
End Err.

(** ** round64 *)
Lemma rint_nearest x k : Rabs (x - IZR (rint x)) <= Rabs (x - IZR k).
Proof.
  assert (H : Rabs (x - IZR (rint x)) <= 1 / 2) by (destruct (rint_near x) as [H|(H & _)]; lra).
  destruct (Z.eq_dec k (rint x)) as [->|N]; [apply Rle_refl|].
  assert (D : 1 <= Rabs (IZR k - IZR (rint x))).
  { rewrite <- minus_IZR. rewrite <- abs_IZR. apply IZR_le. lia. }
  assert (T : Rabs (IZR k - IZR (rint x)) <= Rabs (x - IZR k) + Rabs (x - IZR (rint x))).
  { replace (IZR k - IZR (rint x)) with (- (x - IZR k) + (x - IZR (rint x))) by ring.
    eapply Rle_trans; [apply Rabs_triang|]. rewrite Rabs_Ropp. lra. }
  lra.
Qed.
Lemma round_grid x e k : Rabs (x - IZR (rint (x / b2 e)) * b2 e) <= Rabs (x - IZR k * b2 e).
Proof.
  pose proof (b2_pos e) as P.
  assert (S : forall m, Rabs (x - IZR m * b2 e) = Rabs (x / b2 e - IZR m) * b2 e).
  { intros m. rewrite <- (Rabs_pos_eq (b2 e)) at 3 by lra. rewrite <- Rabs_mult. f_equal. field. lra. }
  rewrite !S. apply Rmult_le_compat_r; [lra|]. apply rint_nearest.
Qed.

Lemma round64_nearest : to_nearest round64.
Proof.
  intros x. unfold round64. destruct (Req_EM_T x 0) as [->|N].
  - split; [apply f64_0|]. intros y _. rewrite Rminus_0_r, Rabs_R0. apply Rabs_pos.
  - assert (P : 0 < Rabs x) by (apply Rabs_pos_lt; auto). pose proof (log2_spec (Rabs x) P) as (A & B).
    set (z := VoxModel.floor (ln (Rabs x) / ln 2)) in *. assert (Ee : expo x = Z.max (z - 52) (-1074)) by reflexivity.
    clearbody z. set (e := expo x) in *. clearbody e. pose proof (b2_pos e) as Pe.
    assert (U : Rabs x <= b2 (53 + e)) by (apply Rlt_le, Rlt_le_trans with (1 := B), b2_le; lia).
    assert (M : (Z.abs (rint (x / b2 e)) <= 2 ^ 53)%Z).
    { assert (Q : Rabs (x / b2 e) <= IZR (2 ^ 53)).
      { rewrite two_53. unfold Rdiv. rewrite Rabs_mult, (Rabs_pos_eq (/ b2 e)) by (left; apply Rinv_0_lt_compat; auto).
        apply (Rmult_le_reg_r (b2 e)); auto. rewrite Rmult_assoc, Rinv_l, Rmult_1_r by lra. rewrite <- b2_add. auto. }
      apply le_IZR. rewrite abs_IZR.
      assert (C : IZR (Z.abs (rint (x / b2 e))) < IZR (2 ^ 53) + 1).
      { rewrite abs_IZR. assert (H : Rabs (x / b2 e - IZR (rint (x / b2 e))) <= 1 / 2) by (destruct (rint_near (x / b2 e)) as [H|(H & _)]; lra).
        pose proof (Rabs_triang (- (x / b2 e - IZR (rint (x / b2 e)))) (x / b2 e)) as T. rewrite Rabs_Ropp in T.
        replace (- (x / b2 e - IZR (rint (x / b2 e))) + x / b2 e) with (IZR (rint (x / b2 e))) in T by ring. lra. }
      rewrite <- (plus_IZR _ 1) in C. apply lt_IZR in C. rewrite <- abs_IZR. apply IZR_le. lia. }
    split; [apply f64_intro; lia|]. intros y (m & f & -> & Am & Bf).
    destruct (Z_le_gt_dec e f) as [C|C].
    + destruct (b2_mult e f C) as (k & -> & _). rewrite <- Rmult_assoc, <- mult_IZR. apply round_grid.
    + (* a finer float: at most 2^(52+e) away from 0 *)
      assert (Ez : e = (z - 52)%Z) by lia. subst e. replace (z - 52)%Z with (z - 52)%Z in * by lia.
      assert (S1 : Rabs (IZR m * b2 f) <= b2 z).
      { rewrite Rabs_mult, (Rabs_pos_eq (b2 f)) by (left; apply b2_pos). rewrite <- abs_IZR.
        apply Rle_trans with (IZR (2 ^ 53) * b2 f).
        - apply Rmult_le_compat_r; [left; apply b2_pos|]. apply IZR_le. auto.
        - rewrite two_53, <- b2_add. apply b2_le. lia. }
      assert (Z52 : b2 z = IZR (2 ^ 52) * b2 (z - 52)) by (rewrite two_52, <- b2_add; f_equal; lia).
      assert (S2 : Rabs x - b2 z <= Rabs (x - IZR m * b2 f)).
      { pose proof (Rabs_triang (x - IZR m * b2 f) (IZR m * b2 f)) as T. replace (x - IZR m * b2 f + IZR m * b2 f) with x in T by ring. lra. }
      apply Rle_trans with (Rabs x - b2 z); auto.
      assert (S3 : exists k, Rabs (x - IZR k * b2 (z - 52)) = Rabs x - b2 z).
      { destruct (Rle_dec 0 x) as [Px|Px].
        - exists (2 ^ 52)%Z. rewrite <- Z52, !Rabs_pos_eq by (rewrite ?Rabs_pos_eq in A; lra). auto.
        - exists (- 2 ^ 52)%Z. rewrite opp_IZR. replace (x - - IZR (2 ^ 52) * b2 (z - 52)) with (x + b2 z) by (rewrite Z52; ring).
          rewrite (Rabs_left x) in * by lra. rewrite Rabs_left1; lra. }
      destruct S3 as (k & <-). rewrite Ez. apply round_grid.
Qed.
