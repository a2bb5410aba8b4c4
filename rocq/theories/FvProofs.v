(** Proofs for the voxel grid in floating point: more about rounding. *)
From Coq Require Import Reals List Bool Arith ZArith Lra Lia Psatz.
From Verif Require Import Prelude MeshModel VecModel VecProofs VoxModel VoxSpec VoxProofs EqProofs SimModel FlModel FlSpec FlProofs FvModel FvSpec.
Import ListNotations.
Local Open Scope R_scope.

(** Rounding mirrored at 0. *)
Definition mirror (rnd : R -> R) (x : R) : R := - rnd (- x).
Lemma mirror_nearest rnd : to_nearest rnd -> to_nearest (mirror rnd).
Proof.
  intros NR x. unfold mirror. destruct (NR (- x)) as (F & N). split; [apply f64_opp; auto|]. intros y Fy.
  specialize (N (- y) (f64_opp _ Fy)). rewrite <- (Rabs_Ropp (x - - rnd (- x))), <- (Rabs_Ropp (x - y)).
  replace (- (x - - rnd (- x))) with (- x - rnd (- x)) by ring. replace (- (x - y)) with (- x - - y) by ring. auto.
Qed.

(** No float strictly between neighbours. *)
Lemma between_none m e y : (2 ^ 52 <= m)%Z -> (-1074 <= e)%Z -> f64 y -> ~ (IZR m * b2 e < y < IZR (m + 1) * b2 e).
Proof.
  intros M E (n & f & -> & An & Bf) (L & U). pose proof (b2_pos e) as Pe.
  destruct (Z_le_gt_dec e f) as [C|C].
  - destruct (b2_mult e f C) as (k & K & _). rewrite K, <- Rmult_assoc, <- mult_IZR in L, U.
    apply Rmult_lt_reg_r in L; auto. apply Rmult_lt_reg_r in U; auto. apply lt_IZR in L, U. lia.
  - assert (b2 f * 2 <= b2 e).
    { replace (b2 f * 2) with (b2 (f + 1)) by (rewrite b2_add; simpl; ring). apply b2_le. lia. }
    assert (IZR n <= IZR (2 ^ 53)) by (apply IZR_le; lia). assert (IZR (2 ^ 52) <= IZR m) by (apply IZR_le; auto).
    pose proof (b2_pos f). assert (D : IZR (2 ^ 53) = 2 * IZR (2 ^ 52)) by (rewrite <- mult_IZR; reflexivity).
    assert (0 < IZR (2 ^ 52)) by (apply IZR_lt; reflexivity).
    assert (IZR n * b2 f <= IZR (2 ^ 53) * b2 f) by (apply Rmult_le_compat_r; lra).
    assert (IZR (2 ^ 52) * (b2 f * 2) <= IZR m * b2 e) by (apply Rmult_le_compat; lra). lra.
Qed.

Section Near2.
  Context (rnd : R -> R) (NR : to_nearest rnd).

  Lemma rnd_mono x y : x <= y -> rnd x <= rnd y.
  Proof.
    intros L. destruct (Rle_dec (rnd x) (rnd y)) as [H|H]; auto. exfalso.
    pose proof (rnd_f64 rnd NR x) as Fx. pose proof (rnd_f64 rnd NR y) as Fy.
    destruct (Rle_dec x (rnd y)) as [A|A]; [pose proof (rnd_le rnd NR x _ Fy A); lra|].
    destruct (Rle_dec (rnd x) y) as [B|B]; [pose proof (rnd_ge rnd NR y _ Fx B); lra|].
    pose proof (rnd_near rnd NR x _ Fy) as X. pose proof (rnd_near rnd NR y _ Fx) as Y.
    rewrite (Rabs_left1 (x - rnd x)), (Rabs_pos_eq (x - rnd y)) in X by lra.
    rewrite (Rabs_pos_eq (y - rnd y)), (Rabs_left1 (y - rnd x)) in Y by lra.
    assert (E : x = y) by lra. rewrite E in H. lra.
  Qed.

  Lemma err_pos x : 0 <= x -> Rabs (x - rnd x) <= ulp * x + b2 (-1075).
  Proof.
    intros P. pose proof (b2_pos (-1075)) as T. assert (U : 0 < ulp) by apply b2_pos.
    destruct (Rle_dec (b2 (-1022)) x) as [H|H]; [pose proof (normal_error rnd NR x H); lra|].
    assert (L : b2 (-1022) <= b2 (-1021)) by (apply b2_le; lia).
    pose proof (range_error rnd NR x (-1021)) as R1. replace (-1021 - 53)%Z with (1 + -1075)%Z in R1 by lia. rewrite b2_add in R1.
    assert (b2 1 = 2) by (simpl; ring). specialize (R1 ltac:(lia) ltac:(lra)). nra.
  Qed.

  (** Rounding to a given float. *)
  Lemma rnd_is x m e : (2 ^ 52 < m < 2 ^ 53)%Z -> (-1074 <= e)%Z -> Rabs (x - IZR m * b2 e) < b2 e / 2 -> rnd x = IZR m * b2 e.
  Proof.
    intros M E D. pose proof (b2_pos e) as Pe. pose proof (rnd_f64 rnd NR x) as F.
    assert (Fm : f64 (IZR m * b2 e)) by (apply f64_intro; lia).
    pose proof (rnd_near rnd NR x _ Fm) as N. set (y := rnd x) in *. clearbody y.
    assert (Dy : Rabs (y - IZR m * b2 e) < b2 e).
    { replace (y - IZR m * b2 e) with (- (x - y) + (x - IZR m * b2 e)) by ring.
      eapply Rle_lt_trans; [apply Rabs_triang|]. rewrite Rabs_Ropp. lra. }
    apply Rabs_def2 in Dy. destruct (Rtotal_order y (IZR m * b2 e)) as [L|[L|L]]; auto; exfalso.
    - apply (between_none (m - 1) e y); [lia|auto|auto|]. replace (m - 1 + 1)%Z with m by lia. rewrite minus_IZR. lra.
    - apply (between_none m e y); [lia|auto|auto|]. rewrite plus_IZR. lra.
  Qed.
End Near2.

Lemma err_any rnd x : to_nearest rnd -> Rabs (x - rnd x) <= ulp * Rabs x + b2 (-1075).
Proof.
  intros NR. destruct (Rle_dec 0 x) as [P|P].
  - rewrite (Rabs_pos_eq x) by auto. apply err_pos; auto.
  - rewrite (Rabs_left1 x) by lra. pose proof (err_pos (mirror rnd) (mirror_nearest _ NR) (- x) ltac:(lra)) as H.
    unfold mirror in H. rewrite Ropp_involutive in H. rewrite <- Rabs_Ropp. replace (- (x - rnd x)) with (- x - - rnd x) by ring. auto.
Qed.

Lemma ulp_lt : 0 < ulp /\ ulp * 5000000 <= 6 / 10 ^ 10.
Proof.
  split; [apply b2_pos|]. unfold ulp. replace (b2 (-53)) with (/ IZR (2 ^ 53)) by (rewrite two_53; reflexivity).
  change (2 ^ 53)%Z with 9007199254740992%Z. lra.
Qed.

(** Errors relative to the size of a cell. *)
Definition dl : R := 6 / 10 ^ 10.
Section Scaled.
  Context (rnd : R -> R) (NR : to_nearest rnd) (s : R) (CS : cell_size s).
  Lemma size_pos : 0 < s.
  Proof. destruct CS as (_ & H). pose proof (b2_pos (-900)). lra. Qed.
  Lemma rnd_scaled X : Rabs X <= 4999999 -> exists d, Rabs d <= dl /\ rnd (X * s) = (X + d) * s.
  Proof.
    intros H. pose proof size_pos as P. pose proof ulp_lt as (U0 & U). exists ((rnd (X * s) - X * s) / s). split; [|field; lra].
    unfold Rdiv. rewrite Rabs_mult, (Rabs_pos_eq (/ s)) by (left; apply Rinv_0_lt_compat; auto).
    apply (Rmult_le_reg_r s); auto. rewrite Rmult_assoc, Rinv_l, Rmult_1_r by lra. rewrite Rabs_minus_sym.
    eapply Rle_trans; [apply err_any; auto|]. rewrite Rabs_mult, (Rabs_pos_eq s) by lra.
    assert (T : b2 (-1075) <= ulp * s).
    { destruct CS as (_ & L). apply Rle_trans with (ulp * b2 (-900)); [|apply Rmult_le_compat_l; lra].
      unfold ulp. rewrite <- b2_add. apply b2_le. lia. }
    assert (ulp * (Rabs X * s) <= ulp * (4999999 * s)) by (apply Rmult_le_compat_l; [lra|apply Rmult_le_compat_r; lra]).
    unfold dl. nra.
  Qed.
  Lemma rnd_unscaled X : Rabs X <= 4999999 -> exists d, Rabs d <= dl /\ rnd X = X + d.
  Proof.
    intros H. pose proof ulp_lt as (U0 & U). exists (rnd X - X). split; [|ring]. rewrite Rabs_minus_sym.
    eapply Rle_trans; [apply err_any; auto|].
    assert (T : b2 (-1075) <= ulp) by (unfold ulp; apply b2_le; lia).
    assert (ulp * Rabs X <= ulp * 4999999) by (apply Rmult_le_compat_l; lra). unfold dl. lra.
  Qed.
End Scaled.
