(** Proofs for floating point: random numbers. *)
From Coq Require Import Reals List Bool Arith ZArith Lra Lia Psatz.
From Verif Require Import Prelude MeshModel VecModel VecProofs VoxModel GeomModel EqProofs SimModel FlModel FlSpec FlProofs FlProofs2.
Import ListNotations.
Local Open Scope R_scope.

(** From a power on floats are multiples of the last digit. *)
Lemma on_grid x e : f64 x -> b2 (52 + e) <= x -> exists k, x = IZR k * b2 e.
Proof.
  intros (m & f & -> & A & B) H. destruct (Z_le_gt_dec e f) as [C|C].
  - destruct (b2_mult e f C) as (k & -> & _). exists (m * k)%Z. rewrite mult_IZR. ring.
  - exists (2 ^ 52)%Z. rewrite two_52, <- b2_add. apply Rle_antisym; auto.
    apply Rle_trans with (IZR (2 ^ 53) * b2 f).
    + apply Rmult_le_compat_r; [left; apply b2_pos|]. apply IZR_le. lia.
    + rewrite two_53, <- b2_add. apply b2_le. lia.
Qed.

Section Rand.
  Context (rnd : R -> R) (NR : to_nearest rnd).

  (** A fraction below 1 of a rounded difference is at most the difference. *)
  Lemma part_le D u : 0 <= D -> (f64 D \/ b2 (-1022) <= D) -> 0 <= u <= 1 - ulp -> 0 <= rnd (u * rnd D) <= D.
  Proof.
    intros P C (U0 & U1). pose proof ulp_pos as UP. assert (D0 : 0 <= rnd D) by (apply (rnd_ge rnd NR); auto using f64_0).
    split; [apply (rnd_ge rnd NR); [apply f64_0|apply Rmult_le_pos; auto]|].
    destruct (Rle_dec (rnd D) D) as [L|L].
    { apply Rle_trans with (rnd D); auto. apply (rnd_le rnd NR); [apply (rnd_f64 rnd NR)|nra]. }
    destruct C as [C|C]; [rewrite (rnd_id rnd NR D C) in L; lra|].
    destruct (magnitude D C) as (e & E & B). destruct (binade D e B) as (m & M & X). pose proof (b2_pos e) as G.
    assert (Fm : f64 (IZR m * b2 e)) by (apply f64_intro; lia). assert (Fm1 : f64 (IZR (m + 1) * b2 e)) by (apply f64_intro; lia).
    assert (Hm : b2 (52 + e) <= IZR m * b2 e) by (rewrite b2_add, <- two_52; apply Rmult_le_compat_r; [lra|]; apply IZR_le; lia).
    destruct (rnd_between rnd NR D _ _ Fm Fm1) as ((B1 & B2) & _); [lra|].
    destruct (on_grid (rnd D) e (rnd_f64 rnd NR _)) as (k & K); [lra|].
    assert (k1 : (m < k)%Z) by (apply lt_IZR, (Rmult_lt_reg_r (b2 e)); auto; lra).
    assert (k2 : (k <= m + 1)%Z) by (apply le_IZR, (Rmult_le_reg_r (b2 e)); auto; lra).
    assert (k = m + 1)%Z by lia. subst k. rewrite K. clear k1 k2 B1 B2.
    pose proof (rnd_near rnd NR D _ Fm) as N. rewrite K in N. rewrite Rabs_left1, Rabs_pos_eq in N by lra.
    rewrite plus_IZR in *. set (g := b2 e) in *. set (M1 := IZR m) in *.
    assert (Big : 1 / 2 < (M1 + 1) * ulp).
    { assert (HM : IZR (2 ^ 52) * ulp = 1 / 2) by (unfold ulp; rewrite two_52, <- b2_add; simpl; lra).
      rewrite <- HM. apply Rmult_lt_compat_r; auto. unfold M1. rewrite <- (plus_IZR m 1). apply IZR_lt. lia. }
    assert (Low : u * ((M1 + 1) * g) < (M1 + 1 / 2) * g).
    { apply Rle_lt_trans with ((1 - ulp) * ((M1 + 1) * g)).
      - apply Rmult_le_compat_r; [|lra]. pose proof (b2_pos (52 + e)). nra.
      - replace ((1 - ulp) * ((M1 + 1) * g)) with ((M1 + 1) * g - (M1 + 1) * ulp * g) by ring. nra. }
    apply Rle_trans with (M1 * g); [|lra]. set (y := u * ((M1 + 1) * g)) in *.
    destruct (Rle_dec y (M1 * g)) as [Q|Q]; [apply (rnd_le rnd NR); auto|].
    destruct (Rle_dec (rnd y) (M1 * g)) as [W|W]; auto. exfalso.
    destruct (on_grid (rnd y) e (rnd_f64 rnd NR _)) as (k & K'); [lra|]. fold g in K'.
    assert (k1 : (m < k)%Z) by (apply lt_IZR, (Rmult_lt_reg_r g); auto; fold M1; lra).
    assert (k2 : M1 + 1 <= IZR k) by (unfold M1; rewrite <- (plus_IZR m 1); apply IZR_le; lia).
    assert (k3 : (M1 + 1) * g <= IZR k * g) by (apply Rmult_le_compat_r; lra).
    pose proof (rnd_near rnd NR y _ Fm) as N'. rewrite K' in N'. rewrite Rabs_left1, Rabs_pos_eq in N' by lra. lra.
  Qed.

  Lemma between_range lo hi u : f64 lo -> f64 hi -> 0 <= u <= 1 - ulp ->
    Rmin lo hi <= fbetween rnd lo hi u <= Rmax lo hi.
  Proof.
    intros Fl Fh U.
    assert (Main : forall a b, f64 a -> f64 b -> a <= b -> a <= rnd (rnd (u * rnd (b - a)) + a) <= b).
    { intros a b Fa Fb L. destruct (part_le (b - a) u) as (P & Q); auto; [lra| |].
      - destruct (Rle_dec (b2 (-1022)) (b - a)) as [C|C]; auto. left.
        destruct (f64_whole a Fa) as (k & Ek). destruct (f64_whole b Fb) as (l & El).
        assert (E : b - a = IZR (l - k) * b2 (-1074)) by (rewrite minus_IZR, Ek, El; ring).
        rewrite E. apply small_whole. rewrite <- E. lra.
      - split; [apply (rnd_ge rnd NR)|apply (rnd_le rnd NR)]; auto; lra. }
    unfold fbetween. destruct (Rltb hi lo) eqn:L.
    - apply Rltb_true in L. rewrite Rmin_right, Rmax_left by lra. apply Main; auto. lra.
    - apply Rltb_false in L. rewrite Rmin_left, Rmax_right by lra. apply Main; auto.
  Qed.

  Lemma f64_Z z : (Z.abs z <= 2 ^ 53)%Z -> f64 (IZR z).
  Proof. intros H. exists z, 0%Z. split; [simpl; lra|]. split; auto. apply Z.leb_le. reflexivity. Qed.
  Lemma f64_below_1 : f64 (1 - ulp).
  Proof.
    replace (1 - ulp) with (IZR (2 ^ 53 - 1) * ulp) by (rewrite minus_IZR, Rmult_minus_distr_r, <- one_ulp; ring). apply f64_intro; lia.
  Qed.
  Lemma between_top : fbetween rnd 2 3 (1 - ulp) = 3.
  Proof.
    unfold fbetween. assert (L : Rltb 3 2 = false) by (apply Rltb_false; lra). rewrite L. clear L.
    replace (3 - 2) with 1 by ring. rewrite (rnd_id rnd NR 1 f64_1), Rmult_1_r, (rnd_id rnd NR _ f64_below_1).
    pose proof ulp_pos as U. assert (U4 : b2 (-51) = 4 * ulp) by (unfold ulp; replace (-51)%Z with (2 + -53)%Z by reflexivity; rewrite b2_add; simpl; lra).
    assert (T : 3 = IZR (3 * 2 ^ 51) * b2 (-51)).
    { rewrite mult_IZR, <- b2_Z, Rmult_assoc, <- b2_add by lia. simpl. lra. }
    assert (Fa : f64 (IZR (3 * 2 ^ 51 - 1) * b2 (-51))) by (apply f64_intro; lia).
    assert (Ea : IZR (3 * 2 ^ 51 - 1) * b2 (-51) = 3 - 4 * ulp) by (rewrite minus_IZR, Rmult_minus_distr_r, <- T, U4; ring).
    assert (F3 : f64 3) by (apply f64_Z; lia).
    assert (Us : ulp < 1 / 8).
    { unfold ulp. apply Rle_lt_trans with (b2 (-4)); [apply b2_le; lia|simpl; lra]. }
    rewrite Ea in Fa. set (x := 1 - ulp + 2). destruct (rnd_between rnd NR x _ _ Fa F3) as ((B1 & B2) & _); [unfold x; lra|].
    destruct (on_grid (rnd x) (-51) (rnd_f64 rnd NR _)) as (k & K); [change (b2 (52 + -51)) with (2 * 1); lra|].
    rewrite K in B1, B2. rewrite <- Ea in B1. apply Rle_trans with (r3 := IZR (3 * 2 ^ 51) * b2 (-51)) in B2; [|lra].
    pose proof (b2_pos (-51)) as P. apply Rmult_le_reg_r in B1, B2; auto. apply le_IZR in B1, B2.
    assert (k = 3 * 2 ^ 51 \/ k = 3 * 2 ^ 51 - 1)%Z as [-> | ->] by lia; [rewrite K; auto|].
    exfalso. pose proof (rnd_near rnd NR x 3 F3) as N. rewrite K, Ea in N. unfold x in N. rewrite Rabs_pos_eq, Rabs_left1 in N by lra. lra.
  Qed.

  (** random_within *)
  Lemma f64_double x : f64 x -> f64 (2 * x).
  Proof.
    intros (m & e & -> & A & B). exists m, (1 + e)%Z. split; [rewrite b2_add; simpl; ring|]. split; auto. lia.
  Qed.
  Lemma f64_half : f64 (1 / 2).
  Proof. exists 1%Z, (-1)%Z. split; [simpl; lra|]. split; apply Z.leb_le; reflexivity. Qed.
  Lemma within_range lim u : f64 lim -> 0 <= u <= 1 -> Rabs (fwithin rnd lim u) <= Rabs lim.
  Proof.
    intros F U. unfold fwithin. destruct (Req_EM_T lim 0) as [->|N]; [lra|].
    rewrite (rnd_id rnd NR (2 * lim)) by (apply f64_double; auto).
    assert (H : - (1 / 2) <= rnd (u - 1 / 2) <= 1 / 2).
    { split; [apply (rnd_ge rnd NR)|apply (rnd_le rnd NR)]; try lra; [apply f64_opp|]; apply f64_half. }
    set (v := rnd (u - 1 / 2)) in *. clearbody v.
    assert (B : - Rabs lim <= 2 * lim * v <= Rabs lim) by (unfold Rabs; destruct (Rcase_abs lim); nra).
    assert (Fa : f64 (Rabs lim)) by (unfold Rabs; destruct (Rcase_abs lim); [apply f64_opp|]; auto).
    apply Rabs_le. split; [apply (rnd_ge rnd NR)|apply (rnd_le rnd NR)]; auto; [apply f64_opp; auto|apply B|apply B].
  Qed.
  (** The limit itself is not reached, unless it is tiny. *)
  Lemma within_below lim u : f64 lim -> b2 (-1022) <= lim -> f64 u -> 0 <= u <= 1 - ulp -> fwithin rnd lim u < lim.
  Proof.
    intros F L Fu U. unfold fwithin. pose proof (b2_pos (-1022)) as Pm. destruct (Req_EM_T lim 0) as [->|N]; [lra|].
    rewrite (rnd_id rnd NR (2 * lim)) by (apply f64_double; auto). pose proof ulp_pos as UP.
    assert (Us : ulp < 1 / 8).
    { unfold ulp. apply Rle_lt_trans with (b2 (-4)); [apply b2_le; lia|simpl; lra]. }
    assert (H : rnd (u - 1 / 2) <= 1 / 2 - ulp).
    { apply (rnd_le rnd NR); [|lra].
      replace (1 / 2 - ulp) with (IZR (2 ^ 52 - 1) * ulp); [apply f64_intro; lia|].
      rewrite minus_IZR. assert (HM : IZR (2 ^ 52) * ulp = 1 / 2) by (unfold ulp; rewrite two_52, <- b2_add; simpl; lra). lra. }
    set (v := rnd (u - 1 / 2)) in *. clearbody v.
    destruct (magnitude lim L) as (e & E & B). destruct (binade lim e B) as (m & M & X). pose proof (b2_pos e) as G.
    destruct (on_grid lim e F) as (k & K); [lra|].
    assert (k1 : (m <= k)%Z) by (apply le_IZR, (Rmult_le_reg_r (b2 e)); auto; lra).
    assert (F1 : f64 (IZR (k - 1) * b2 e)).
    { apply f64_intro; auto. destruct X as (_ & X). rewrite K in X. apply Rmult_lt_reg_r in X; auto. apply lt_IZR in X. lia. }
    apply Rle_lt_trans with (IZR (k - 1) * b2 e); [|rewrite K at 1; apply Rmult_lt_compat_r; auto; apply IZR_lt; lia].
    apply (rnd_le rnd NR); auto.
    assert (B1 : b2 e <= 2 * lim * ulp).
    { destruct B as (B & _). replace (b2 e) with (2 * b2 (52 + e) * ulp); [nra|]. unfold ulp. rewrite Rmult_assoc, <- b2_add.
      replace (52 + e + -53)%Z with (-1 + e)%Z by lia. rewrite b2_add. simpl. lra. }
    rewrite minus_IZR, Rmult_minus_distr_r, <- K. nra.
  Qed.
  Lemma within_tiny : fwithin rnd (b2 (-1074)) (1 - ulp) = b2 (-1074).
  Proof.
    unfold fwithin. set (t := b2 (-1074)). assert (P : 0 < t) by apply b2_pos. destruct (Req_EM_T t 0) as [C|_]; [lra|].
    assert (Ft : f64 t) by (replace t with (IZR 1 * b2 (-1074)) by (unfold t; ring); apply f64_intro; lia).
    rewrite (rnd_id rnd NR (2 * t)) by (apply f64_double; auto). pose proof ulp_pos as UP.
    assert (Us : ulp < 1 / 8).
    { unfold ulp. apply Rle_lt_trans with (b2 (-4)); [apply b2_le; lia|simpl; lra]. }
    assert (HM : IZR (2 ^ 52) * ulp = 1 / 2) by (unfold ulp; rewrite two_52, <- b2_add; simpl; lra).
    assert (Fv : f64 (1 - ulp - 1 / 2)).
    { replace (1 - ulp - 1 / 2) with (IZR (2 ^ 52 - 1) * ulp) by (rewrite minus_IZR, Rmult_minus_distr_r, HM; lra). apply f64_intro; lia. }
    rewrite (rnd_id rnd NR _ Fv). set (x := 2 * t * (1 - ulp - 1 / 2)).
    assert (Hx : 3 / 4 * t <= x <= t) by (unfold x; nra).
    destruct (rnd_between rnd NR x 0 t f64_0 Ft) as ((B1 & B2) & _); [lra|].
    destruct (f64_whole (rnd x) (rnd_f64 rnd NR _)) as (k & K). fold t in K. rewrite K in B1, B2.
    assert (k1 : (0 <= k)%Z) by (apply le_IZR, (Rmult_le_reg_r t); auto; lra).
    assert (k2 : (k <= 1)%Z) by (apply le_IZR, (Rmult_le_reg_r t); auto; lra).
    assert (k = 1 \/ k = 0)%Z as [-> | ->] by lia; [rewrite K; ring|].
    exfalso. pose proof (rnd_near rnd NR x t Ft) as N. rewrite K in N. replace (x - 0 * t) with x in N by ring. rewrite Rabs_pos_eq, Rabs_left1 in N by lra. lra.
  Qed.
End Rand.
