(** Proofs for the voxel grid in floating point: seams between cells. *)
From Coq Require Import Reals List Bool Arith ZArith Lra Lia Psatz.
From Verif Require Import Prelude MeshModel VecModel VecProofs VoxModel VoxSpec VoxProofs EqProofs SimModel FlModel FlSpec FlProofs FvModel FvSpec FvProofs.
Import ListNotations.
Local Open Scope R_scope.

Lemma b2_lt_inv a b : b2 a < b2 b -> (a < b)%Z.
Proof. intros H. destruct (Z_lt_le_dec a b) as [|L]; auto. apply b2_le in L. lra. Qed.

(** The next float on one side. *)
Section Two.
  Context (rnd : R -> R) (NR : to_nearest rnd).
  Lemma rnd_either x m e : (2 ^ 52 <= m < 2 ^ 53)%Z -> (-1074 <= e)%Z -> IZR m * b2 e <= x <= IZR (m + 1) * b2 e ->
    (rnd x = IZR m * b2 e /\ x <= IZR m * b2 e + b2 e / 2) \/ (rnd x = IZR (m + 1) * b2 e /\ IZR m * b2 e + b2 e / 2 <= x).
  Proof.
    intros M E B. assert (F1 : f64 (IZR m * b2 e)) by (apply f64_intro; lia). assert (F2 : f64 (IZR (m + 1) * b2 e)) by (apply f64_intro; lia).
    destruct (rnd_between rnd NR x _ _ F1 F2 B) as ((L & U) & _). pose proof (rnd_f64 rnd NR x) as F.
    pose proof (rnd_near rnd NR x _ F1) as N1. pose proof (rnd_near rnd NR x _ F2) as N2. pose proof (b2_pos e) as P.
    rewrite plus_IZR in *. rewrite (Rabs_pos_eq (x - IZR m * b2 e)) in N1 by lra. rewrite (Rabs_left1 (x - (IZR m + 1) * b2 e)) in N2 by lra.
    destruct (Req_dec (rnd x) (IZR m * b2 e)) as [Q|Q].
    - left. split; auto. rewrite Q in N2. rewrite (Rabs_pos_eq (x - IZR m * b2 e)) in N2 by lra. lra.
    - right. assert (T : rnd x = (IZR m + 1) * b2 e).
      { destruct (Req_dec (rnd x) ((IZR m + 1) * b2 e)) as [T|T]; auto. exfalso.
        apply (between_none m e (rnd x)); [lia|auto|auto|]. rewrite plus_IZR. lra. }
      split; auto. rewrite T in N1. rewrite (Rabs_left1 (x - (IZR m + 1) * b2 e)) in N1 by lra. lra.
  Qed.
End Two.

Lemma double_53 e : IZR (2 ^ 53) * b2 e = IZR (2 ^ 52) * b2 (e + 1).
Proof. rewrite two_53, two_52, <- !b2_add. f_equal. lia. Qed.
Lemma half_b2 e : b2 (e - 1) = b2 e / 2.
Proof. unfold Z.sub. rewrite b2_add. simpl. lra. Qed.

Section Seams.
  Context (rnd : R -> R) (NR : to_nearest rnd) (s : R) (CS : cell_size s).
  Let sp := size_pos s CS.

  (** Rounding the beginning of a cell upwards (or not at all) does no harm. *)
  Lemma seam_kept k : IZR k * s <= rnd (IZR k * s) -> seamless rnd s k.
  Proof.
    intros H y _ (A & B). assert (rnd (IZR (k + 1) * s) <= rnd (rnd (IZR k * s) + s)) by (apply rnd_mono; auto; rewrite plus_IZR; lra). lra.
  Qed.
  Lemma seam_exact k : f64 (IZR k * s) -> seamless rnd s k.
  Proof. intros F. apply seam_kept. rewrite (rnd_id rnd NR _ F). lra. Qed.

  (** From 0 on. *)
  Lemma seam_up k : (0 <= k)%Z -> seamless rnd s k.
  Proof.
    intros K y Fy (A & B). assert (K0 : 0 <= IZR k) by (apply IZR_le; auto). rewrite plus_IZR in B.
    pose proof CS as (_ & Ls). assert (X1 : b2 (-900) <= (IZR k + 1) * s) by nra.
    destruct (magnitude ((IZR k + 1) * s)) as (e & E & M).
    { apply Rle_trans with (b2 (-900)); auto. apply b2_le. lia. }
    assert (E' : (-953 < e)%Z) by (assert (-900 < 53 + e)%Z; [apply b2_lt_inv; lra|lia]).
    destruct (binade _ _ M) as (m & Hm & Bm).
    assert (D : Rabs (IZR k * s - rnd (IZR k * s)) <= b2 e / 2).
    { pose proof (range_error rnd NR (IZR k * s) (53 + e) ltac:(lia)) as R1. replace (53 + e - 53)%Z with e in R1 by lia. apply R1. split; [nra|]. lra. }
    apply abs_le_both in D. pose proof (b2_pos e) as P.
    set (lo := rnd (IZR k * s)) in *. clearbody lo. set (X := (IZR k + 1) * s) in *. assert (LX : X - b2 e / 2 <= lo + s) by (unfold X; lra). clearbody X.
    destruct (rnd_either rnd NR X m e Hm E) as [(Q & H)|(Q & H)]; [lra| |]; rewrite Q in B.
    - destruct (Z.eq_dec m (2 ^ 52)) as [->|Nm].
      + assert (F : f64 (IZR (2 ^ 53 - 1) * b2 (e - 1))) by (apply f64_intro; lia).
        assert (G : IZR (2 ^ 53 - 1) * b2 (e - 1) <= rnd (lo + s)).
        { apply rnd_ge; auto. rewrite minus_IZR, Rmult_minus_distr_r, double_53. replace (e - 1 + 1)%Z with e by lia. rewrite half_b2. lra. }
        apply (between_none (2 ^ 53 - 1) (e - 1) y); [lia|lia|auto|]. replace (2 ^ 53 - 1 + 1)%Z with (2 ^ 53)%Z by lia.
        rewrite double_53. replace (e - 1 + 1)%Z with e by lia. lra.
      + assert (F : f64 (IZR (m - 1) * b2 e)) by (apply f64_intro; lia).
        assert (G : IZR (m - 1) * b2 e <= rnd (lo + s)) by (apply rnd_ge; auto; rewrite minus_IZR; lra).
        apply (between_none (m - 1) e y); [lia|lia|auto|]. replace (m - 1 + 1)%Z with m by lia. lra.
    - assert (F : f64 (IZR m * b2 e)) by (apply f64_intro; lia).
      assert (G : IZR m * b2 e <= rnd (lo + s)) by (apply rnd_ge; auto; lra).
      apply (between_none m e y); [lia|lia|auto|]. lra.
  Qed.
  Lemma seam_zero : seamless rnd s (-1).
  Proof. apply seam_exact. replace (IZR (-1) * s) with (- s) by lra. apply f64_opp. apply CS. Qed.

End Seams.

(** Below 0, as long as no power of two lies between the two ends. *)
Lemma seam_down_pos rnd s j e : to_nearest rnd -> cell_size s -> b2 (52 + e) <= (IZR j - 1) * s -> IZR j * s <= b2 (53 + e) ->
  forall y, f64 y -> ~ (rnd ((IZR j - 1) * s) < y < rnd (rnd (IZR j * s) - s)).
Proof.
  intros NR CS L U y Fy (A & B). pose proof (size_pos s CS) as sp. pose proof (b2_pos e) as P. pose proof (b2_pos (52 + e)) as P'.
  destruct CS as (_ & Ls).
  assert (J : (2 <= j)%Z).
  { assert (1 < j)%Z; [|lia]. apply lt_IZR. apply (Rmult_lt_reg_r s); auto. lra. }
  assert (J' : 2 <= IZR j) by (apply IZR_le; auto).
  assert (E : (-953 < e)%Z) by (assert (-900 < 53 + e)%Z; [apply b2_lt_inv; nra|lia]).
  destruct (binade ((IZR j - 1) * s) e) as (m & Hm & Bm); [lra|].
  assert (D : Rabs (IZR j * s - rnd (IZR j * s)) <= b2 e / 2).
  { pose proof (range_error rnd NR (IZR j * s) (53 + e) ltac:(lia)) as R1. replace (53 + e - 53)%Z with e in R1 by lia. apply R1. split; [nra|auto]. }
  apply abs_le_both in D. set (r := rnd (IZR j * s)) in *. clearbody r.
  set (X := (IZR j - 1) * s) in *. assert (LX : r - s <= X + b2 e / 2) by (unfold X; lra). clearbody X.
  destruct (rnd_either rnd NR X m e Hm ltac:(lia)) as [(Q & H)|(Q & H)]; [lra| |]; rewrite Q in A.
  - assert (F : f64 (IZR (m + 1) * b2 e)) by (apply f64_intro; lia).
    assert (G : rnd (r - s) <= IZR (m + 1) * b2 e) by (apply rnd_le; auto; rewrite plus_IZR; lra).
    apply (between_none m e y); [lia|lia|auto|]. lra.
  - destruct (Z.eq_dec (m + 1) (2 ^ 53)) as [Em|Nm].
    + rewrite Em in *. rewrite double_53 in *. assert (F : f64 (IZR (2 ^ 52 + 1) * b2 (e + 1))) by (apply f64_intro; lia).
      assert (P2 : b2 (e + 1) = 2 * b2 e) by (rewrite b2_add; simpl; ring).
      assert (G : rnd (r - s) <= IZR (2 ^ 52 + 1) * b2 (e + 1)) by (apply rnd_le; auto; rewrite plus_IZR; lra).
      apply (between_none (2 ^ 52) (e + 1) y); [lia|lia|auto|]. lra.
    + assert (F : f64 (IZR (m + 2) * b2 e)) by (apply f64_intro; lia).
      assert (G : rnd (r - s) <= IZR (m + 2) * b2 e) by (apply rnd_le; auto; rewrite !plus_IZR in *; lra).
      apply (between_none (m + 1) e y); [lia|lia|auto|]. replace (m + 1 + 1)%Z with (m + 2)%Z by lia. lra.
Qed.
Lemma seam_down rnd s j e : to_nearest rnd -> cell_size s -> b2 (52 + e) <= (IZR j - 1) * s -> IZR j * s <= b2 (53 + e) -> seamless rnd s (- j).
Proof.
  intros NR CS L U y Fy (A & B). apply (seam_down_pos (mirror rnd) s j e (mirror_nearest _ NR) CS L U (- y) (f64_opp _ Fy)).
  unfold mirror. replace (- (- rnd (- (IZR j * s)) - s)) with (rnd (IZR (- j) * s) + s) by (rewrite opp_IZR, Ropp_mult_distr_l; ring).
  replace (- ((IZR j - 1) * s)) with (IZR (- j + 1) * s) by (rewrite plus_IZR, opp_IZR; ring). lra.
Qed.

(** ** The float 0.1 *)
Lemma tenth_eq : 5 * tenth = (IZR (2 ^ 54) + 1) * b2 (-55).
Proof.
  unfold tenth. replace (-55)%Z with (1 + -56)%Z by reflexivity. rewrite b2_add. replace (b2 1) with 2 by (simpl; ring).
  change (2 ^ 54)%Z with 18014398509481984%Z. lra.
Qed.
Lemma tenth_size : cell_size tenth.
Proof.
  unfold cell_size, tenth. split; [apply f64_intro; [apply Z.leb_le; reflexivity|lia]|].
  assert (1 <= 7205759403792794) by lra. assert (b2 (-900) <= b2 (-56)) by (apply b2_le; lia). pose proof (b2_pos (-56)). nra.
Qed.

(** Multiples of 0.1 near powers of two. *)
Lemma tenth_crossing j a : (2 <= j < 2 ^ 53)%Z -> (0 <= a)%Z -> (IZR j - 1) * tenth < b2 (a - 1) <= IZR j * tenth -> j = (5 * 2 ^ a)%Z.
Proof.
  intros J A (L & U).
  assert (P : 0 < b2 (-55)) by apply b2_pos.
  assert (E : b2 (a - 1) = IZR (2 ^ a * 2 ^ 54) * b2 (-55)).
  { rewrite mult_IZR, <- (b2_Z a A). replace (2 ^ 54)%Z with (2 ^ 54)%Z by reflexivity. rewrite <- (b2_Z 54) by lia. rewrite <- !b2_add. f_equal. lia. }
  assert (T : tenth = (IZR (2 ^ 54) + 1) / 5 * b2 (-55)) by (pose proof tenth_eq; lra).
  rewrite T, E in L, U.
  assert (L1 : (IZR j - 1) * (IZR (2 ^ 54) + 1) < 5 * IZR (2 ^ a * 2 ^ 54)) by (apply (Rmult_lt_reg_r (b2 (-55))); auto; lra).
  assert (U1 : 5 * IZR (2 ^ a * 2 ^ 54) <= IZR j * (IZR (2 ^ 54) + 1)) by (apply (Rmult_le_reg_r (b2 (-55))); auto; lra).
  rewrite <- (minus_IZR _ 1), <- (plus_IZR _ 1), <- !mult_IZR in L1. rewrite <- (plus_IZR _ 1), <- !mult_IZR in U1. apply lt_IZR in L1. apply le_IZR in U1.
  set (q := (2 ^ a)%Z) in *. clearbody q. change (2 ^ 54)%Z with 18014398509481984%Z in *. change (2 ^ 53)%Z with 9007199254740992%Z in *. lia.
Qed.

Lemma three_tenths rnd : to_nearest rnd -> seamless rnd tenth (-3).
Proof.
  intros NR y Fy (A & B). pose proof (b2_pos (-54)) as P.
  assert (E54 : b2 (-54) = 4 * b2 (-56)) by (replace (-54)%Z with (2 + -56)%Z by reflexivity; rewrite b2_add; simpl; ring).
  assert (E55 : b2 (-55) = 2 * b2 (-56)) by (replace (-55)%Z with (1 + -56)%Z by reflexivity; rewrite b2_add; simpl; ring).
  pose proof (b2_pos (-56)) as P'.
  assert (N : rnd (IZR (-3 + 1) * tenth) = IZR (-7205759403792794) * b2 (-55)).
  { rewrite (rnd_id rnd NR).
    - unfold tenth. rewrite E55. change (-3 + 1)%Z with (-2)%Z. lra.
    - replace (IZR (-3 + 1) * tenth) with (IZR (-7205759403792794) * b2 (-55)); [apply f64_intro; [apply Z.leb_le; reflexivity|lia]|].
      unfold tenth. rewrite E55. change (-3 + 1)%Z with (-2)%Z. lra. }
  rewrite N in B.
  assert (G : IZR (-5404319552844596) * b2 (-54) <= rnd (IZR (-3) * tenth)).
  { apply rnd_ge; auto; [apply f64_intro; [apply Z.leb_le; reflexivity|lia]|]. unfold tenth. rewrite E54. lra. }
  assert (G2 : IZR (-7205759403792795) * b2 (-55) <= rnd (rnd (IZR (-3) * tenth) + tenth)).
  { apply rnd_ge; auto; [apply f64_intro; [apply Z.leb_le; reflexivity|lia]|]. apply Rle_trans with (IZR (-5404319552844596) * b2 (-54) + tenth); [|lra].
    unfold tenth. rewrite E54, E55. lra. }
  apply (between_none 7205759403792794 (-55) (- y)); [apply Z.leb_le; reflexivity|lia|apply f64_opp; auto|].
  change (7205759403792794 + 1)%Z with 7205759403792795%Z. lra.
Qed.

Lemma tenth_seams rnd k : to_nearest rnd -> (- 2 ^ 53 < k)%Z -> seamless rnd tenth k.
Proof.
  intros NR K. pose proof tenth_size as CS. pose proof (size_pos tenth CS) as sp.
  destruct (Z_lt_le_dec k 0) as [N|]; [|apply seam_up; auto].
  destruct (Z.eq_dec k (-1)) as [->|N1]; [apply seam_zero; auto|].
  destruct (Z.eq_dec k (-2)) as [->|N2].
  { apply seam_exact; auto. replace (IZR (-2) * tenth) with (IZR (-7205759403792794) * b2 (-55)); [apply f64_intro; [apply Z.leb_le; reflexivity|lia]|].
    unfold tenth. replace (-55)%Z with (1 + -56)%Z by reflexivity. rewrite b2_add. simpl (b2 1). lra. }
  destruct (Z.eq_dec k (-3)) as [->|N3]; [apply three_tenths; auto|].
  set (j := (- k)%Z). assert (J : (4 <= j < 2 ^ 53)%Z) by lia. replace k with (- j)%Z by lia. clearbody j. clear N N1 N2 N3 K k.
  assert (J' : 4 <= IZR j) by (apply IZR_le; lia).
  assert (T : 4 * tenth > b2 (-2)).
  { unfold tenth. replace (-2)%Z with (54 + -56)%Z by reflexivity. rewrite b2_add, (b2_Z 54) by lia. pose proof (b2_pos (-56)). change (2 ^ 54)%Z with 18014398509481984%Z. nra. }
  destruct (magnitude (IZR j * tenth)) as (e & _ & M).
  { apply Rle_trans with (b2 (-2)); [apply b2_le; lia|]. nra. }
  assert (E : (-2 < 53 + e)%Z) by (apply b2_lt_inv; nra).
  destruct (Rle_dec (b2 (52 + e)) ((IZR j - 1) * tenth)) as [C|C]; [apply (seam_down rnd tenth j e); auto; lra|].
  destruct (Z.eq_dec (52 + e) (-2)) as [E2|E2].
  { exfalso. apply C. rewrite E2. replace (b2 (-2)) with (1 / 4) by (simpl; lra). assert (3 * tenth > 1 / 4).
    { unfold tenth. replace (1 / 4) with (b2 (-2)) by (simpl; lra). replace (-2)%Z with (54 + -56)%Z by reflexivity. rewrite b2_add, (b2_Z 54) by lia. pose proof (b2_pos (-56)). change (2 ^ 54)%Z with 18014398509481984%Z. nra. }
    nra. }
  assert (Ja : j = (5 * 2 ^ (53 + e))%Z).
  { apply tenth_crossing; [lia|lia|]. replace (53 + e - 1)%Z with (52 + e)%Z by lia. lra. }
  set (a := (53 + e)%Z) in *. assert (A0 : (0 <= a)%Z) by lia.
  (* rounded down to the power of two *)
  apply seam_kept; auto. rewrite Ja, opp_IZR, mult_IZR, <- (b2_Z a) by auto.
  replace (- (5 * b2 a) * tenth) with (- ((IZR (2 ^ 54) + 1) * b2 (a - 55))).
  2:{ unfold Z.sub. rewrite b2_add. pose proof tenth_eq. replace (- (5 * b2 a) * tenth) with (- (b2 a * (5 * tenth))) by ring. rewrite H. change (- (55))%Z with (-55)%Z. ring. }
  assert (Fl : f64 (- b2 (a - 1))) by (replace (b2 (a - 1)) with (IZR 1 * b2 (a - 1)) by ring; apply f64_opp, f64_intro; [apply Z.leb_le; reflexivity|lia]).
  assert (E1 : b2 (a - 1) = IZR (2 ^ 54) * b2 (a - 55)) by (rewrite <- (b2_Z 54) by lia; rewrite <- b2_add; f_equal; lia).
  pose proof (b2_pos (a - 55)) as P.
  apply Rnot_lt_le. intros LT.
  pose proof (rnd_near rnd NR (- ((IZR (2 ^ 54) + 1) * b2 (a - 55))) _ Fl) as Nn. pose proof (rnd_f64 rnd NR (- ((IZR (2 ^ 54) + 1) * b2 (a - 55)))) as Fx.
  set (x := - ((IZR (2 ^ 54) + 1) * b2 (a - 55))) in *. assert (X : x = - b2 (a - 1) - b2 (a - 55)) by (unfold x; lra). clearbody x.
  rewrite (Rabs_pos_eq (x - rnd x)), (Rabs_left1 (x - - b2 (a - 1))) in Nn by lra.
  apply (between_none (2 ^ 52) (a - 53) (- rnd x)); [lia|lia|apply f64_opp; auto|].
  rewrite plus_IZR, Rmult_plus_distr_r, two_52, <- b2_add. replace (52 + (a - 53))%Z with (a - 1)%Z by lia.
  replace (b2 (a - 53)) with (4 * b2 (a - 55)); [lra|]. replace (a - 53)%Z with (2 + (a - 55))%Z by lia. rewrite b2_add. simpl (b2 2). ring.
Qed.
Lemma seam_below rnd s j p : to_nearest rnd -> cell_size s -> b2 p <= (IZR j - 1) * s -> IZR j * s <= b2 (p + 1) -> seamless rnd s (- j).
Proof.
  intros NR CS L U. apply (seam_down rnd s j (p - 52)); auto.
  - replace (52 + (p - 52))%Z with p by lia. auto.
  - replace (53 + (p - 52))%Z with (p + 1)%Z by lia. auto.
Qed.
Lemma seam_from rnd s k : to_nearest rnd -> cell_size s -> (-1 <= k)%Z -> seamless rnd s k.
Proof.
  intros NR CS K. destruct (Z.eq_dec k (-1)) as [->|N]; [apply seam_zero; auto|apply seam_up; auto; lia].
Qed.
