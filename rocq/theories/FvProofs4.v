(** Proofs for the voxel grid in floating point: cells left out. *)
From Coq Require Import Reals List Bool Arith ZArith Lra Lia Psatz.
From Verif Require Import Prelude MeshModel VecModel VecProofs VoxModel VoxSpec VoxProofs GeomModel EqProofs SimModel FlModel FlSpec FlProofs FvModel FvSpec FvProofs FvProofs2 FvProofs3.
Import ListNotations.
Local Open Scope R_scope.

(** Ties go to the even number. *)
Lemma rint_even x m : Z.even m = true -> Rabs (x - IZR m) <= 1 / 2 -> rint x = m.
Proof.
  intros E D. apply abs_le_both in D. destruct (rint_near x) as [H|(H & Ev)].
  - apply Rabs_def2 in H. assert (rint x < m + 1)%Z by (apply lt_IZR; rewrite plus_IZR; lra).
    assert (m - 1 < rint x)%Z by (apply lt_IZR; rewrite minus_IZR; lra). lia.
  - assert (H' : - (1 / 2) <= x - IZR (rint x) <= 1 / 2) by (apply abs_le_both; lra).
    assert (rint x <= m + 1)%Z by (apply le_IZR; rewrite plus_IZR; lra).
    assert (m - 1 <= rint x)%Z by (apply le_IZR; rewrite minus_IZR; lra).
    apply Z.even_spec in E. destruct E as (a & ->). destruct Ev as (b & Eb). lia.
Qed.
Lemma expo_is x e : (-1074 <= e)%Z -> b2 (52 + e) <= Rabs x < b2 (53 + e) -> expo x = e.
Proof.
  intros E (A & B). unfold expo. assert (P : 0 < Rabs x) by (pose proof (b2_pos (52 + e)); lra).
  destruct (log2_spec (Rabs x) P) as (C & D). set (z := VoxModel.floor (ln (Rabs x) / ln 2)) in *. clearbody z.
  assert (52 + e < z + 1)%Z by (apply b2_lt_inv; lra). assert (z < 53 + e)%Z by (apply b2_lt_inv; lra). lia.
Qed.
Lemma r64_even x m e : (-1074 <= e)%Z -> b2 (52 + e) <= Rabs x < b2 (53 + e) -> Z.even m = true -> Rabs (x - IZR m * b2 e) <= b2 e / 2 ->
  round64 x = IZR m * b2 e.
Proof.
  intros E B Ev D. unfold round64. destruct (Req_EM_T x 0) as [->|N].
  - rewrite Rabs_R0 in B. pose proof (b2_pos (52 + e)). lra.
  - rewrite (expo_is x e E B). pose proof (b2_pos e) as P. rewrite (rint_even (x / b2 e) m Ev); auto.
    replace (x / b2 e - IZR m) with ((x - IZR m * b2 e) / b2 e) by (field; lra). unfold Rdiv at 1. rewrite Rabs_mult, (Rabs_pos_eq (/ b2 e)) by (left; apply Rinv_0_lt_compat; auto).
    apply (Rmult_le_reg_r (b2 e)); auto. rewrite Rmult_assoc, Rinv_l by lra. lra.
Qed.

(** The same for whole multiples of a power. *)
Lemma r64_whole n f m d : (-1074 <= f)%Z -> (0 <= d)%Z -> (2 ^ 52 * 2 ^ d <= Z.abs n < 2 ^ 53 * 2 ^ d)%Z -> Z.even m = true -> (2 * Z.abs (n - m * 2 ^ d) <= 2 ^ d)%Z ->
  round64 (IZR n * b2 f) = IZR m * b2 (f + d).
Proof.
  intros F D B E A. pose proof (b2_pos f) as P. assert (P2 : b2 (f + d) = b2 f * IZR (2 ^ d)) by (rewrite b2_add, (b2_Z d D); auto).
  apply r64_even; [lia| |auto|].
  - rewrite Rabs_mult, (Rabs_pos_eq (b2 f)), <- abs_IZR by lra. rewrite (b2_add 52), (b2_add 53), P2, <- two_52, <- two_53.
    replace (IZR (2 ^ 52) * (b2 f * IZR (2 ^ d))) with (IZR (2 ^ 52 * 2 ^ d) * b2 f) by (rewrite mult_IZR; ring).
    replace (IZR (2 ^ 53) * (b2 f * IZR (2 ^ d))) with (IZR (2 ^ 53 * 2 ^ d) * b2 f) by (rewrite mult_IZR; ring).
    split; [apply Rmult_le_compat_r; [lra|apply IZR_le; lia]|apply Rmult_lt_compat_r; [lra|apply IZR_lt; lia]].
  - rewrite P2. replace (IZR n * b2 f - IZR m * (b2 f * IZR (2 ^ d))) with (IZR (n - m * 2 ^ d) * b2 f) by (rewrite minus_IZR, mult_IZR; ring).
    rewrite Rabs_mult, (Rabs_pos_eq (b2 f)), <- abs_IZR by lra.
    assert (Q : 2 * IZR (Z.abs (n - m * 2 ^ d)) <= IZR (2 ^ d)) by (rewrite <- mult_IZR; apply IZR_le; auto).
    apply Rmult_le_compat_r with (r := b2 f) in Q; lra.
Qed.
Ltac zdec := first [apply Z.leb_le; reflexivity | apply Z.ltb_lt; reflexivity | reflexivity].
Ltac r64 n f m d := rewrite (r64_whole n f m d) by first [zdec | split; zdec].

(** ** A wall in a gap *)
Lemma gap_hi : fhi round64 step_9 (-6) = IZR (-8106479329266894) * b2 (-54).
Proof.
  unfold fhi, flo, step_9. replace (IZR (-6) * (IZR 6485183463413514 * b2 (-56))) with (IZR (-38911100780481084) * b2 (-56)) by lra.
  r64 (-38911100780481084)%Z (-56)%Z (-4863887597560136)%Z 3%Z. change (-56 + 3)%Z with (-53)%Z.
  replace (IZR (-4863887597560136) * b2 (-53) + IZR 6485183463413514 * b2 (-56)) with (IZR (-32425917317067574) * b2 (-56)).
  - r64 (-32425917317067574)%Z (-56)%Z (-8106479329266894)%Z 2%Z. reflexivity.
  - change (-53)%Z with (3 + -56)%Z. rewrite b2_add. simpl (b2 3). lra.
Qed.
Lemma gap_lo : flo round64 step_9 (-5) = IZR (-8106479329266892) * b2 (-54).
Proof.
  unfold flo, step_9. replace (IZR (-5) * (IZR 6485183463413514 * b2 (-56))) with (IZR (-32425917317067570) * b2 (-56)) by lra.
  r64 (-32425917317067570)%Z (-56)%Z (-8106479329266892)%Z 2%Z. reflexivity.
Qed.
Lemma step_9_pos : 0 < step_9.
Proof. unfold step_9. pose proof (b2_pos (-56)). lra. Qed.
Lemma gap_everywhere k : wall_45 < flo round64 step_9 k \/ fhi round64 step_9 k < wall_45.
Proof.
  pose proof step_9_pos as P. pose proof (b2_pos (-54)) as P54. destruct (Z_le_gt_dec k (-6)) as [L|L].
  - right. apply Rle_lt_trans with (fhi round64 step_9 (-6)); [|rewrite gap_hi; unfold wall_45; lra].
    unfold fhi, flo. apply (rnd_mono _ round64_nearest). apply Rplus_le_compat_r. apply (rnd_mono _ round64_nearest). apply Rmult_le_compat_r; [lra|]. apply IZR_le. lia.
  - left. apply Rlt_le_trans with (flo round64 step_9 (-5)); [rewrite gap_lo; unfold wall_45; lra|].
    unfold flo. apply (rnd_mono _ round64_nearest). apply Rmult_le_compat_r; [lra|]. apply IZR_le. lia.
Qed.
Lemma gap_refuted mn mx e polys pts : In pts polys -> (forall p, In p pts -> vx p = wall_45) ->
  fmake_voxel_grid round64 mn mx polys step_9 e = Err ValueError.
Proof.
  intros I H. apply In_nth_error in I. destruct I as (pn & Ep). apply fgrid_err. exists pn, pts. split; auto.
  intros ((x, y), z) _. left. destruct (gap_everywhere x) as [G|G]; [left|right]; intros p Ip; rewrite (H p Ip); auto.
Qed.

(** ** A cell left out of the range *)
Lemma r64_0 : round64 0 = 0.
Proof. unfold round64. destruct (Req_EM_T 0 0); lra. Qed.
Lemma skip_start : round64 (wall_1001 - eps4) = IZR 7205759403792793 * b2 (-56).
Proof.
  apply (rnd_is _ round64_nearest); [split; zdec|zdec|]. unfold wall_1001, eps4.
  replace (b2 (-56)) with (1024 * b2 (-66)) by (change (-56)%Z with (10 + -66)%Z; rewrite b2_add; simpl (b2 10); ring).
  pose proof (b2_pos (-66)) as P.
  replace (IZR 7212965163196586 * (1024 * b2 (-66)) - IZR 7378697629483821 * b2 (-66) - IZR 7205759403792793 * (1024 * b2 (-66))) with (211 * b2 (-66)) by lra.
  rewrite Rabs_pos_eq by lra. lra.
Qed.
Lemma skip_second : round64 (IZR 7205759403792793 * b2 (-56) + tenth) = 2 * tenth.
Proof.
  unfold tenth. replace (IZR 7205759403792793 * b2 (-56) + IZR 7205759403792794 * b2 (-56)) with (IZR 14411518807585587 * b2 (-56)) by lra.
  r64 14411518807585587%Z (-56)%Z 7205759403792794%Z 1%Z. change (-56 + 1)%Z with (1 + -56)%Z. rewrite b2_add. simpl (b2 1). ring.
Qed.
Lemma tenth_f64 : f64 tenth.
Proof. apply tenth_size. Qed.
Lemma tenth_2_f64 : f64 (2 * tenth).
Proof.
  replace (2 * tenth) with (IZR 7205759403792794 * b2 (-55)); [apply f64_intro; [zdec|lia]|].
  unfold tenth. change (-55)%Z with (1 + -56)%Z. rewrite b2_add. simpl (b2 1). lra.
Qed.
Lemma skip_key k mx : In k (map (fcell round64 tenth) (frange round64 wall_1001 mx tenth eps4)) -> k = 0%Z \/ (2 <= k)%Z.
Proof.
  pose proof (size_pos _ tenth_size) as P. unfold frange, farange. rewrite skip_start. rewrite map_map, in_map_iff. intros (i & <- & _).
  unfold fcell. destruct i as [|i].
  - left. cbn [INR]. rewrite Rmult_0_l, r64_0, Rplus_0_r. rewrite (rnd_id _ round64_nearest (IZR 7205759403792793 * b2 (-56))) by (apply f64_intro; [zdec|zdec]).
    apply floor_unique. pose proof (b2_pos (-56)) as P56.
    assert (Q : IZR 7205759403792793 * b2 (-56) / tenth = 7205759403792793 / 7205759403792794) by (unfold tenth; field; lra). rewrite Q.
    split; [apply rnd_ge; [apply round64_nearest|apply f64_0|lra]|].
    apply Rle_lt_trans with (IZR 9007199254740991 * b2 (-53)).
    + apply rnd_le; [apply round64_nearest|apply f64_intro; [zdec|zdec]|]. replace (b2 (-53)) with (/ IZR (2 ^ 53)) by (rewrite two_53; reflexivity). change (2 ^ 53)%Z with 9007199254740992%Z. lra.
    + replace (b2 (-53)) with (/ IZR (2 ^ 53)) by (rewrite two_53; reflexivity). change (2 ^ 53)%Z with 9007199254740992%Z. lra.
  - right. set (x := round64 (IZR 7205759403792793 * b2 (-56) + round64 (INR (S i) * tenth))).
    assert (X : 2 * tenth <= x).
    { unfold x. rewrite <- skip_second. apply (rnd_mono _ round64_nearest). apply Rplus_le_compat_l. apply rnd_ge; [apply round64_nearest|apply tenth_f64|].
      rewrite S_INR. pose proof (pos_INR i). nra. }
    assert (Y : 2 <= round64 (x / tenth)).
    { apply rnd_ge; [apply round64_nearest| |].
      - replace 2 with (IZR 2 * b2 0) by (simpl; ring). apply f64_intro; zdec.
      - apply (Rmult_le_reg_r tenth); auto. unfold Rdiv. rewrite Rmult_assoc, Rinv_l by lra. lra. }
    pose proof (floor_spec (round64 (x / tenth))) as F. assert (1 < VoxModel.floor (round64 (x / tenth)))%Z; [|lia]. apply lt_IZR. lra.
Qed.
Lemma skip_refuted mn mx polys pts : vx mn = wall_1001 -> In pts polys -> (forall p, In p pts -> vx p = wall_1001) ->
  fmake_voxel_grid round64 mn mx polys tenth eps4 = Err ValueError.
Proof.
  intros Em I H. pose proof (size_pos _ tenth_size) as P. apply In_nth_error in I. destruct I as (pn & Ep). apply fgrid_err. exists pn, pts. split; auto.
  intros ((x, y), z) K. apply fgrid_keys_in in K. destruct K as (K & _). rewrite Em in K. left. pose proof (b2_pos (-56)) as P56.
  destruct (skip_key _ _ K) as [->|L].
  - right. intros p Ip. rewrite (H p Ip). unfold fhi, flo. rewrite Rmult_0_l, r64_0, Rplus_0_l, (rnd_id _ round64_nearest _ tenth_f64). unfold tenth, wall_1001. lra.
  - left. intros p Ip. rewrite (H p Ip). apply Rlt_le_trans with (2 * tenth); [unfold tenth, wall_1001; lra|].
    unfold flo. apply rnd_ge; [apply round64_nearest|apply tenth_2_f64|]. apply Rmult_le_compat_r; [lra|]. apply IZR_le. auto.
Qed.

(** ** Without rounding *)
Lemma farange_exact a b s : farange (fun x => x) a b s = arange a b s.
Proof. reflexivity. Qed.
Lemma fmake_exact mn mx polys s e : fmake_voxel_grid (fun x => x) mn mx polys s e = make_voxel_grid mn mx polys s e.
Proof. reflexivity. Qed.

(** ** The default size *)
Lemma fgrid_tenth rnd mn mx polys : to_nearest rnd ->
  (forall c, In c [vx; vy; vz] -> Rabs (c mn) <= 1000000 * tenth /\ Rabs (c mx) <= 1000000 * tenth /\ off_grid tenth (c mn - eps4)) ->
  (forall pts, In pts polys -> pts <> [] /\ forall p, In p pts -> f64_vec p /\ in_box mn mx p) ->
  exists grid, fmake_voxel_grid rnd mn mx polys tenth eps4 = Ok grid /\
    forall p pn pts q, nth_error polys pn = Some pts -> in_hull pts q -> near ((1 - 1 / 10 ^ 8) * tenth) p q ->
      In pn (find_nearby_polygons (fkey rnd tenth p) grid).
Proof.
  intros NR AX BX. pose proof tenth_size as CS. pose proof (size_pos _ CS) as P. apply fgrid_near; auto.
  - unfold eps4, tenth. pose proof (b2_pos (-66)) as P66. replace (b2 (-56)) with (1024 * b2 (-66)) by (change (-56)%Z with (10 + -66)%Z; rewrite b2_add; simpl (b2 10); ring). lra.
  - intros c Ic. destruct (AX c Ic) as (A & B & C). split; auto. split; auto. split; auto. intros k K _. apply tenth_seams; auto.
    apply abs_le_both in A. assert (G : -1000001 < IZR k) by (apply (Rmult_lt_reg_r tenth); auto; lra). apply lt_IZR in G. lia.
Qed.
