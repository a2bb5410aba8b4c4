(** Properties C97 and C98: the voxel grid in floating point. *)
From Coq Require Import Reals ZArith List Bool Arith Lia Lra.
From Verif Require Import Prelude VecModel VoxModel VoxSpec VoxProofs FlModel FlSpec FlProofs FvModel FvSpec FvProofs FvProofs2 FvProofs3 FvProofs4.
Import ListNotations.
Local Open Scope R_scope.

(** C97: without rounding this is the grid of C38. *)
Theorem C97_exact mn mx polys s e : fmake_voxel_grid (fun x => x) mn mx polys s e = make_voxel_grid mn mx polys s e /\
  forall p, fkey (fun x => x) s p = key_of s p.
Proof. exact (conj (fmake_exact mn mx polys s e) (fun p => eq_refl)). Qed.
Print Assumptions C97_exact.

(** With rounding: if the box's lower corner less eps is not almost a multiple
    of the cell size, and cells follow each other without a gap, the grid is
    built and no polygon with a point within (almost) one cell size in each
    coordinate is overlooked. *)
Theorem C97_nearby rnd s mn mx e polys : to_nearest rnd -> cell_size s -> 0 <= e <= s ->
  (forall c, In c [vx; vy; vz] -> Rabs (c mn) <= 1000000 * s /\ Rabs (c mx) <= 1000000 * s /\ off_grid s (c mn - e) /\
    forall k, c mn < (IZR k + 1) * s -> IZR k * s <= c mx -> seamless rnd s k) ->
  (forall pts, In pts polys -> pts <> [] /\ forall p, In p pts -> f64_vec p /\ in_box mn mx p) ->
  exists grid, fmake_voxel_grid rnd mn mx polys s e = Ok grid /\
    forall p pn pts q, nth_error polys pn = Some pts -> in_hull pts q -> near ((1 - 1 / 10 ^ 8) * s) p q ->
      In pn (find_nearby_polygons (fkey rnd s p) grid).
Proof. exact (fun NR CS E AX BX => fgrid_near rnd NR s CS mn mx e E AX polys BX). Qed.
Print Assumptions C97_nearby.

(** The default cell size 0.1 and eps 1e-4 need the first condition only. *)
Theorem C97_default rnd mn mx polys : to_nearest rnd ->
  (forall c, In c [vx; vy; vz] -> Rabs (c mn) <= 1000000 * tenth /\ Rabs (c mx) <= 1000000 * tenth /\ off_grid tenth (c mn - eps4)) ->
  (forall pts, In pts polys -> pts <> [] /\ forall p, In p pts -> f64_vec p /\ in_box mn mx p) ->
  exists grid, fmake_voxel_grid rnd mn mx polys tenth eps4 = Ok grid /\
    forall p pn pts q, nth_error polys pn = Some pts -> in_hull pts q -> near ((1 - 1 / 10 ^ 8) * tenth) p q ->
      In pn (find_nearby_polygons (fkey rnd tenth p) grid).
Proof. exact (fgrid_tenth rnd mn mx polys). Qed.
Print Assumptions C97_default.

(** That condition is needed: a building that begins with a wall at x = 0.1001
    is refused, whatever else it has, as cell 1 is left out. *)
Theorem C97_skipped_refuted mn mx polys pts : vx mn = wall_1001 -> In pts polys -> (forall p, In p pts -> vx p = wall_1001) ->
  fmake_voxel_grid round64 mn mx polys tenth eps4 = Err ValueError.
Proof. exact (skip_refuted mn mx polys pts). Qed.
Print Assumptions C97_skipped_refuted.

(** C98: when cells follow each other without a gap: from cell -1 on, *)
Theorem C98_upwards rnd s k : to_nearest rnd -> cell_size s -> (-1 <= k)%Z -> seamless rnd s k.
Proof. exact (seam_from rnd s k). Qed.
Print Assumptions C98_upwards.

(** below if the beginning of the cell is exact (as for a cell size with few
    binary digits) or rounded upwards, *)
Theorem C98_exact rnd s k : to_nearest rnd -> (f64 (IZR k * s) \/ IZR k * s <= rnd (IZR k * s)) -> seamless rnd s k.
Proof. exact (fun NR H => match H with or_introl F => seam_exact rnd NR s k F | or_intror L => seam_kept rnd NR s k L end). Qed.
Print Assumptions C98_exact.

(** or if both ends lie between the same powers of two, *)
Theorem C98_downwards rnd s j p : to_nearest rnd -> cell_size s -> powerRZ 2 p <= (IZR j - 1) * s -> IZR j * s <= powerRZ 2 (p + 1) -> seamless rnd s (- j).
Proof. exact (seam_below rnd s j p). Qed.
Print Assumptions C98_downwards.

(** and always for the default size. *)
Theorem C98_default rnd k : to_nearest rnd -> (- 2 ^ 53 < k)%Z -> seamless rnd tenth k.
Proof. exact (tenth_seams rnd k). Qed.
Print Assumptions C98_default.

(** But not always: with cells of size 0.09 a wall at x = -0.45 lies in no
    cell, so that every building with it is refused. *)
Theorem C98_gap_refuted : (forall k, wall_45 < round64 (IZR k * step_9) \/ round64 (round64 (IZR k * step_9) + step_9) < wall_45) /\
  forall mn mx e polys pts, In pts polys -> (forall p, In p pts -> vx p = wall_45) ->
    fmake_voxel_grid round64 mn mx polys step_9 e = Err ValueError.
Proof. exact (conj gap_everywhere gap_refuted). Qed.
Print Assumptions C98_gap_refuted.

(** ** Examples *)
(** The unit square on the floor with the default sizes. *)
Definition floor_square : list vec := [V 0 0 0; V 1 0 0; V 1 1 0; V 0 1 0].
Lemma tenth_near : 999 / 10000 < tenth < 1001 / 10000.
Proof. unfold tenth. replace (powerRZ 2 (-56)) with (/ IZR (2 ^ 56)) by (rewrite <- b2_Z by lia; reflexivity). change (2 ^ 56)%Z with 72057594037927936%Z. lra. Qed.
Lemma eps4_near : 9 / 100000 < eps4 < 11 / 100000.
Proof. unfold eps4. replace (powerRZ 2 (-66)) with (/ IZR (2 ^ 66)) by (rewrite <- b2_Z by lia; reflexivity). change (2 ^ 66)%Z with 73786976294838206464%Z. lra. Qed.
Lemma demo_off : off_grid tenth (0 - eps4).
Proof.
  intros k. pose proof tenth_near as T. pose proof eps4_near as E.
  assert (Q : - (2 / 1000) <= (0 - eps4) / tenth <= - (8 / 10000)).
  { split; apply (Rmult_le_reg_r tenth); try lra; unfold Rdiv at 2; rewrite ?Rmult_assoc, ?Rinv_l, ?Rmult_1_r by lra; try lra.
    unfold Rdiv at 1. rewrite Rmult_assoc, Rinv_l by lra. lra. }
  destruct (Z_lt_le_dec k 0) as [K|K].
  - assert (IZR k <= -1) by (apply (IZR_le k (-1)); lia). rewrite Rabs_pos_eq; lra.
  - apply IZR_le in K. rewrite Rabs_left; lra.
Qed.
Lemma demo_f64 p : In p floor_square -> f64_vec p /\ in_box (V 0 0 0) (V 1 1 1) p.
Proof.
  intros I. unfold floor_square in I. simpl in I. unfold f64_vec, in_box. pose proof f64_0. pose proof f64_1.
  destruct I as [<-|[<-|[<-|[<-|[]]]]]; cbn [vx vy vz]; repeat split; auto; lra.
Qed.
(** A ray 5 cm above a corner finds the floor. *)
Example C97_example rnd : to_nearest rnd -> exists grid, fmake_voxel_grid rnd (V 0 0 0) (V 1 1 1) [floor_square] tenth eps4 = Ok grid /\
  In 0%nat (find_nearby_polygons (fkey rnd tenth (V 0 0 (5 / 100))) grid).
Proof.
  intros NR. pose proof tenth_near as T.
  destruct (C97_default rnd (V 0 0 0) (V 1 1 1) [floor_square] NR) as (g & G & H).
  - assert (R1 : Rabs 0 <= 1000000 * tenth) by (rewrite Rabs_R0; lra). assert (R2 : Rabs 1 <= 1000000 * tenth) by (rewrite Rabs_R1; lra).
    pose proof demo_off as O. intros c [<-|[<-|[<-|[]]]]; cbn [vx vy vz]; auto.
  - intros pts [<-|[]]. split; [discriminate|]. apply demo_f64.
  - exists g. split; auto. apply (H (V 0 0 (5 / 100)) 0%nat floor_square (V 0 0 0) eq_refl); [apply vertex_in_hull; left; auto|].
    unfold near. cbn [vx vy vz]. rewrite Rminus_0_r, Rabs_R0, Rabs_left by lra. split; [nra|]. split; nra.
Qed.
(** The refused walls. *)
Example C97_skipped_example y : fmake_voxel_grid round64 (V wall_1001 0 0) (V y 1 1) [[V wall_1001 0 0; V wall_1001 1 0; V wall_1001 0 1]] tenth eps4 = Err ValueError.
Proof. apply (C97_skipped_refuted _ _ _ [V wall_1001 0 0; V wall_1001 1 0; V wall_1001 0 1]); [auto|left; auto|]. intros p [<-|[<-|[<-|[]]]]; auto. Qed.
Example C98_gap_example y : fmake_voxel_grid round64 (V (-1) 0 0) (V y 1 1) [[V wall_45 0 0; V wall_45 1 0; V wall_45 0 1]] step_9 eps4 = Err ValueError.
Proof. apply (proj2 C98_gap_refuted _ _ _ _ [V wall_45 0 0; V wall_45 1 0; V wall_45 0 1]); [left; auto|]. intros p [<-|[<-|[<-|[]]]]; auto. Qed.
(** Cell -6 of size 0.1 = (-0.6, -0.5]: 0.5 is a power of two; cell -7 has none. *)
Example C98_example : seamless round64 tenth (-7) /\ seamless round64 tenth (-6) /\ ~ seamless round64 step_9 (-6).
Proof.
  pose proof tenth_near as T. split; [|split].
  - apply (C98_downwards round64 tenth 7 (-1) round64_nearest tenth_size); simpl; lra.
  - apply C98_default; [apply round64_nearest|lia].
  - intros S. assert (F : f64 wall_45) by (apply f64_intro; [apply Z.leb_le; reflexivity|lia]). apply (S wall_45 F).
    change (round64 (round64 (IZR (-6) * step_9) + step_9)) with (fhi round64 step_9 (-6)). change (round64 (IZR (-6 + 1) * step_9)) with (flo round64 step_9 (-5)).
    rewrite gap_hi, gap_lo. unfold wall_45. pose proof (b2_pos (-54)). lra.
Qed.
