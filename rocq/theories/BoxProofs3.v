(** Proofs: an axis-parallel rectangle as a wall. *)
From Coq Require Import Reals ZArith List Bool Arith Lia Lra.
From Verif Require Import Prelude VecModel VecProofs VoxModel GeomModel GeomSpec GeomProofs1 GeomProofs2 GeomProofs3 GeomProofs4 GeomProofs5 TriModel TriSpec PolyModel PolySpec PolyProofs1 PolyProofs2 SolidProofs1 SliceProofs8 CrossSpec CrossProofs1 InsideSpec InsideProofs1 RoomSpec RoomProofs1 RoomProofs2 RoomProofs3 BoxProofs2.
Import ListNotations.
Local Open Scope R_scope.

Definition rface (o e1 e2 : vec) (L W : R) : face := ([off o e1 e2 0 0; off o e1 e2 L 0; off o e1 e2 L W; off o e1 e2 0 W], [(3, 0, 1); (3, 1, 2)]%nat).
Lemma axes_unit e1 e2 : axes2 e1 e2 -> unit (cross e1 e2) /\ dot (cross e1 e2) e1 = 0 /\ dot (cross e1 e2) e2 = 0 /\ dot e1 e1 = 1 /\ dot e2 e2 = 1 /\ dot e1 e2 = 0.
Proof. intros H. unfold unit. ax H; repeat split; vunf; ring. Qed.
Lemma off_dot n o e1 e2 x y : dot n (off o e1 e2 x y) = dot n o + x * dot n e1 + y * dot n e2.
Proof. unfold off. dvec n; dvec o; dvec e1; dvec e2; vunf; ring. Qed.
Lemma off_inj o e1 e2 x y x' y' : axes2 e1 e2 -> off o e1 e2 x y = off o e1 e2 x' y' -> x = x' /\ y = y'.
Proof.
  intros A E. destruct (axes_coords e1 e2 A) as (c1 & c2 & c3 & I1 & I2 & I3 & V1 & V2 & V3 & V4 & V5 & V6 & Al).
  pose proof (f_equal c1 E) as E1. pose proof (f_equal c2 E) as E2. rewrite !off_coord in E1, E2 by auto. rewrite ?V1, ?V2, ?V3, ?V4 in *. split; lra.
Qed.

Section Rectangle.
Context (o e1 e2 n : vec) (L W : R) (Ax : axes2 e1 e2) (HL : 1 <= L <= 100) (HW : 1 <= W <= 100) (Hn : n = cross e1 e2).
Notation at_ := (off o e1 e2).
Notation f := (rface o e1 e2 L W).
Notation d := (- dot n o).
Lemma n_unit : unit n. Proof. rewrite Hn. apply (axes_unit e1 e2 Ax). Qed.
Lemma n_e1 : dot n e1 = 0. Proof. rewrite Hn. apply (axes_unit e1 e2 Ax). Qed.
Lemma n_e2 : dot n e2 = 0. Proof. rewrite Hn. apply (axes_unit e1 e2 Ax). Qed.
Lemma at_plane x y : on_plane n d (at_ x y).
Proof. unfold on_plane. rewrite off_dot, n_e1, n_e2. ring. Qed.
Lemma cross_at xa ya xb yb xc yc : dot n (cross (vsub (at_ xb yb) (at_ xa ya)) (vsub (at_ xc yc) (at_ xa ya))) = (xb - xa) * (yc - ya) - (yb - ya) * (xc - xa).
Proof.
  replace (cross (vsub (at_ xb yb) (at_ xa ya)) (vsub (at_ xc yc) (at_ xa ya))) with (smul ((xb - xa) * (yc - ya) - (yb - ya) * (xc - xa)) n); [rewrite dot_smul_r; pose proof n_unit as U; unfold unit in U; rewrite U; ring|].
  rewrite Hn. unfold off. clear. dvec o; dvec e1; dvec e2; vunf; f_equal; ring.
Qed.
Lemma LW : 1 <= L * W. Proof. nra. Qed.
Lemma rect_wall : sound_wall f n d.
Proof.
  pose proof LW as P. split; [|split; [|split]].
  - split; [exact n_unit|]. split; [cbn [fst rface]; intros q [<-|[<-|[<-|[<-|[]]]]]; apply at_plane|]. split; [|split].
    + cbn [snd fst rface]. intros t [<-|[<-|[]]]; do 3 eexists; (split; [split; [reflexivity|split; reflexivity]|]); rewrite cross_at; nra.
    + intros i j I. cbn in I. cbn. repeat (destruct I as [I|I]; [injection I as <- <-; tauto|]). destruct I.
    + intros e I. cbn in I. cbn. tauto.
  - cbn [fst snd rface]. intros t [<-|[<-|[]]]; do 3 eexists; (split; [split; [reflexivity|split; reflexivity]|]); rewrite area_of by auto; eapply Rle_trans; [|apply Rle_abs| |apply Rle_abs]; nra.
  - intros e. cbn [fst rface]. intros [<-|[<-|[<-|[<-|[]]]]]; cbn [fst snd]; intros E; apply off_inj in E; auto; lra.
  - do 4 eexists. split; [reflexivity|]. cbn [fst last rface]. rewrite area_of by auto. eapply Rlt_le_trans; [|apply Rle_abs]. nra.
Qed.
Lemma rect_in_mesh x y : 0 <= x <= L -> 0 <= y <= W -> in_mesh f (at_ x y).
Proof.
  intros Hx Hy. assert (A : 0 <= x / L <= 1) by (split; [apply Rmult_le_pos; [lra|left; apply Rinv_0_lt_compat; lra]|apply Rmult_le_reg_r with L; [lra|]; unfold Rdiv; rewrite Rmult_assoc, Rinv_l by lra; lra]).
  assert (B : 0 <= y / W <= 1) by (split; [apply Rmult_le_pos; [lra|left; apply Rinv_0_lt_compat; lra]|apply Rmult_le_reg_r with W; [lra|]; unfold Rdiv; rewrite Rmult_assoc, Rinv_l by lra; lra]).
  destruct (Rle_dec (x / L + y / W) 1) as [S|S].
  - exists (3, 0, 1)%nat. do 3 eexists. split; [left; reflexivity|]. split; [split; [reflexivity|split; reflexivity]|]. exists (y / W), (1 - x / L - y / W), (x / L). do 4 (split; [lra|]). apply bary_lower; lra.
  - exists (3, 1, 2)%nat. do 3 eexists. split; [right; left; reflexivity|]. split; [split; [reflexivity|split; reflexivity]|]. exists (1 - x / L), (1 - y / W), (x / L + y / W - 1). do 4 (split; [lra|]). apply bary_upper; lra.
Qed.
Lemma rect_accepts x y atol : 0 < atol -> 1 / 100000 <= x <= L - 1 / 100000 -> 1 / 100000 <= y <= W - 1 / 100000 -> is_point_inside (at_ x y) (fst f) (snd f) true atol = Ok true.
Proof.
  intros A Hx Hy. destruct (Rle_dec (x / L + y / W) 1) as [S|S].
  - destruct (lower_accepted o e1 e2 L W Ax HL HW x y Hx Hy S) as (H & T). eapply (accepted_by f n d _ atol (3, 0, 1)%nat); [apply wall_flat, rect_wall|auto|apply at_plane|left; reflexivity|split; [reflexivity|split; reflexivity]|exact H|exact T].
  - destruct (upper_accepted o e1 e2 L W Ax HL HW x y Hx Hy) as (H & T); [lra|]. eapply (accepted_by f n d _ atol (3, 1, 2)%nat); [apply wall_flat, rect_wall|auto|apply at_plane|right; left; reflexivity|split; [reflexivity|split; reflexivity]|exact H|exact T].
Qed.
End Rectangle.

Section Distance.
Context (o e1 e2 n : vec) (L W : R) (Ax : axes2 e1 e2) (HL : 1 <= L <= 100) (HW : 1 <= W <= 100) (Hn : n = cross e1 e2).
Notation at_ := (off o e1 e2).
Notation f := (rface o e1 e2 L W).
Notation d := (- dot n o).
Lemma above_dot x y k : dot n (vadd (at_ x y) (smul k n)) + d = k.
Proof. rewrite dot_vadd_r, dot_smul_r, off_dot, (n_e1 e1 e2 n Ax Hn), (n_e2 e1 e2 n Ax Hn). pose proof (n_unit e1 e2 n Ax Hn) as U. unfold unit in U. rewrite U. ring. Qed.
Lemma raised_rect x y k : fst (raised f n d (vadd (at_ x y) (smul k n))) = fst (rface (vadd o (smul k n)) e1 e2 L W).
Proof. unfold raised. cbn [fst rface map]. rewrite above_dot. unfold off. dvec o; dvec e1; dvec e2; dvec n; vunf. repeat (apply f_equal2; [f_equal; ring|]). reflexivity. Qed.
Lemma rect_ortho x y k : 1 / 100000 <= x <= L - 1 / 100000 -> 1 / 100000 <= y <= W - 1 / 100000 -> is_point_inside_ortho (vadd (at_ x y) (smul k n)) (fst f) (snd f) = Ok true.
Proof.
  intros Hx Hy. rewrite (ortho_raised f n d _ (rect_wall o e1 e2 n L W Ax HL HW Hn)), raised_rect. replace (vadd (at_ x y) (smul k n)) with (off (vadd o (smul k n)) e1 e2 x y) by (unfold off; dvec o; dvec e1; dvec e2; dvec n; vunf; f_equal; ring).
  apply (rect_accepts (vadd o (smul k n)) e1 e2 n L W Ax HL HW Hn); auto. unfold GEOM_ATOL. lra.
Qed.
Lemma seg_of x y x' y' t : seg_point (at_ x y) (at_ x' y') t = at_ ((1 - t) * x + t * x') ((1 - t) * y + t * y').
Proof. unfold seg_point, off. dvec o; dvec e1; dvec e2; vunf; f_equal; ring. Qed.
Lemma rim_near x y : 0 <= x <= L -> 0 <= y <= W -> ~ (1 / 100000 <= x <= L - 1 / 100000 /\ 1 / 100000 <= y <= W - 1 / 100000) -> exists x' y', on_outline (fst f) (at_ x' y') /\ (x' - x) * (x' - x) + (y' - y) * (y' - y) <= 1 / 100000 * (1 / 100000).
Proof.
  intros Hx Hy M. assert (TL : 0 <= x / L <= 1) by (split; [apply Rmult_le_pos; [lra|left; apply Rinv_0_lt_compat; lra]|apply Rmult_le_reg_r with L; [lra|]; unfold Rdiv; rewrite Rmult_assoc, Rinv_l by lra; lra]).
  assert (TW : 0 <= y / W <= 1) by (split; [apply Rmult_le_pos; [lra|left; apply Rinv_0_lt_compat; lra]|apply Rmult_le_reg_r with W; [lra|]; unfold Rdiv; rewrite Rmult_assoc, Rinv_l by lra; lra]).
  assert (C : x < 1 / 100000 \/ L - 1 / 100000 < x \/ y < 1 / 100000 \/ W - 1 / 100000 < y). { destruct (Rlt_dec x (1 / 100000)); auto. destruct (Rlt_dec (L - 1 / 100000) x); auto. destruct (Rlt_dec y (1 / 100000)); auto. destruct (Rlt_dec (W - 1 / 100000) y); auto. exfalso. apply M. lra. }
  destruct C as [C|[C|[C|C]]].
  - exists 0, y. split; [|nra]. exists (at_ 0 W, at_ 0 0). split; [cbn; tauto|]. exists (1 - y / W). split; [lra|]. cbn [fst snd]. rewrite seg_of. f_equal; field; lra.
  - exists L, y. split; [|nra]. exists (at_ L 0, at_ L W). split; [cbn; tauto|]. exists (y / W). split; [lra|]. cbn [fst snd]. rewrite seg_of. f_equal; field; lra.
  - exists x, 0. split; [|nra]. exists (at_ 0 0, at_ L 0). split; [cbn; tauto|]. exists (x / L). split; [lra|]. cbn [fst snd]. rewrite seg_of. f_equal; field; lra.
  - exists x, W. split; [|nra]. exists (at_ L W, at_ 0 W). split; [cbn; tauto|]. exists (1 - x / L). split; [lra|]. cbn [fst snd]. rewrite seg_of. f_equal; field; lra.
Qed.
(** The computed distance is at most 1e-5 above the distance to the plane, and
    never below it. *)
Lemma rect_distance m x y k r : first_normal_is (fst f) m -> 0 <= x <= L -> 0 <= y <= W -> distance_point_to_polygon (vadd (at_ x y) (smul k n)) (fst f) (snd f) m = Ok r -> r <= Rabs k + 1 / 100000.
Proof.
  intros Fn Hx Hy E. pose proof (rect_wall o e1 e2 n L W Ax HL HW Hn) as S. set (p := vadd (at_ x y) (smul k n)) in *.
  assert (Dk : dist p (at_ x y) = Rabs k). { unfold dist, p. replace (vsub (at_ x y) (vadd (at_ x y) (smul k n))) with (smul (- k) n) by (dvec n; generalize (at_ x y); intros q; dvec q; vunf; f_equal; ring). rewrite norm_smul, (unit_norm n (n_unit e1 e2 n Ax Hn)), Rabs_Ropp. ring. }
  destruct (distance_cases f n d m p r S Fn E) as [(O & (_ & D))|(O & (_ & D))].
  - specialize (D (at_ x y) (at_plane o e1 e2 n Ax Hn x y)). lra.
  - destruct (rim_near x y Hx Hy) as (x' & y' & Or & Lr). { intros (Mx & My). unfold p in O. rewrite (rect_ortho x y k Mx My) in O. discriminate. }
    specialize (D (at_ x' y') Or). assert (T : dist p (at_ x' y') <= dist p (at_ x y) + dist (at_ x y) (at_ x' y')).
    { unfold dist. replace (vsub (at_ x' y') p) with (vadd (vsub (at_ x y) p) (vsub (at_ x' y') (at_ x y))) by (generalize (at_ x y), (at_ x' y'); intros q q'; dvec p; dvec q; dvec q'; vunf; f_equal; ring). apply norm_triangle. }
    assert (dist (at_ x y) (at_ x' y') <= 1 / 100000). { unfold dist. rewrite off_norm by auto. rewrite <- (sqrt_square (1 / 100000)) by lra. apply sqrt_le_1_alt. exact Lr. }
    lra.
Qed.
Lemma plane_below m p r : first_normal_is (fst f) m -> distance_point_to_polygon p (fst f) (snd f) m = Ok r -> Rabs (dot n p + d) <= r.
Proof.
  intros Fn E. pose proof (rect_wall o e1 e2 n L W Ax HL HW Hn) as S. pose proof (plane_distance n d p (n_unit e1 e2 n Ax Hn)) as (_ & P). destruct (distance_cases f n d m p r S Fn E) as [(_ & ((q & Q & <-) & _))|(_ & ((q & Q & <-) & _))]; [apply P; auto|].
  apply P. destruct Q as (e & Ie & (t & T & ->)). cbn [fst rface] in Ie. destruct Ie as [<-|[<-|[<-|[<-|[]]]]]; cbn [fst snd]; rewrite seg_of; apply at_plane; auto.
Qed.
(** The first-corner normal is the normal of the rectangle. *)
Lemma rect_first_normal m : first_normal_is (fst f) m -> m = n.
Proof.
  intros (a & b & r & E & N). cbn [fst rface] in E. injection E as <- <- <-. cbn [fst rface last] in N. pose proof (normal_parallel (at_ 0 W) (at_ 0 0) (at_ L 0) n (L * W)) as P.
  rewrite P in N; [injection N as <-; auto|apply (n_unit e1 e2 n Ax Hn)|pose proof (LW L W HL HW); lra|]. rewrite Hn. unfold off. clear. dvec o; dvec e1; dvec e2; vunf; f_equal; ring.
Qed.
End Distance.
