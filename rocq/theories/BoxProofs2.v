(** Proofs: points of an axis-parallel rectangle are found in it. *)
From Coq Require Import Reals ZArith List Bool Arith Lia Lra.
From Verif Require Import Prelude VecModel VecProofs VoxModel GeomModel GeomSpec GeomProofs1 GeomProofs2 GeomProofs3 GeomProofs4 GeomProofs5 TriModel TriSpec TriProofs TriProofs2 PolyModel PolySpec PolyProofs1 PolyProofs2 SolidProofs1 CrossSpec CrossProofs1 InsideSpec InsideProofs1 RoomSpec RoomProofs1 RoomProofs2.
Import ListNotations.
Local Open Scope R_scope.

(** Seen along an axis-parallel edge, points away from it are not collinear. *)
Lemma axis_free c a b q : In c [vx; vy; vz] -> c b = c a -> 1 / 100000 <= Rabs (c q - c a) -> 1 <= dist a b -> dist a q <= 1000 -> are_points_collinear [a; b; q] GEOM_ATOL = Ok false.
Proof.
  intros I Eb Lq Lb Uq. unfold dist in *. assert (Cq : 1 / 100000 <= norm (vsub q a)). { eapply Rle_trans; [exact Lq|]. replace (c q - c a) with (c (vsub q a)) by (destruct I as [<-|[<-|[<-|[]]]]; vunf; ring). apply coord_le_norm; auto. }
  cbn [are_points_collinear map chain_close]. f_equal. rewrite andb_true_r. unfold dir_from. rewrite !(proj2 (Rltb_true _ _)) by (unfold EPSILON; lra).
  assert (K : 1 / 100000000 <= Rabs (c (vdiv (vsub q a) (norm (vsub q a))))).
  { replace (c (vdiv (vsub q a) (norm (vsub q a)))) with ((c q - c a) * / norm (vsub q a)) by (destruct I as [<-|[<-|[<-|[]]]]; unfold vdiv; vunf; unfold Rdiv; ring). rewrite Rabs_mult, (Rabs_pos_eq (/ _)) by (left; apply Rinv_0_lt_compat; lra).
    apply Rle_trans with (1 / 100000 * / 1000); [lra|]. apply Rmult_le_compat; try lra. apply Rinv_le_contravar; lra. }
  assert (Z1 : c (vdiv (vsub b a) (norm (vsub b a))) = 0).
  { replace (c (vdiv (vsub b a) (norm (vsub b a)))) with ((c b - c a) * / norm (vsub b a)) by (destruct I as [<-|[<-|[<-|[]]]]; unfold vdiv; vunf; unfold Rdiv; ring). rewrite Eb. ring. }
  assert (Z2 : c (vopp (vdiv (vsub b a) (norm (vsub b a)))) = 0). { transitivity (-1 * c (vdiv (vsub b a) (norm (vsub b a)))); [destruct I as [<-|[<-|[<-|[]]]]; reflexivity|rewrite Z1; ring]. }
  apply orb_false_iff. split; apply (not_close_at c); auto; rewrite ?Z1, ?Z2, Rminus_0_r, Rabs_R0; unfold GEOM_ATOL; lra.
Qed.

(** Two directions in a quadrant: small cross product, small difference. *)
Lemma quadrant X Y x y D r : 0 < X -> 0 < Y -> 0 < x -> 0 < y -> 0 < D -> 0 < r -> D * D = X * X + Y * Y -> r * r = x * x + y * y -> Rabs (x * D - X * r) <= Rabs (x * Y - X * y).
Proof.
  intros HX HY Hx Hy HD Hr ED Er. assert (DY : Y <= D) by nra. assert (ry : y <= r) by nra.
  assert (P1 : 0 < x * Y + X * y) by nra. assert (P2 : x * Y + X * y <= x * D + X * r) by nra.
  assert (E : (x * D - X * r) * (x * D + X * r) = (x * Y - X * y) * (x * Y + X * y)) by (replace ((x * D - X * r) * (x * D + X * r)) with (x * x * (D * D) - X * X * (r * r)) by ring; rewrite ED, Er; ring).
  apply (f_equal Rabs) in E. rewrite !Rabs_mult, (Rabs_pos_eq (x * D + X * r)), (Rabs_pos_eq (x * Y + X * y)) in E by lra.
  pose proof (Rabs_pos (x * D - X * r)). pose proof (Rabs_pos (x * Y - X * y)). nra.
Qed.

(** Pairs of axes. *)
Definition ex : vec := V 1 0 0. Definition ey : vec := V 0 1 0. Definition ez : vec := V 0 0 1.
Definition axes2 (e1 e2 : vec) : Prop := In (e1, e2) [(ex, ey); (ex, ez); (ey, ex); (ey, ez); (ez, ex); (ez, ey)].
Ltac ax H := destruct H as [H|[H|[H|[H|[H|[H|[]]]]]]]; injection H as <- <-; unfold ex, ey, ez in *.
Lemma axes_coords e1 e2 : axes2 e1 e2 -> exists c1 c2 c3, In c1 [vx; vy; vz] /\ In c2 [vx; vy; vz] /\ In c3 [vx; vy; vz] /\ c1 e1 = 1 /\ c1 e2 = 0 /\ c2 e1 = 0 /\ c2 e2 = 1 /\ c3 e1 = 0 /\ c3 e2 = 0 /\ (forall c, In c [vx; vy; vz] -> c = c1 \/ c = c2 \/ c = c3).
Proof.
  intros H. ax H; [exists vx, vy, vz|exists vx, vz, vy|exists vy, vx, vz|exists vy, vz, vx|exists vz, vx, vy|exists vz, vy, vx]; cbn [vx vy vz In]; repeat (split; [tauto|]); intros c [<-|[<-|[<-|[]]]]; tauto.
Qed.
Definition off (o e1 e2 : vec) (x y : R) : vec := vadd o (vadd (smul x e1) (smul y e2)).
Lemma off_coord c o e1 e2 x y : In c [vx; vy; vz] -> c (off o e1 e2 x y) = c o + x * c e1 + y * c e2.
Proof. intros [<-|[<-|[<-|[]]]]; unfold off; vunf; ring. Qed.
Lemma sub_coord c a b : In c [vx; vy; vz] -> c (vsub a b) = c a - c b.
Proof. intros [<-|[<-|[<-|[]]]]; vunf; ring. Qed.
Lemma off_norm o e1 e2 x y x' y' : axes2 e1 e2 -> norm (vsub (off o e1 e2 x' y') (off o e1 e2 x y)) = sqrt ((x' - x) * (x' - x) + (y' - y) * (y' - y)).
Proof. intros H. unfold norm, off. f_equal. ax H; dvec o; vunf; ring. Qed.
Lemma off_cross o e1 e2 xa ya xb yb xq yq : axes2 e1 e2 ->
  norm (cross (vsub (off o e1 e2 xb yb) (off o e1 e2 xa ya)) (vsub (off o e1 e2 xq yq) (off o e1 e2 xa ya))) = Rabs ((xb - xa) * (yq - ya) - (yb - ya) * (xq - xa)).
Proof.
  intros H. unfold norm. rewrite <- sqrt_Rsqr_abs. f_equal. unfold Rsqr, off. ax H; dvec o; vunf; ring.
Qed.
(** A nearly diagonal point either counts as collinear with the diagonal or is
    far enough from it. *)
Lemma diagonal o e1 e2 s1 s2 X Y x y xa ya : axes2 e1 e2 -> (s1 = 1 \/ s1 = -1) -> (s2 = 1 \/ s2 = -1) -> 1 <= X -> 1 <= Y -> 1 / 100000 <= x -> 1 / 100000 <= y ->
  let a := off o e1 e2 xa ya in let b := off o e1 e2 (xa + s1 * X) (ya + s2 * Y) in let q := off o e1 e2 (xa + s1 * x) (ya + s2 * y) in
  are_points_collinear [a; b; q] GEOM_ATOL = Ok false -> GEOM_ATOL <= norm (cross (vsub b a) (vsub q a)).
Proof.
  intros A S1 S2 HX HY Hx Hy a b q C. destruct (Rle_dec GEOM_ATOL (norm (cross (vsub b a) (vsub q a)))) as [L|L]; auto. exfalso. apply Rnot_le_lt in L.
  assert (Q1 : s1 * s1 = 1) by (destruct S1 as [->| ->]; ring). assert (Q2 : s2 * s2 = 1) by (destruct S2 as [->| ->]; ring).
  assert (K : norm (cross (vsub b a) (vsub q a)) = Rabs (x * Y - X * y)).
  { unfold a, b, q. rewrite off_cross by auto. replace ((xa + s1 * X - xa) * (ya + s2 * y - ya) - (ya + s2 * Y - ya) * (xa + s1 * x - xa)) with ((s1 * s2) * (X * y - x * Y)) by ring. rewrite Rabs_mult, (Rabs_minus_sym (X * y)).
    replace (Rabs (s1 * s2)) with 1; [ring|]. destruct S1 as [->| ->], S2 as [->| ->]; unfold Rabs; destruct (Rcase_abs _); lra. }
  assert (Nb : norm (vsub b a) * norm (vsub b a) = X * X + Y * Y). { unfold a, b. rewrite off_norm, sqrt_sqrt by (auto; apply Rplus_le_le_0_compat; apply Rle_0_sqr). transitivity (s1 * s1 * (X * X) + s2 * s2 * (Y * Y)); [ring|rewrite Q1, Q2; ring]. }
  assert (Nq : norm (vsub q a) * norm (vsub q a) = x * x + y * y). { unfold a, q. rewrite off_norm, sqrt_sqrt by (auto; apply Rplus_le_le_0_compat; apply Rle_0_sqr). transitivity (s1 * s1 * (x * x) + s2 * s2 * (y * y)); [ring|rewrite Q1, Q2; ring]. }
  pose proof (norm_pos (vsub b a)) as Pb. pose proof (norm_pos (vsub q a)) as Pq. set (D := norm (vsub b a)) in *. set (r := norm (vsub q a)) in *.
  assert (LD : 1 <= D) by nra. assert (Lr : 1 / 100000 <= r) by nra. rewrite K in L. unfold GEOM_ATOL in L.
  assert (M1 : Rabs (x * D - X * r) <= Rabs (x * Y - X * y)) by (apply quadrant; lra). assert (M2 : Rabs (y * D - Y * r) <= Rabs (x * Y - X * y)) by (rewrite (Rabs_minus_sym (x * Y)), (Rmult_comm X y), (Rmult_comm x Y); apply quadrant; lra).
  assert (Co : are_points_collinear [a; b; q] GEOM_ATOL = Ok true); [|congruence]. apply dirs_close; fold D r; [unfold EPSILON; lra|unfold EPSILON; lra|].
  intros c Ic. destruct (axes_coords e1 e2 A) as (c1 & c2 & c3 & I1 & I2 & I3 & V1 & V2 & V3 & V4 & V5 & V6 & Al). rewrite !sub_coord by auto. unfold a, b, q, RTOL. rewrite !off_coord by auto. 
  assert (G1 : 1 / 10000000000 <= 1 / 100000 * X * r) by nra. assert (G2 : 1 / 10000000000 <= 1 / 100000 * Y * r) by nra.
  destruct (Al c Ic) as [->|[->| ->]]; rewrite ?V1, ?V2, ?V3, ?V4, ?V5, ?V6.
  - replace ((c1 o + (xa + s1 * x) * 1 + (ya + s2 * y) * 0 - (c1 o + xa * 1 + ya * 0)) * D - (c1 o + (xa + s1 * X) * 1 + (ya + s2 * Y) * 0 - (c1 o + xa * 1 + ya * 0)) * r) with (s1 * (x * D - X * r)) by ring.
    replace (c1 o + (xa + s1 * X) * 1 + (ya + s2 * Y) * 0 - (c1 o + xa * 1 + ya * 0)) with (s1 * X) by ring. rewrite !Rabs_mult. replace (Rabs s1) with 1 by (destruct S1 as [->| ->]; unfold Rabs; destruct (Rcase_abs _); lra). rewrite (Rabs_pos_eq X) by lra. lra.
  - replace ((c2 o + (xa + s1 * x) * 0 + (ya + s2 * y) * 1 - (c2 o + xa * 0 + ya * 1)) * D - (c2 o + (xa + s1 * X) * 0 + (ya + s2 * Y) * 1 - (c2 o + xa * 0 + ya * 1)) * r) with (s2 * (y * D - Y * r)) by ring.
    replace (c2 o + (xa + s1 * X) * 0 + (ya + s2 * Y) * 1 - (c2 o + xa * 0 + ya * 1)) with (s2 * Y) by ring. rewrite !Rabs_mult. replace (Rabs s2) with 1 by (destruct S2 as [->| ->]; unfold Rabs; destruct (Rcase_abs _); lra). rewrite (Rabs_pos_eq Y) by lra. lra.
  - replace ((c3 o + (xa + s1 * x) * 0 + (ya + s2 * y) * 0 - (c3 o + xa * 0 + ya * 0)) * D - (c3 o + (xa + s1 * X) * 0 + (ya + s2 * Y) * 0 - (c3 o + xa * 0 + ya * 0)) * r) with 0 by ring. rewrite Rabs_R0. apply Rmult_le_pos; [|lra]. apply Rmult_le_pos; [lra|apply Rabs_pos].
Qed.
Lemma box_range a b q : (forall c, In c [vx; vy; vz] -> (c a <= c q <= c b \/ c b <= c q <= c a)) -> within_edge_box q a b GEOM_ATOL = true.
Proof.
  intros R. unfold within_edge_box. apply negb_true_iff.
  assert (H : forall u v w, (u <= w <= v \/ v <= w <= u) -> Rltb (Rmax (round8 u) (round8 v) + GEOM_ATOL) (round8 w) || Rltb (round8 w) (Rmin (round8 u) (round8 v) - GEOM_ATOL) = false).
  { intros u v w L. apply orb_false_iff. rewrite !Rltb_false. unfold GEOM_ATOL. pose proof (Rmax_l (round8 u) (round8 v)). pose proof (Rmax_r (round8 u) (round8 v)). pose proof (Rmin_l (round8 u) (round8 v)). pose proof (Rmin_r (round8 u) (round8 v)).
    destruct L as [(L1 & L2)|(L1 & L2)]; apply round8_mono in L1, L2; lra. }
  cbv zeta. rewrite !H; [reflexivity| | |]; apply R; cbn; auto.
Qed.
Lemma accept_gen p1 p2 p3 q : hull3 p1 p2 p3 q -> GEOM_ATOL <= 2 * true_area p1 p2 p3 ->
  (edge_verdict q GEOM_ATOL [(p1, p2); (p2, p3); (p3, p1)] = Ok (Some true) \/
   (edge_verdict q GEOM_ATOL [(p1, p2); (p2, p3); (p3, p1)] = Ok None /\ GEOM_ATOL <= norm (cross (vsub p2 p1) (vsub q p1)) /\ GEOM_ATOL <= norm (cross (vsub p3 p2) (vsub q p2)) /\ GEOM_ATOL <= norm (cross (vsub p1 p3) (vsub q p3)))) ->
  is_point_inside_triangle q p1 p2 p3 GEOM_ATOL = Ok true.
Proof.
  intros H Ar Ev. unfold is_point_inside_triangle. destruct (inside_bbox_spec q [p1; p2; p3] (1 / 100)) as (bb & -> & B); [discriminate|]. assert (bb = true) as ->.
  { apply B. intros co Ico. destruct (hull3_coord p1 p2 p3 q co Ico H) as ((v & Iv & Lv) & (w & Iw & Lw)). split; [exists v|exists w]; (split; [auto|lra]). }
  cbn [rbind negb]. destruct (_ || _ || allclose q p3 RTOL GEOM_ATOL); auto. destruct Ev as [->|(-> & O1 & O2 & O3)]; auto. cbn [rbind].
  destruct H as (a & b & c & A & B' & C & S & E). destruct (inside_crosses p1 p2 p3 q a b c S E) as (T1 & T2 & T3).
  assert (Gz : forall k, 0 <= k -> GEOM_ATOL <= norm (smul k (cross (vsub p2 p1) (vsub p3 p1))) -> 0 < k). { intros k K L. destruct (Req_dec k 0) as [->|]; [|lra]. rewrite norm_smul, Rabs_R0 in L. unfold GEOM_ATOL in L. lra. }
  assert (c > 0) by (apply Gz; auto; rewrite <- T1; auto). assert (a > 0) by (apply Gz; auto; rewrite <- T2; auto). assert (b > 0) by (apply Gz; auto; rewrite <- T3; auto). unfold true_area in Ar.
  rewrite (same_side_pos p1 p2 q p3 c) by (auto; lra). rewrite (same_side_pos p2 p3 q p1 a) by (auto; rewrite ?(N2 p1 p2 p3); auto; lra). rewrite (same_side_pos p3 p1 q p2 b) by (auto; rewrite ?(N3 p1 p2 p3); auto; lra). reflexivity.
Qed.

Lemma bary_lower o e1 e2 L W x y : L <> 0 -> W <> 0 -> off o e1 e2 x y = bary (off o e1 e2 0 W) (off o e1 e2 0 0) (off o e1 e2 L 0) (y / W) (1 - x / L - y / W) (x / L).
Proof. intros HL HW. unfold bary, off. dvec o; dvec e1; dvec e2; vunf; f_equal; field; auto. Qed.
Lemma bary_upper o e1 e2 L W x y : L <> 0 -> W <> 0 -> off o e1 e2 x y = bary (off o e1 e2 0 W) (off o e1 e2 L 0) (off o e1 e2 L W) (1 - x / L) (1 - y / W) (x / L + y / W - 1).
Proof. intros HL HW. unfold bary, off. dvec o; dvec e1; dvec e2; vunf; f_equal; field; auto. Qed.

Section Rectangle.
Context (o e1 e2 : vec) (L W : R) (Ax : axes2 e1 e2) (HL : 1 <= L <= 100) (HW : 1 <= W <= 100).
Notation at_ := (off o e1 e2).
Lemma area_of xa ya xb yb xc yc : 2 * true_area (at_ xa ya) (at_ xb yb) (at_ xc yc) = Rabs ((xb - xa) * (yc - ya) - (yb - ya) * (xc - xa)).
Proof. unfold true_area. rewrite off_cross by auto. field. Qed.
Lemma dist_le xa ya xb yb : Rabs (xb - xa) <= 100 -> Rabs (yb - ya) <= 100 -> dist (at_ xa ya) (at_ xb yb) <= 1000.
Proof.
  intros H1 H2. apply Rabs_le_inv in H1, H2. unfold dist. rewrite off_norm by auto. rewrite <- (sqrt_square 1000) by lra. apply sqrt_le_1_alt. nra.
Qed.
Lemma dist_ge xa ya xb yb : (1 <= Rabs (xb - xa) \/ 1 <= Rabs (yb - ya)) -> 1 <= dist (at_ xa ya) (at_ xb yb).
Proof.
  intros H. unfold dist. rewrite off_norm by auto. rewrite <- sqrt_1 at 1. apply sqrt_le_1_alt. pose proof (Rle_0_sqr (xb - xa)) as P1. pose proof (Rle_0_sqr (yb - ya)) as P2. unfold Rsqr in *.
  destruct H as [H|H]; [assert (1 <= (xb - xa) * (xb - xa))|assert (1 <= (yb - ya) * (yb - ya))]; try lra.
  - rewrite <- (Rabs_pos_eq ((xb - xa) * (xb - xa))), Rabs_mult by auto. nra.
  - rewrite <- (Rabs_pos_eq ((yb - ya) * (yb - ya))), Rabs_mult by auto. nra.
Qed.
Lemma free1 xa yb ya x y : 1 <= Rabs (yb - ya) -> 1 / 100000 <= Rabs (x - xa) -> Rabs (x - xa) <= 100 -> Rabs (y - ya) <= 100 -> are_points_collinear [at_ xa ya; at_ xa yb; at_ x y] GEOM_ATOL = Ok false.
Proof.
  intros H1 H2 H3 H4. destruct (axes_coords e1 e2 Ax) as (c1 & c2 & c3 & I1 & I2 & I3 & V1 & V2 & V3 & V4 & V5 & V6 & Al).
  apply (axis_free c1); auto; [rewrite !off_coord, V1, V2 by auto; ring| |apply dist_ge; auto|apply dist_le; auto].
  rewrite !off_coord, V1, V2 by auto. replace (c1 o + x * 1 + y * 0 - (c1 o + xa * 1 + ya * 0)) with (x - xa) by ring. auto.
Qed.
Lemma free2 xa xb ya x y : 1 <= Rabs (xb - xa) -> 1 / 100000 <= Rabs (y - ya) -> Rabs (x - xa) <= 100 -> Rabs (y - ya) <= 100 -> are_points_collinear [at_ xa ya; at_ xb ya; at_ x y] GEOM_ATOL = Ok false.
Proof.
  intros H1 H2 H3 H4. destruct (axes_coords e1 e2 Ax) as (c1 & c2 & c3 & I1 & I2 & I3 & V1 & V2 & V3 & V4 & V5 & V6 & Al).
  apply (axis_free c2); auto; [rewrite !off_coord, V3, V4 by auto; ring| |apply dist_ge; auto|apply dist_le; auto].
  rewrite !off_coord, V3, V4 by auto. replace (c2 o + x * 0 + y * 1 - (c2 o + xa * 0 + ya * 1)) with (y - ya) by ring. auto.
Qed.
Lemma range_of xa ya xb yb x y : (xa <= x <= xb \/ xb <= x <= xa) -> (ya <= y <= yb \/ yb <= y <= ya) -> within_edge_box (at_ x y) (at_ xa ya) (at_ xb yb) GEOM_ATOL = true.
Proof.
  intros H1 H2. apply box_range. intros c Ic. destruct (axes_coords e1 e2 Ax) as (c1 & c2 & c3 & I1 & I2 & I3 & V1 & V2 & V3 & V4 & V5 & V6 & Al). rewrite !off_coord by auto. destruct (Al c Ic) as [->|[->| ->]]; rewrite ?V1, ?V2, ?V3, ?V4, ?V5, ?V6; lra.
Qed.
Context (x y : R) (Hx : 1 / 100000 <= x <= L - 1 / 100000) (Hy : 1 / 100000 <= y <= W - 1 / 100000).
Ltac ab := unfold Rabs; repeat destruct (Rcase_abs _); lra.
Lemma lower_accepted : x / L + y / W <= 1 -> hull3 (at_ 0 W) (at_ 0 0) (at_ L 0) (at_ x y) /\ is_point_inside_triangle (at_ x y) (at_ 0 W) (at_ 0 0) (at_ L 0) GEOM_ATOL = Ok true.
Proof.
  intros S. assert (H : hull3 (at_ 0 W) (at_ 0 0) (at_ L 0) (at_ x y)).
  { exists (y / W), (1 - x / L - y / W), (x / L). split; [apply Rmult_le_pos; [lra|left; apply Rinv_0_lt_compat; lra]|]. split; [lra|]. split; [apply Rmult_le_pos; [lra|left; apply Rinv_0_lt_compat; lra]|]. split; [ring|].
    apply bary_lower; lra. }
  split; [exact H|]. apply accept_gen; auto. { rewrite area_of. replace ((0 - 0) * (0 - W) - (0 - W) * (L - 0)) with (W * L) by ring. rewrite Rabs_pos_eq by nra. unfold GEOM_ATOL. nra. }
  cbn [edge_verdict]. rewrite free1 by ab. cbn [rbind]. rewrite free2 by ab. cbn [rbind].
  destruct (are_points_collinear [at_ L 0; at_ 0 W; at_ x y] GEOM_ATOL) as [[|]|] eqn:C; cbn [rbind]; [left|right|discriminate].
  - rewrite range_of; auto; [right; lra|left; lra].
  - split; auto. split; [|split].
    + rewrite off_cross by auto. replace ((0 - 0) * (y - W) - (0 - W) * (x - 0)) with (W * x) by ring. rewrite Rabs_pos_eq by nra. unfold GEOM_ATOL. nra.
    + rewrite off_cross by auto. replace ((L - 0) * (y - 0) - (0 - 0) * (x - 0)) with (L * y) by ring. rewrite Rabs_pos_eq by nra. unfold GEOM_ATOL. nra.
    + pose proof (diagonal o e1 e2 (-1) 1 L W (L - x) y L 0 Ax) as Dg. cbv zeta in Dg. replace (L + -1 * L) with 0 in Dg by ring. replace (0 + 1 * W) with W in Dg by ring. replace (L + -1 * (L - x)) with x in Dg by ring. replace (0 + 1 * y) with y in Dg by ring. apply Dg; auto; lra.
Qed.
Lemma upper_accepted : 1 <= x / L + y / W -> hull3 (at_ 0 W) (at_ L 0) (at_ L W) (at_ x y) /\ is_point_inside_triangle (at_ x y) (at_ 0 W) (at_ L 0) (at_ L W) GEOM_ATOL = Ok true.
Proof.
  intros S. assert (HxL : x / L <= 1) by (apply Rmult_le_reg_r with L; [lra|]; unfold Rdiv; rewrite Rmult_assoc, Rinv_l by lra; lra). assert (HyW : y / W <= 1) by (apply Rmult_le_reg_r with W; [lra|]; unfold Rdiv; rewrite Rmult_assoc, Rinv_l by lra; lra).
  assert (H : hull3 (at_ 0 W) (at_ L 0) (at_ L W) (at_ x y)).
  { exists (1 - x / L), (1 - y / W), (x / L + y / W - 1). repeat (split; [lra|]). apply bary_upper; lra. }
  split; [exact H|]. apply accept_gen; auto. { rewrite area_of. replace ((L - 0) * (W - W) - (0 - W) * (L - 0)) with (W * L) by ring. rewrite Rabs_pos_eq by nra. unfold GEOM_ATOL. nra. }
  cbn [edge_verdict]. destruct (are_points_collinear [at_ 0 W; at_ L 0; at_ x y] GEOM_ATOL) as [[|]|] eqn:C; cbn [rbind]; [left|right|discriminate].
  - rewrite range_of; auto; [left; lra|right; lra].
  - rewrite free1 by ab. cbn [rbind]. rewrite free2 by ab. cbn [rbind]. split; auto. split; [|split].
    + pose proof (diagonal o e1 e2 1 (-1) L W x (W - y) 0 W Ax) as Dg. cbv zeta in Dg. replace (0 + 1 * L) with L in Dg by ring. replace (W + -1 * W) with 0 in Dg by ring. replace (0 + 1 * x) with x in Dg by ring. replace (W + -1 * (W - y)) with y in Dg by ring. apply Dg; auto; lra.
    + rewrite off_cross by auto. replace ((L - L) * (y - 0) - (W - 0) * (x - L)) with (W * (L - x)) by ring. rewrite Rabs_pos_eq by nra. unfold GEOM_ATOL. nra.
    + rewrite off_cross by auto. replace ((0 - L) * (y - W) - (W - W) * (x - L)) with (L * (W - y)) by ring. rewrite Rabs_pos_eq by nra. unfold GEOM_ATOL. nra.
Qed.
End Rectangle.
