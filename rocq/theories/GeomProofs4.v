(** Coplanarity, corners, points in triangles, centroids, planes. *)
From Coq Require Import Reals ZArith List Bool Arith Lia Lra Psatz.
From Verif Require Import Prelude VecModel VecProofs VoxModel VoxProofs GeomModel GeomSpec GeomProofs1 GeomProofs2 GeomProofs3.
Import ListNotations.
Local Open Scope R_scope.

Lemma Ok_inj {A} (a b : A) : Ok a = Ok b -> a = b.
Proof. intros H. inversion H. auto. Qed.

(** Coplanarity. *)
Lemma first_normal_spec pts n : first_normal pts = Some n -> exists a b c, In a pts /\ In b pts /\ In c pts /\ normal a b c = Some n.
Proof.
  induction pts as [|a pts IH]; [discriminate|]. destruct pts as [|b [|c r]]; try discriminate. cbn [first_normal]. destruct (normal a b c) as [m|] eqn:E.
  - intros H; inversion H; subst. exists a, b, c. simpl. auto 10.
  - intros H. destruct (IH H) as (x & y & z & I1 & I2 & I3 & E'). exists x, y, z. simpl in *. auto 10.
Qed.
Lemma parallel_normal n0 a b c n : n0 <> vzero -> dot n0 a = dot n0 b -> dot n0 a = dot n0 c -> normal a b c = Some n -> exists k, n = smul k n0.
Proof.
  intros N E1 E2 H. apply normal_some in H. destruct H as (L & ->). set (w := cross (vsub b a) (vsub c a)) in *.
  assert (Z : cross n0 w = vzero).
  { unfold w. assert (B1 : dot n0 (vsub b a) = 0) by (unfold dot, vsub in *; cbn [vx vy vz]; lra). assert (B2 : dot n0 (vsub c a) = 0) by (unfold dot, vsub in *; cbn [vx vy vz]; lra).
    set (u := vsub b a) in *. set (v := vsub c a) in *.
    transitivity (vsub (smul (dot n0 v) u) (smul (dot n0 u) v)); [clear; dvec n0; dvec u; dvec v; vunf; f_equal; ring|]. rewrite B1, B2. clear. dvec u; dvec v; vunf; f_equal; ring. }
  assert (P : 0 < dot n0 n0). { destruct (Rle_lt_or_eq_dec 0 _ (dot_pos n0)) as [|E]; auto. exfalso. apply N. apply dot_zero. auto. }
  assert (W : w = smul (dot n0 w / dot n0 n0) n0).
  { assert (X : smul (dot n0 n0) w = smul (dot n0 w) n0).
    { transitivity (vsub (smul (dot n0 w) n0) (cross n0 (cross n0 w))); [clear; dvec n0; dvec w; vunf; f_equal; ring|]. rewrite Z. clear. generalize (smul (dot n0 w) n0) as q. intros q. dvec q; dvec n0; vunf; f_equal; ring. }
    transitivity (smul (/ dot n0 n0) (smul (dot n0 n0) w)).
    - clear - P. set (k := dot n0 n0) in *. dvec w. vunf. f_equal; field; lra.
    - rewrite X. set (k := dot n0 n0) in *. set (j := dot n0 w). clear - P. dvec n0. unfold smul. cbn [vx vy vz]. f_equal; field; lra. }
  exists (/ norm w * (dot n0 w / dot n0 n0)). rewrite vdiv_smul. rewrite W at 2. set (j := dot n0 w / dot n0 n0). clear. dvec n0. unfold smul. cbn [vx vy vz]. f_equal; ring.
Qed.
Lemma coplanar_accepted pts atol : 0 < atol -> coplanar pts -> are_points_coplanar pts atol = Ok true.
Proof.
  intros A (n0 & c & N & H). unfold are_points_coplanar. destruct pts as [|p0 [|p1 [|p2 [|p3 r]]]]; auto.
  set (pts := p0 :: p1 :: p2 :: p3 :: r) in *. change (are_points_collinear pts atol) with (@Ok bool (chain_close atol (map (dir_from p0) (p1 :: p2 :: p3 :: r)))). cbn [rbind].
  destruct (chain_close _ _); auto. destruct (first_normal pts) as [n|] eqn:E; auto. f_equal. apply forallb_forall. intros p I. apply Rltb_true.
  destruct (first_normal_spec _ _ E) as (a & b & d & Ia & Ib & Id & En). destruct (parallel_normal n0 a b d n) as (k & ->); auto; try (rewrite !H; auto; fail).
  rewrite !dot_smul_l, !H; auto; [|left; auto]. replace (-1 * (k * c) + k * c) with 0 by ring. rewrite Rabs_R0. auto.
Qed.
Lemma first_normal_none pts : first_normal pts = None <-> thin_triples pts.
Proof.
  unfold thin_triples, true_area. induction pts as [|a pts IH]; [split; auto; intros _ [|i] x y z E; discriminate|].
  destruct pts as [|b [|c r]].
  - split; auto. intros _ [|i] x y z E1 E2; simpl in *; try discriminate. destruct i; discriminate.
  - split; auto. intros _ [|[|i]] x y z E1 E2 E3; simpl in *; try discriminate. destruct i; discriminate.
  - cbn [first_normal]. destruct (normal a b c) as [m|] eqn:E.
    + split; [discriminate|]. intros H. exfalso. apply normal_some in E. destruct E as (E & _). specialize (H 0%nat a b c eq_refl eq_refl eq_refl). lra.
    + rewrite IH. apply normal_none in E. split.
      * intros H [|i] x y z E1 E2 E3; [simpl in *; inversion E1; inversion E2; inversion E3; subst; lra|]. apply (H i x y z); auto.
      * intros H i x y z E1 E2 E3. apply (H (S i) x y z); auto.
Qed.
Lemma coplanar_sound pts atol p0 : nth_error pts 0 = Some p0 -> (4 <= length pts)%nat -> are_points_coplanar pts atol = Ok true ->
  are_points_collinear pts atol = Ok true \/ thin_triples pts \/
  exists n, unit n /\ forall p, In p pts -> Rabs (dot n (vsub p p0)) < atol.
Proof.
  intros E0 L. destruct pts as [|q [|p1 [|p2 [|p3 r]]]]; try (simpl in L; lia). simpl in E0. inversion E0; subst q. unfold are_points_coplanar.
  set (pts := p0 :: p1 :: p2 :: p3 :: r) in *. destruct (are_points_collinear pts atol) as [c|] eqn:C; [|discriminate]. cbn [rbind]. destruct c; [auto|].
  destruct (first_normal pts) as [n|] eqn:E.
  - intros H. right. right. exists n. destruct (first_normal_spec _ _ E) as (a & b & d & _ & _ & _ & En). split; [apply normal_spec in En; apply En|].
    apply Ok_inj in H. rename H into H1. rewrite forallb_forall in H1. intros p I. specialize (H1 p I). rbool. replace (dot n (vsub p p0)) with (-1 * dot n p0 + dot n p); auto. unfold dot, vsub. cbn [vx vy vz]. ring.
  - intros _. right. left. apply first_normal_none. auto.
Qed.
Lemma coplanar_total pts atol : exists b, are_points_coplanar pts atol = Ok b.
Proof.
  unfold are_points_coplanar. destruct pts as [|p0 [|p1 [|p2 [|p3 r]]]]; eauto. cbn [are_points_collinear rbind]. destruct (chain_close _ _); eauto. destruct (first_normal _); eauto.
Qed.
(** Points of a line are recognised, unless one coincides with the first. *)
Lemma dir_from_line p0 v k : unit v -> EPSILON < Rabs k -> dir_from p0 (vadd p0 (smul k v)) = (if Rltb 0 k then v else vopp v).
Proof.
  intros U L. unfold dir_from. replace (vsub (vadd p0 (smul k v)) p0) with (smul k v) by (dvec p0; dvec v; vunf; f_equal; ring).
  rewrite norm_smul, (unit_norm _ U), Rmult_1_r. rewrite (proj2 (Rltb_true _ _)) by auto. unfold EPSILON in L. clear U. destruct (Rltb 0 k) eqn:E; rbool.
  - rewrite Rabs_pos_eq in * by lra. dvec v. vunf. f_equal; field; lra.
  - unfold Rabs in *. destruct (Rcase_abs k); [|lra]. dvec v. vunf. f_equal; field; lra.
Qed.
Lemma allclose_refl a rt at_ : 0 <= rt -> 0 <= at_ -> allclose a a rt at_ = true.
Proof. intros. unfold allclose. rewrite !isclose_refl by auto. reflexivity. Qed.
Lemma collinear_accepted p0 v ks atol : 0 <= atol -> unit v -> (2 <= length ks)%nat -> (forall k, In k ks -> EPSILON < Rabs k) ->
  are_points_collinear (p0 :: map (fun k => vadd p0 (smul k v)) ks) atol = Ok true.
Proof.
  intros A U L H. destruct ks as [|k1 [|k2 ks]]; try (simpl in L; lia). set (l := k1 :: k2 :: ks) in *.
  change (@Ok bool (chain_close atol (map (dir_from p0) (map (fun k => vadd p0 (smul k v)) l))) = Ok true). f_equal. clearbody l. clear L.
  induction l as [|a l IH]; auto. destruct l as [|b l]; auto. cbn [map chain_close] in *. rewrite IH by (intros k I; apply H; simpl in *; tauto). rewrite andb_true_r.
  rewrite !dir_from_line by (auto; apply H; simpl; auto). assert (V : vopp (vopp v) = v) by (dvec v; vunf; f_equal; ring).
  assert (0 <= RTOL) by (unfold RTOL; lra). destruct (Rltb 0 a), (Rltb 0 b); rewrite ?V, !allclose_refl by auto; rewrite ?orb_true_r; auto.
Qed.
Lemma collinear_repeated p0 p : 1 / 10 <= norm (vsub p p0) -> are_points_collinear [p0; p0; p] GEOM_ATOL = Ok false.
Proof.
  intros L. cbn [are_points_collinear map chain_close]. f_equal. rewrite andb_true_r. unfold dir_from at 2 4. replace (vsub p0 p0) with vzero by (dvec p0; vunf; f_equal; ring).
  rewrite (proj2 (norm_zero vzero) eq_refl). rewrite (proj2 (Rltb_false _ _)) by (unfold EPSILON; lra). replace (vopp vzero) with vzero by (unfold vzero; vunf; f_equal; ring). rewrite orb_diag.
  unfold dir_from. rewrite (proj2 (Rltb_true _ _)) by (unfold EPSILON; lra). set (v := vsub p p0) in *. pose proof (unit_vdiv v ltac:(lra)) as U. set (d := vdiv v (norm v)) in *.
  destruct (allclose d vzero RTOL GEOM_ATOL) eqn:C; auto. exfalso. unfold allclose, isclose in C. cbn [vx vy vz vzero] in C. rewrite !andb_true_iff in C. destruct C as ((C1 & C2) & C3). rbool.
  rewrite Rabs_R0, Rminus_0_r in *. unfold unit, dot in U. unfold GEOM_ATOL in *.
  assert (S : forall x, Rabs x <= 1 / 10000000000000 + RTOL * 0 -> x * x <= 1 / 100). { intros x X. unfold Rabs in X. destruct (Rcase_abs x); nra. }
  apply S in C1, C2, C3. lra.
Qed.

(** Convex corners. *)
Lemma close_coord a b rt at_ : isclose a b rt at_ = true -> (a - b) * (a - b) <= (at_ + rt * Rabs b) * (at_ + rt * Rabs b).
Proof.
  unfold isclose. intros H. rbool. pose proof (Rabs_pos (a - b)). assert (E : (a - b) * (a - b) = Rabs (a - b) * Rabs (a - b)) by (unfold Rabs; destruct (Rcase_abs (a - b)); ring).
  rewrite E. apply Rmult_le_compat; auto.
Qed.
Lemma allclose_unit_dot a b rt at_ : 0 <= rt <= 1 / 10000 -> 0 <= at_ <= 1 / 10000 -> unit a -> 999 / 1000 <= norm b <= 1001 / 1000 -> allclose a b rt at_ = true -> 9 / 10 < dot a b.
Proof.
  intros Rt At U N C. unfold allclose in C. apply andb_true_iff in C. destruct C as (C & C3). apply andb_true_iff in C. destruct C as (C1 & C2).
  apply close_coord in C1, C2, C3. pose proof (norm_sq b) as Nb.
  assert (X : forall t, Rabs t <= norm b -> (at_ + rt * Rabs t) * (at_ + rt * Rabs t) <= 1 / 1000000).
  { intros t T. pose proof (Rabs_pos t). assert (0 <= rt * Rabs t) by (apply Rmult_le_pos; lra).
    assert (rt * Rabs t <= 1 / 10000 * (1001 / 1000)) by (apply Rmult_le_compat; lra). set (s := at_ + rt * Rabs t). assert (S : 0 <= s <= 3 / 10000) by (unfold s; lra).
    apply Rle_trans with (3 / 10000 * (3 / 10000)); [apply Rmult_le_compat; lra|lra]. }
  assert (Y : forall t, t * t <= dot b b -> Rabs t <= norm b).
  { intros t T. unfold norm. rewrite <- sqrt_Rsqr_abs. apply sqrt_le_1_alt. auto. }
  pose proof (X (vx b) ltac:(apply Y; unfold dot; nra)). pose proof (X (vy b) ltac:(apply Y; unfold dot; nra)). pose proof (X (vz b) ltac:(apply Y; unfold dot; nra)).
  assert (Nb2 : 998 / 1000 <= dot b b) by (rewrite <- Nb; nra).
  unfold unit, dot in *. nra.
Qed.
Lemma corner_convex_sound p1 p2 p3 vn : is_corner_convex p1 p2 p3 vn GEOM_ATOL = Ok true ->
  GEOM_ATOL <= norm (cross (vsub p2 p1) (vsub p3 p2)) /\ 9 / 10 * norm (cross (vsub p2 p1) (vsub p3 p2)) < dot (cross (vsub p2 p1) (vsub p3 p2)) vn.
Proof.
  unfold is_corner_convex. destruct (Rltb (Rabs (norm vn - 1)) GEOM_ATOL) eqn:U; [|discriminate]. rbool. set (c := cross _ _).
  destruct (Rltb (norm c) GEOM_ATOL) eqn:E; [discriminate|]. rbool. intros H. apply Ok_inj in H. rename H into H1. split; auto.
  assert (N : norm c <> 0) by (unfold GEOM_ATOL in E; lra).
  pose proof (allclose_unit_dot (vdiv c (norm c)) vn GEOM_RTOL ATOL8 ltac:(unfold GEOM_RTOL; lra) ltac:(unfold ATOL8; lra) (unit_vdiv c N)) as D.
  assert (Nv : 999 / 1000 <= norm vn <= 1001 / 1000) by (unfold GEOM_ATOL, Rabs in U; destruct (Rcase_abs (norm vn - 1)); lra).
  specialize (D Nv H1). rewrite vdiv_smul, dot_smul_l in D. pose proof (norm_pos c). apply Rmult_lt_reg_l with (/ norm c); [apply Rinv_0_lt_compat; lra|].
  replace (/ norm c * (9 / 10 * norm c)) with (9 / 10) by (field; auto). auto.
Qed.
Lemma corner_convex_plane p1 p2 p3 vn k : unit vn -> cross (vsub p2 p1) (vsub p3 p2) = smul k vn ->
  is_corner_convex p1 p2 p3 vn GEOM_ATOL = Ok (Rleb GEOM_ATOL k).
Proof.
  intros U E. unfold is_corner_convex. rewrite (unit_norm _ U), Rminus_diag_eq, Rabs_R0 by auto. rewrite (proj2 (Rltb_true _ _)) by (unfold GEOM_ATOL; lra).
  rewrite E, norm_smul, (unit_norm _ U), Rmult_1_r. destruct (Rltb (Rabs k) GEOM_ATOL) eqn:S; rbool.
  - f_equal. symmetry. apply Rleb_false. apply Rle_lt_trans with (Rabs k); auto. apply Rle_abs.
  - f_equal. unfold GEOM_ATOL in *. unfold Rabs in *. destruct (Rcase_abs k) as [K|K].
    + rewrite (proj2 (Rleb_false _ _)) by lra. replace (vdiv (smul k vn) (- k)) with (vopp vn) by (dvec vn; vunf; f_equal; field; lra).
      destruct (allclose (vopp vn) vn GEOM_RTOL ATOL8) eqn:C; auto. exfalso.
      assert (Uo : unit (vopp vn)) by (unfold unit in *; rewrite dot_vopp_l; dvec vn; vunf; lra).
      pose proof (allclose_unit_dot (vopp vn) vn GEOM_RTOL ATOL8 ltac:(unfold GEOM_RTOL; lra) ltac:(unfold ATOL8; lra) Uo ltac:(rewrite (unit_norm _ U); lra) C) as D. rewrite dot_vopp_l, U in D. lra.
    + rewrite (proj2 (Rleb_true _ _)) by lra. replace (vdiv (smul k vn) k) with vn by (dvec vn; vunf; f_equal; field; lra). apply allclose_refl; unfold GEOM_RTOL, ATOL8; lra.
Qed.
Lemma corner_convex_err p1 p2 p3 vn e : is_corner_convex p1 p2 p3 vn GEOM_ATOL = Err e <-> e = AssertionError /\ GEOM_ATOL <= Rabs (norm vn - 1).
Proof.
  unfold is_corner_convex. destruct (Rltb (Rabs (norm vn - 1)) GEOM_ATOL) eqn:U; rbool.
  - split; [destruct (Rltb _ _); discriminate|intros (_ & H); lra].
  - split; [intros H; inversion H; auto|intros (-> & _); auto].
Qed.

(** Points in triangles. *)
Lemma cross_norm_le a b : norm (cross a b) <= norm a * norm b.
Proof.
  unfold norm. rewrite <- sqrt_mult by apply dot_pos. apply sqrt_le_1_alt.
  replace (dot a a * dot b b) with (dot a b * dot a b + dot (cross a b) (cross a b)) by (dvec a; dvec b; vunf; ring). nra.
Qed.
Lemma coord_le_norm c v : In c [vx; vy; vz] -> Rabs (c v) <= norm v.
Proof. intros I. unfold norm. rewrite <- sqrt_Rsqr_abs. apply sqrt_le_1_alt. unfold Rsqr, dot. destruct I as [<-|[<-|[<-|[]]]]; nra. Qed.
Lemma allclose_dist a b rt at_ : 0 <= rt -> 0 <= at_ -> allclose a b rt at_ = true -> norm (vsub a b) <= 2 * (at_ + rt * norm b).
Proof.
  intros Hr Ha C. unfold allclose in C. rewrite !andb_true_iff in C. destruct C as ((C1 & C2) & C3). apply close_coord in C1, C2, C3.
  set (T := at_ + rt * norm b). pose proof (norm_pos b) as Pb. assert (PT : 0 <= T) by (unfold T; nra).
  assert (X : forall c, In c [vx; vy; vz] -> (at_ + rt * Rabs (c b)) * (at_ + rt * Rabs (c b)) <= T * T).
  { intros c I. pose proof (coord_le_norm c b I). pose proof (Rabs_pos (c b)). assert (0 <= rt * Rabs (c b)) by (apply Rmult_le_pos; auto).
    assert (rt * Rabs (c b) <= rt * norm b) by (apply Rmult_le_compat_l; auto). apply Rmult_le_compat; unfold T; lra. }
  pose proof (X vx ltac:(simpl; auto)). pose proof (X vy ltac:(simpl; auto)). pose proof (X vz ltac:(simpl; auto)).
  unfold norm at 1. rewrite <- (sqrt_Rsqr (2 * T)) by lra. apply sqrt_le_1_alt. unfold Rsqr, dot, vsub. cbn [vx vy vz]. nra.
Qed.
Lemma far_not_close v q : far_from v q -> allclose q v RTOL GEOM_ATOL = false.
Proof.
  intros F. destruct (allclose q v RTOL GEOM_ATOL) eqn:E; auto. apply allclose_dist in E; try (unfold RTOL, GEOM_ATOL; lra). unfold far_from, dist, RTOL, GEOM_ATOL in *. lra.
Qed.
Lemma off_edge_not_collinear a b q : off_edge a b q -> are_points_collinear [a; b; q] GEOM_ATOL = Ok false.
Proof.
  intros (H & L1 & L2 & _). unfold dist, true_area in *. cbn [are_points_collinear map chain_close]. f_equal. rewrite andb_true_r. unfold dir_from.
  rewrite !(proj2 (Rltb_true _ _)) by (unfold EPSILON; lra). set (u := vsub b a) in *. set (v := vsub q a) in *.
  assert (Nu : norm u <> 0) by lra. assert (Nv : norm v <> 0) by lra. pose proof (unit_vdiv u Nu) as Uu. pose proof (unit_vdiv v Nv) as Uv.
  set (d1 := vdiv u (norm u)) in *. set (d2 := vdiv v (norm v)) in *.
  assert (S : 1 / 10000 < norm (cross d1 d2)).
  { unfold d1, d2. rewrite !vdiv_smul. replace (cross (smul (/ norm u) u) (smul (/ norm v) v)) with (smul (/ norm u * / norm v) (cross u v)) by (generalize (/ norm u), (/ norm v); intros; clear; dvec u; dvec v; vunf; f_equal; ring).
    rewrite norm_smul. assert (P : 0 < / norm u * / norm v) by (apply Rmult_lt_0_compat; apply Rinv_0_lt_compat; lra). rewrite Rabs_pos_eq by lra.
    replace (1 / 10000) with ((/ norm u * / norm v) * (1 / 10000 * norm u * norm v)) by (field; auto). apply Rmult_lt_compat_l; auto. lra. }
  assert (G : forall w, cross d1 w = cross d1 d2 -> norm w <= 2 * (GEOM_ATOL + RTOL) -> False).
  { intros w E L. pose proof (cross_norm_le d1 w) as C. rewrite E, (unit_norm _ Uu) in C. unfold GEOM_ATOL, RTOL in L. lra. }
  apply orb_false_iff. split.
  - destruct (allclose d2 d1 RTOL GEOM_ATOL) eqn:E; auto. exfalso. apply allclose_dist in E; try (unfold RTOL, GEOM_ATOL; lra). rewrite (unit_norm _ Uu), Rmult_1_r in E.
    apply (G (vsub d2 d1) ltac:(clear; generalize d1 d2; intros x y; dvec x; dvec y; vunf; f_equal; ring) E).
  - destruct (allclose d2 (vopp d1) RTOL GEOM_ATOL) eqn:E; auto. exfalso. apply allclose_dist in E; try (unfold RTOL, GEOM_ATOL; lra).
    rewrite norm_vopp, (unit_norm _ Uu), Rmult_1_r in E.
    apply (G (vsub d2 (vopp d1)) ltac:(clear; generalize d1 d2; intros x y; dvec x; dvec y; vunf; f_equal; ring) E).
Qed.

Lemma same_side_total p1 p2 pt pr atol : atol <= norm (cross (vsub p2 p1) (vsub pr p1)) -> exists b, is_point_on_same_side p1 p2 pt pr atol = Ok b.
Proof. intros L. unfold is_point_on_same_side. rewrite (proj2 (Rltb_false _ _)) by auto. destruct (Rltb _ _); eauto. Qed.
Lemma same_side_sound p1 p2 pt pr : is_point_on_same_side p1 p2 pt pr GEOM_ATOL = Ok true ->
  0 < dot (cross (vsub p2 p1) (vsub pt p1)) (cross (vsub p2 p1) (vsub pr p1)).
Proof.
  unfold is_point_on_same_side. cbv zeta. set (t := cross (vsub p2 p1) (vsub pt p1)). set (r := cross (vsub p2 p1) (vsub pr p1)). destruct (Rltb (norm r) GEOM_ATOL) eqn:E1; [discriminate|]. destruct (Rltb (norm t) GEOM_ATOL) eqn:E2; [discriminate|]. rbool.
  intros H. apply Ok_inj in H. unfold GEOM_ATOL in E1, E2. assert (Nr : norm r <> 0) by lra. assert (Nt : norm t <> 0) by lra.
  pose proof (allclose_unit_dot (vdiv t (norm t)) (vdiv r (norm r)) RTOL GEOM_ATOL ltac:(unfold RTOL; lra) ltac:(unfold GEOM_ATOL; lra) (unit_vdiv t Nt) ltac:(rewrite (unit_norm _ (unit_vdiv r Nr)); lra) H) as D.
  rewrite !vdiv_smul, dot_smul_l, dot_smul_r in D. assert (0 < / norm t) by (apply Rinv_0_lt_compat; lra). assert (0 < / norm r) by (apply Rinv_0_lt_compat; lra).
  destruct (Rlt_le_dec 0 (dot t r)); auto. exfalso. assert (/ norm r * dot t r <= 0) by nra. nra.
Qed.
Lemma same_side_pos p1 p2 pt pr k : 0 < k -> cross (vsub p2 p1) (vsub pt p1) = smul k (cross (vsub p2 p1) (vsub pr p1)) ->
  GEOM_ATOL <= norm (cross (vsub p2 p1) (vsub pr p1)) -> GEOM_ATOL <= norm (cross (vsub p2 p1) (vsub pt p1)) -> is_point_on_same_side p1 p2 pt pr GEOM_ATOL = Ok true.
Proof.
  intros K E L1 L2. unfold is_point_on_same_side. set (r := cross (vsub p2 p1) (vsub pr p1)) in *. rewrite (proj2 (Rltb_false _ _)) by auto. rewrite (proj2 (Rltb_false _ _)) by auto. f_equal.
  rewrite E, norm_smul, Rabs_pos_eq by lra. unfold GEOM_ATOL in L1. replace (vdiv (smul k r) (k * norm r)) with (vdiv r (norm r)).
  - apply allclose_refl; unfold RTOL, GEOM_ATOL; lra.
  - rewrite !vdiv_smul. assert (M : norm r <> 0) by lra. revert M. generalize (norm r). intros m M. clear - K M. dvec r. vunf. f_equal; field; lra.
Qed.

Lemma uvw_identity u v w : smul (dot (cross u v) (cross u v)) w = vadd (vadd (smul (dot (cross w v) (cross u v)) u) (smul (dot (cross u w) (cross u v)) v)) (smul (dot (cross u v) w) (cross u v)).
Proof. dvec u; dvec v; dvec w. vunf. f_equal; ring. Qed.
Lemma N2 p1 p2 p3 : cross (vsub p3 p2) (vsub p1 p2) = (cross (vsub p2 p1) (vsub p3 p1)). Proof. dvec p1; dvec p2; dvec p3; vunf; f_equal; ring. Qed.
Lemma N3 p1 p2 p3 : cross (vsub p1 p3) (vsub p2 p3) = (cross (vsub p2 p1) (vsub p3 p1)). Proof. dvec p1; dvec p2; dvec p3; vunf; f_equal; ring. Qed.
Lemma bary_identity p1 p2 p3 q : smul (dot (cross (vsub p2 p1) (vsub p3 p1)) (cross (vsub p2 p1) (vsub p3 p1))) q = vadd (bary p1 p2 p3 (dot (cross (vsub p3 p2) (vsub q p2)) (cross (vsub p2 p1) (vsub p3 p1))) (dot (cross (vsub p1 p3) (vsub q p3)) (cross (vsub p2 p1) (vsub p3 p1))) (dot (cross (vsub p2 p1) (vsub q p1)) (cross (vsub p2 p1) (vsub p3 p1)))) (smul (dot (cross (vsub p2 p1) (vsub p3 p1)) (vsub q p1)) (cross (vsub p2 p1) (vsub p3 p1))).
Proof.
  set (u := vsub p2 p1). set (v := vsub p3 p1). set (w := vsub q p1).
  assert (E2 : (cross (vsub p3 p2) (vsub q p2)) = vsub (vsub (cross u v) (cross u w)) (cross w v)) by (unfold u, v, w; clear; dvec p1; dvec p2; dvec p3; dvec q; vunf; f_equal; ring).
  assert (E3 : (cross (vsub p1 p3) (vsub q p3)) = cross w v) by (unfold v, w; clear; dvec p1; dvec p3; dvec q; vunf; f_equal; ring).
  rewrite E2, E3. pose proof (uvw_identity u v w) as I. set (n := cross u v) in *.
  replace (dot (vsub (vsub n (cross u w)) (cross w v)) n) with (dot n n - dot (cross u w) n - dot (cross w v) n) by (clear; generalize (cross u w), (cross w v); intros x y; dvec n; dvec x; dvec y; vunf; ring).
  set (a := dot (cross u w) n) in *. set (b := dot (cross w v) n) in *. set (c := dot n w) in *. set (k := dot n n) in *.
  replace q with (vadd p1 w) by (unfold w; clear; dvec p1; dvec q; vunf; f_equal; ring).
  replace p2 with (vadd p1 u) by (unfold u; clear; dvec p1; dvec p2; vunf; f_equal; ring).
  replace p3 with (vadd p1 v) by (unfold v; clear; dvec p1; dvec p3; vunf; f_equal; ring).
  transitivity (vadd (smul k p1) (smul k w)); [clearbody k w; clear; dvec p1; dvec w; vunf; f_equal; ring|]. rewrite I. clearbody a b c k n u v w. clear. unfold bary. dvec p1; dvec u; dvec v; dvec n. vunf. f_equal; ring.
Qed.
Lemma bary_sum p1 p2 p3 q : dot (cross (vsub p3 p2) (vsub q p2)) (cross (vsub p2 p1) (vsub p3 p1)) + dot (cross (vsub p1 p3) (vsub q p3)) (cross (vsub p2 p1) (vsub p3 p1)) + dot (cross (vsub p2 p1) (vsub q p1)) (cross (vsub p2 p1) (vsub p3 p1)) = dot (cross (vsub p2 p1) (vsub p3 p1)) (cross (vsub p2 p1) (vsub p3 p1)).
Proof.
  set (n := cross (vsub p2 p1) (vsub p3 p1)). set (a := cross (vsub p3 p2) (vsub q p2)). set (b := cross (vsub p1 p3) (vsub q p3)). set (c := cross (vsub p2 p1) (vsub q p1)).
  assert (E : n = vadd (vadd a b) c) by (unfold n, a, b, c; clear; dvec p1; dvec p2; dvec p3; dvec q; vunf; f_equal; ring).
  transitivity (dot (vadd (vadd a b) c) n); [|rewrite <- E; reflexivity]. clearbody n a b c. clear. dvec n; dvec a; dvec b; dvec c. vunf. ring.
Qed.
Lemma inside_signs p1 p2 p3 q : in_plane_of p1 p2 p3 q -> 0 < dot (cross (vsub p2 p1) (vsub q p1)) (cross (vsub p2 p1) (vsub p3 p1)) -> 0 < dot (cross (vsub p3 p2) (vsub q p2)) (cross (vsub p2 p1) (vsub p3 p1)) -> 0 < dot (cross (vsub p1 p3) (vsub q p3)) (cross (vsub p2 p1) (vsub p3 p1)) -> strictly_inside p1 p2 p3 q.
Proof.
  intros P A B C. pose proof (bary_sum p1 p2 p3 q) as S. pose proof (bary_identity p1 p2 p3 q) as I. assert (D : 0 < dot (cross (vsub p2 p1) (vsub p3 p1)) (cross (vsub p2 p1) (vsub p3 p1))) by lra.
  exists (dot (cross (vsub p3 p2) (vsub q p2)) (cross (vsub p2 p1) (vsub p3 p1)) / dot (cross (vsub p2 p1) (vsub p3 p1)) (cross (vsub p2 p1) (vsub p3 p1))), (dot (cross (vsub p1 p3) (vsub q p3)) (cross (vsub p2 p1) (vsub p3 p1)) / dot (cross (vsub p2 p1) (vsub p3 p1)) (cross (vsub p2 p1) (vsub p3 p1))), (dot (cross (vsub p2 p1) (vsub q p1)) (cross (vsub p2 p1) (vsub p3 p1)) / dot (cross (vsub p2 p1) (vsub p3 p1)) (cross (vsub p2 p1) (vsub p3 p1))). repeat split; try (apply Rdiv_lt_0_compat; auto; fail).
  - rewrite <- S. field. lra.
  - unfold in_plane_of in P. rewrite P in I. set (n := dot (cross (vsub p2 p1) (vsub p3 p1)) (cross (vsub p2 p1) (vsub p3 p1))) in *. set (a := dot (cross (vsub p3 p2) (vsub q p2)) (cross (vsub p2 p1) (vsub p3 p1))) in *. set (b := dot (cross (vsub p1 p3) (vsub q p3)) (cross (vsub p2 p1) (vsub p3 p1))) in *. set (c := dot (cross (vsub p2 p1) (vsub q p1)) (cross (vsub p2 p1) (vsub p3 p1))) in *. set (nn := (cross (vsub p2 p1) (vsub p3 p1))) in *.
    transitivity (smul (/ n) (smul n q)); [clear - D; dvec q; vunf; f_equal; field; lra|]. rewrite I. clearbody a b c n nn. clear - D. unfold bary. dvec p1; dvec p2; dvec p3; dvec nn. vunf. f_equal; field; lra.
Qed.
Lemma inside_crosses p1 p2 p3 q a b c : a + b + c = 1 -> q = bary p1 p2 p3 a b c -> (cross (vsub p2 p1) (vsub q p1)) = smul c (cross (vsub p2 p1) (vsub p3 p1)) /\ (cross (vsub p3 p2) (vsub q p2)) = smul a (cross (vsub p2 p1) (vsub p3 p1)) /\ (cross (vsub p1 p3) (vsub q p3)) = smul b (cross (vsub p2 p1) (vsub p3 p1)).
Proof.
  intros S E. rewrite E. replace a with (1 - b - c) by lra. clear. unfold bary. dvec p1; dvec p2; dvec p3. vunf. repeat split; f_equal; ring.
Qed.

Lemma inside_in_plane p1 p2 p3 q : strictly_inside p1 p2 p3 q -> in_plane_of p1 p2 p3 q.
Proof. intros (a & b & c & _ & _ & _ & S & ->). unfold in_plane_of. replace a with (1 - b - c) by lra. clear. unfold bary. dvec p1; dvec p2; dvec p3. vunf. ring. Qed.

Lemma inside_bbox_of p1 p2 p3 q : strictly_inside p1 p2 p3 q -> is_point_inside_bbox q [p1; p2; p3] (1 / 100) = Ok true.
Proof.
  intros (a & b & c & A & B & C & S & E). destruct (inside_bbox_spec q [p1; p2; p3] (1 / 100) ltac:(discriminate)) as (r & -> & H). f_equal. apply H.
  intros f I. assert (X : f q = a * f p1 + b * f p2 + c * f p3). { subst q. unfold bary. destruct I as [<-|[<-|[<-|[]]]]; cbn; ring. }
  assert (Y : (f p1 <= f q \/ f p2 <= f q \/ f p3 <= f q) /\ (f q <= f p1 \/ f q <= f p2 \/ f q <= f p3)).
  { split.
    - destruct (Rle_lt_dec (f p1) (f q)); auto. destruct (Rle_lt_dec (f p2) (f q)); auto. destruct (Rle_lt_dec (f p3) (f q)); auto. exfalso.
      assert (a * f q < a * f p1) by (apply Rmult_lt_compat_l; auto). assert (b * f q < b * f p2) by (apply Rmult_lt_compat_l; auto). assert (c * f q < c * f p3) by (apply Rmult_lt_compat_l; auto).
      assert (f q = a * f q + b * f q + c * f q) by (rewrite <- !Rmult_plus_distr_r, S; ring). lra.
    - destruct (Rle_lt_dec (f q) (f p1)); auto. destruct (Rle_lt_dec (f q) (f p2)); auto. destruct (Rle_lt_dec (f q) (f p3)); auto. exfalso.
      assert (a * f p1 < a * f q) by (apply Rmult_lt_compat_l; auto). assert (b * f p2 < b * f q) by (apply Rmult_lt_compat_l; auto). assert (c * f p3 < c * f q) by (apply Rmult_lt_compat_l; auto).
      assert (f q = a * f q + b * f q + c * f q) by (rewrite <- !Rmult_plus_distr_r, S; ring). lra. }
  destruct Y as (Y1 & Y2). split.
  - destruct Y1 as [Y|[Y|Y]]; [exists p1|exists p2|exists p3]; simpl; split; auto; lra.
  - destruct Y2 as [Y|[Y|Y]]; [exists p1|exists p2|exists p3]; simpl; split; auto; lra.
Qed.

Lemma inside_vertex p1 p2 p3 v : In v [p1; p2; p3] -> is_point_inside_triangle v p1 p2 p3 GEOM_ATOL = Ok true.
Proof.
  intros I. unfold is_point_inside_triangle. destruct (inside_bbox_spec v [p1; p2; p3] (1 / 100) ltac:(discriminate)) as (r & -> & H). cbn [rbind].
  assert (R : r = true). { apply H. intros c _. split; exists v; split; auto; lra. }
  rewrite R. cbn [negb]. assert (A : allclose v v RTOL GEOM_ATOL = true) by (apply allclose_refl; unfold RTOL, GEOM_ATOL; lra).
  destruct I as [<-|[<-|[<-|[]]]]; rewrite A, ?orb_true_r; reflexivity.
Qed.
Lemma inside_out_of_box p1 p2 p3 q c : In c [vx; vy; vz] -> (forall v, In v [p1; p2; p3] -> c v + 1 / 100 < c q) \/ (forall v, In v [p1; p2; p3] -> c q < c v - 1 / 100) ->
  is_point_inside_triangle q p1 p2 p3 GEOM_ATOL = Ok false.
Proof.
  intros I O. unfold is_point_inside_triangle. destruct (inside_bbox_spec q [p1; p2; p3] (1 / 100) ltac:(discriminate)) as (r & -> & H). cbn [rbind].
  assert (R : r = false). { destruct r; auto. exfalso. destruct (proj1 H eq_refl c I) as ((v & V1 & V2) & (w & W1 & W2)). destruct O as [O|O]; [specialize (O w W1)|specialize (O v V1)]; lra. }
  rewrite R. reflexivity.
Qed.
Lemma edge_verdict_total q l : exists v, edge_verdict q GEOM_ATOL l = Ok v.
Proof. induction l as [|(a, b) l (v & IH)]; simpl; eauto. destruct (_ && _); eauto. Qed.
Lemma inside_total p1 p2 p3 q : GEOM_ATOL <= 2 * true_area p1 p2 p3 -> exists b, is_point_inside_triangle q p1 p2 p3 GEOM_ATOL = Ok b.
Proof.
  unfold true_area. intros L. unfold is_point_inside_triangle. destruct (inside_bbox_spec q [p1; p2; p3] (1 / 100) ltac:(discriminate)) as (r & -> & _). cbn [rbind].
  destruct r; cbn [negb]; eauto. destruct (_ || _); eauto. destruct (edge_verdict_total q [(p1, p2); (p2, p3); (p3, p1)]) as (v & ->). cbn [rbind]. destruct v; eauto.
  destruct (same_side_total p1 p2 q p3 GEOM_ATOL) as (b1 & ->); [lra|]. destruct (same_side_total p2 p3 q p1 GEOM_ATOL) as (b2 & ->); [rewrite (N2 p1 p2 p3); lra|].
  destruct (same_side_total p3 p1 q p2 GEOM_ATOL) as (b3 & ->); [rewrite (N3 p1 p2 p3); lra|]. cbn [rbind]. eauto.
Qed.
Lemma convex_inside_total p1 p2 p3 vn q : is_corner_convex p1 p2 p3 vn GEOM_ATOL = Ok true -> exists b, is_point_inside_triangle q p1 p2 p3 GEOM_ATOL = Ok b.
Proof.
  intros H. apply inside_total. apply corner_convex_sound in H. destruct H as (H & _). unfold true_area.
  replace (cross (vsub p2 p1) (vsub p3 p1)) with (cross (vsub p2 p1) (vsub p3 p2)) by (dvec p1; dvec p2; dvec p3; vunf; f_equal; ring). lra.
Qed.
Lemma off_edges_verdict p1 p2 p3 q : off_edges p1 p2 p3 q -> edge_verdict q GEOM_ATOL [(p1, p2); (p2, p3); (p3, p1)] = Ok None.
Proof. intros (A & B & C). apply off_edge_not_collinear in A, B, C. cbn [edge_verdict]. rewrite A. cbn [rbind]. rewrite B. cbn [rbind]. rewrite C. reflexivity. Qed.
Lemma inside_complete p1 p2 p3 q : GEOM_ATOL <= 2 * true_area p1 p2 p3 -> off_edges p1 p2 p3 q -> strictly_inside p1 p2 p3 q -> is_point_inside_triangle q p1 p2 p3 GEOM_ATOL = Ok true.
Proof.
  intros L O I. unfold is_point_inside_triangle. rewrite (inside_bbox_of _ _ _ _ I). cbn [rbind negb]. destruct (_ || _); auto.
  rewrite (off_edges_verdict _ _ _ _ O). cbn [rbind]. destruct I as (a & b & c & A & B & C & S & E). destruct (inside_crosses p1 p2 p3 q a b c S E) as (T1 & T2 & T3).
  destruct O as ((_ & _ & _ & O1) & (_ & _ & _ & O2) & (_ & _ & _ & O3)). unfold true_area in *. fold GEOM_ATOL in *.
  rewrite (same_side_pos p1 p2 q p3 c) by (auto; unfold GEOM_ATOL in *; lra). rewrite (same_side_pos p2 p3 q p1 a) by (auto; rewrite ?(N2 p1 p2 p3); auto; unfold GEOM_ATOL in *; lra). rewrite (same_side_pos p3 p1 q p2 b) by (auto; rewrite ?(N3 p1 p2 p3); auto; unfold GEOM_ATOL in *; lra). reflexivity.
Qed.
Lemma inside_sound p1 p2 p3 q : in_plane_of p1 p2 p3 q -> off_edges p1 p2 p3 q -> far_from p1 q -> far_from p2 q -> far_from p3 q ->
  is_point_inside_triangle q p1 p2 p3 GEOM_ATOL = Ok true -> strictly_inside p1 p2 p3 q.
Proof.
  intros P O F1 F2 F3. unfold is_point_inside_triangle. destruct (is_point_inside_bbox _ _ _) as [[|]|]; cbn [rbind negb]; try discriminate.
  rewrite (far_not_close _ _ F1), (far_not_close _ _ F2), (far_not_close _ _ F3). cbn [orb]. rewrite (off_edges_verdict _ _ _ _ O). cbn [rbind].
  destruct (is_point_on_same_side p1 p2 q p3 GEOM_ATOL) as [s1|] eqn:E1; [|discriminate]. destruct (is_point_on_same_side p2 p3 q p1 GEOM_ATOL) as [s2|] eqn:E2; [|discriminate].
  destruct (is_point_on_same_side p3 p1 q p2 GEOM_ATOL) as [s3|] eqn:E3; [|discriminate]. cbn [rbind]. intros H. apply Ok_inj in H. rewrite !andb_true_iff in H. destruct H as ((-> & ->) & ->).
  apply same_side_sound in E1, E2, E3. rewrite (N2 p1 p2 p3) in E2. rewrite (N3 p1 p2 p3) in E3. apply inside_signs; auto.
Qed.
