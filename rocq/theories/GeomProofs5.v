(** Points accepted or rejected wrongly, centroids, planes. *)
From Coq Require Import Reals ZArith List Bool Arith Lia Lra Psatz.
From Verif Require Import Prelude VecModel VecProofs VoxModel VoxProofs MeshModel GeomModel GeomSpec GeomProofs1 GeomProofs2 GeomProofs3 GeomProofs4.
Import ListNotations.
Local Open Scope R_scope.

Lemma norm_ge u v k : 0 <= k -> k * k * dot u u <= dot v v -> k * norm u <= norm v.
Proof.
  intros K H. unfold norm. rewrite <- (sqrt_Rsqr k K), <- sqrt_mult by (try apply dot_pos; apply Rle_0_sqr). apply sqrt_le_1_alt. unfold Rsqr. auto.
Qed.
Lemma norm_le u v k : 0 <= k -> dot v v <= k * k * dot u u -> norm v <= k * norm u.
Proof.
  intros K H. unfold norm. rewrite <- (sqrt_Rsqr k K), <- sqrt_mult by (try apply dot_pos; apply Rle_0_sqr). apply sqrt_le_1_alt. unfold Rsqr. auto.
Qed.
Lemma rint_int z : rint (IZR z) = z.
Proof.
  unfold rint. assert (F : floor (IZR z) = z). { apply floor_unique; lra. }
  rewrite F. rewrite (proj2 (Rltb_true _ _)) by lra. auto.
Qed.
Lemma round8_int z x : x = IZR z / 100000000 -> round8 x = x.
Proof. intros ->. unfold round8. replace (IZR z / 100000000 * 100000000) with (IZR z) by field. rewrite rint_int. auto. Qed.

(** A minute tetrahedron is taken for a planar figure. *)
Definition speck : list vec := [V 0 0 0; V (1 / 100000) 0 0; V 0 (1 / 100000) 0; V 0 0 (1 / 100000)].
Lemma speck_accepted : are_points_coplanar speck GEOM_ATOL = Ok true.
Proof.
  assert (T : forall a b c, dot (cross (vsub b a) (vsub c a)) (cross (vsub b a) (vsub c a)) <= 1 / 10000000000000000 -> normal a b c = None).
  { intros a b c H. apply normal_none. unfold norm. rewrite <- (sqrt_Rsqr (1 / 100000000)) by lra. apply sqrt_le_1_alt. unfold Rsqr. lra. }
  unfold speck, are_points_coplanar. cbn [are_points_collinear rbind]. destruct (chain_close _ _); auto. cbn [first_normal].
  rewrite T by (unfold vsub, cross, dot; cbn [vx vy vz]; lra). rewrite T by (unfold vsub, cross, dot; cbn [vx vy vz]; lra). auto.
Qed.
Lemma speck_not_planar n c : unit n -> (forall p, In p speck -> Rabs (dot n p - c) < GEOM_ATOL) -> False.
Proof.
  intros U H. unfold speck in H. pose proof (H (V 0 0 0) ltac:(simpl; auto)) as H0. pose proof (H (V (1 / 100000) 0 0) ltac:(simpl; auto)) as H1.
  pose proof (H (V 0 (1 / 100000) 0) ltac:(simpl; auto)) as H2. pose proof (H (V 0 0 (1 / 100000)) ltac:(simpl; auto)) as H3. clear H.
  dvec n. unfold unit, dot, GEOM_ATOL in *. cbn [vx vy vz] in *. apply Rabs_def2 in H0, H1, H2, H3.
  match type of U with ?x * ?x + ?y * ?y + ?z * ?z = 1 =>
    assert (X : - (1 / 10) <= x <= 1 / 10) by lra; assert (Y : - (1 / 10) <= y <= 1 / 10) by lra; assert (Z : - (1 / 10) <= z <= 1 / 10) by lra end. nra.
Qed.

(** Directions from the first point that agree to the relative tolerance. *)
Lemma dirs_close a b q : EPSILON < norm (vsub b a) -> EPSILON < norm (vsub q a) ->
  (forall c, In c [vx; vy; vz] -> Rabs (c (vsub q a) * norm (vsub b a) - c (vsub b a) * norm (vsub q a)) <= RTOL * Rabs (c (vsub b a)) * norm (vsub q a)) ->
  are_points_collinear [a; b; q] GEOM_ATOL = Ok true.
Proof.
  intros L1 L2 H. cbn [are_points_collinear map chain_close]. f_equal. rewrite andb_true_r. apply orb_true_iff. left. unfold dir_from. rewrite !(proj2 (Rltb_true _ _)) by auto.
  set (u := vsub b a) in *. set (v := vsub q a) in *. unfold EPSILON in L1, L2. unfold allclose.
  assert (G : forall c, In c [vx; vy; vz] -> isclose (c v / norm v) (c u / norm u) RTOL GEOM_ATOL = true).
  { intros c I. specialize (H c I). unfold isclose. apply Rleb_true. assert (P : 0 < norm u * norm v) by (apply Rmult_lt_0_compat; lra).
    apply Rmult_le_reg_l with (norm u * norm v); auto. rewrite <- (Rabs_pos_eq (norm u * norm v)) at 1 by lra. rewrite <- Rabs_mult.
    replace (norm u * norm v * (c v / norm v - c u / norm u)) with (c v * norm u - c u * norm v) by (field; lra). apply Rle_trans with (1 := H).
    unfold Rdiv at 1. rewrite Rabs_mult, (Rabs_pos_eq (/ norm u)) by (left; apply Rinv_0_lt_compat; lra).
    replace (norm u * norm v * (GEOM_ATOL + RTOL * (Rabs (c u) * / norm u))) with (norm u * norm v * GEOM_ATOL + RTOL * Rabs (c u) * norm v) by (field; lra).
    assert (0 <= norm u * norm v * GEOM_ATOL) by (apply Rmult_le_pos; unfold GEOM_ATOL; lra). lra. }
  unfold vdiv. cbn [vx vy vz]. rewrite (G vx), (G vy), (G vz) by (simpl; auto). auto.
Qed.

Definition tri_a : vec := V (-1) (-1) 0.
Definition tri_b : vec := V 0 0 0.
Definition tri_c : vec := V (-1) 1 0.
Definition pt_in : vec := V (- (1 / 1000000)) (1 / 2000000) 0.
Definition pt_out : vec := V (- (1 / 2)) (- (1 / 2) - 1 / 1000000) 0.

Lemma pt_in_inside : strictly_inside tri_a tri_b tri_c pt_in.
Proof.
  exists (1 / 4000000), (1 - 1 / 1000000), (3 / 4000000). repeat split; try lra. unfold bary, tri_a, tri_b, tri_c, pt_in, smul, vadd. cbn [vx vy vz]. f_equal; lra.
Qed.
Lemma vsub_ex a b c x y z : vsub (V a b c) (V x y z) = V (a - x) (b - y) (c - z).
Proof. reflexivity. Qed.
Lemma not_close_at c q v : In c [vx; vy; vz] -> GEOM_ATOL + RTOL * Rabs (c v) < Rabs (c q - c v) -> allclose q v RTOL GEOM_ATOL = false.
Proof.
  intros I L. destruct (allclose q v RTOL GEOM_ATOL) eqn:E; auto. unfold allclose, isclose in E. rewrite !andb_true_iff in E. destruct E as ((E1 & E2) & E3). rbool.
  destruct I as [<-|[<-|[<-|[]]]]; lra.
Qed.
Lemma pt_in_rejected : is_point_inside_triangle pt_in tri_a tri_b tri_c GEOM_ATOL = Ok false.
Proof.
  unfold is_point_inside_triangle. rewrite (inside_bbox_of _ _ _ _ pt_in_inside). cbn [rbind negb].
  assert (Ab : forall x, x < 0 -> Rabs x = - x) by (intros; apply Rabs_left; auto).
  rewrite (not_close_at vx pt_in tri_a) by (simpl; auto; unfold pt_in, tri_a, GEOM_ATOL, RTOL; cbn [vx]; rewrite (Ab (-1)) by lra; rewrite Rabs_pos_eq; lra).
  rewrite (not_close_at vx pt_in tri_b) by (simpl; auto; unfold pt_in, tri_b, GEOM_ATOL, RTOL; cbn [vx]; rewrite Rabs_R0; rewrite Ab; lra).
  rewrite (not_close_at vx pt_in tri_c) by (simpl; auto; unfold pt_in, tri_c, GEOM_ATOL, RTOL; cbn [vx]; rewrite (Ab (-1)) by lra; rewrite Rabs_pos_eq; lra).
  cbn [orb edge_verdict].
  assert (C : are_points_collinear [tri_a; tri_b; pt_in] GEOM_ATOL = Ok true).
  { unfold tri_a, tri_b, pt_in.
    set (u := vsub (V 0 0 0) (V (-1) (-1) 0)). set (v := vsub (V (- (1 / 1000000)) (1 / 2000000) 0) (V (-1) (-1) 0)).
    assert (U : 1 <= norm u). { pose proof (norm_ge (V 1 0 0) u 1 ltac:(lra) ltac:(unfold u, dot, vsub; cbn [vx vy vz]; lra)) as G. replace (norm (V 1 0 0)) with 1 in G; [lra|]. symmetry. apply unit_norm. unfold unit, dot; cbn [vx vy vz]; lra. }
    pose proof (norm_ge u v (1 - 1 / 1000000) ltac:(lra) ltac:(unfold u, v, dot, vsub; cbn [vx vy vz]; lra)) as L. pose proof (norm_le u v 1 ltac:(lra) ltac:(unfold u, v, dot, vsub; cbn [vx vy vz]; lra)) as L'.
    assert (E : u = V 1 1 0) by (unfold u; rewrite vsub_ex; f_equal; lra). assert (E' : v = V (1 - 1 / 1000000) (1 + 1 / 2000000) 0) by (unfold v; rewrite vsub_ex; f_equal; lra).
    apply dirs_close; fold u v; unfold EPSILON; try lra. intros c I. set (nu := norm u) in *. set (nv := norm v) in *. clearbody nu nv. rewrite E, E'. unfold RTOL.
    destruct I as [<-|[<-|[<-|[]]]]; cbn [vx vy vz]; rewrite ?Rabs_R1, ?Rabs_R0; try (apply Rabs_le; lra). }
  rewrite C. cbn [rbind]. f_equal. unfold within_edge_box. apply negb_false_iff. apply orb_true_iff. left. apply orb_true_iff. right. apply orb_true_iff. left.
  unfold tri_a, tri_b, pt_in. cbn [vx vy vz]. rewrite (round8_int 50 (1 / 2000000)) by lra. rewrite (round8_int (-100000000) (-1)) by lra. rewrite (round8_int 0 0) by lra. apply Rltb_true. rewrite (Rmax_right (-1) 0) by lra. unfold GEOM_ATOL. lra.
Qed.
Lemma pt_out_outside a b c : 0 <= a -> 0 <= b -> 0 <= c -> a + b + c = 1 -> pt_out = bary tri_a tri_b tri_c a b c -> False.
Proof.
  intros A B C S E. assert (X := f_equal vx E). assert (Y := f_equal vy E). unfold pt_out, tri_a, tri_b, tri_c, bary, smul, vadd in X, Y. cbn [vx vy vz] in X, Y. lra.
Qed.
Lemma pt_out_accepted : is_point_inside_triangle pt_out tri_a tri_b tri_c GEOM_ATOL = Ok true.
Proof.
  unfold is_point_inside_triangle. destruct (inside_bbox_spec pt_out [tri_a; tri_b; tri_c] (1 / 100) ltac:(discriminate)) as (r & -> & H). cbn [rbind].
  assert (R : r = true). { apply H. intros c I. destruct I as [<-|[<-|[<-|[]]]]; (split; [exists tri_a|exists tri_b]; split; simpl; auto; lra). }
  rewrite R. cbn [negb]. destruct (_ || _); auto. cbn [edge_verdict].
  assert (C : are_points_collinear [tri_a; tri_b; pt_out] GEOM_ATOL = Ok true).
  { unfold tri_a, tri_b, pt_out.
    set (u := vsub (V 0 0 0) (V (-1) (-1) 0)). set (v := vsub (V (- (1 / 2)) (- (1 / 2) - 1 / 1000000) 0) (V (-1) (-1) 0)).
    assert (U : 1 <= norm u). { pose proof (norm_ge (V 1 0 0) u 1 ltac:(lra) ltac:(unfold u, dot, vsub; cbn [vx vy vz]; lra)) as G. replace (norm (V 1 0 0)) with 1 in G; [lra|]. symmetry. apply unit_norm. unfold unit, dot; cbn [vx vy vz]; lra. }
    pose proof (norm_ge u v (1 / 2 - 1 / 1000000) ltac:(lra) ltac:(unfold u, v, dot, vsub; cbn [vx vy vz]; lra)) as L. pose proof (norm_le u v (1 / 2) ltac:(lra) ltac:(unfold u, v, dot, vsub; cbn [vx vy vz]; lra)) as L'.
    assert (E : u = V 1 1 0) by (unfold u; rewrite vsub_ex; f_equal; lra). assert (E' : v = V (1 / 2) (1 / 2 - 1 / 1000000) 0) by (unfold v; rewrite vsub_ex; f_equal; lra).
    apply dirs_close; fold u v; unfold EPSILON; try lra. intros c I. set (nu := norm u) in *. set (nv := norm v) in *. clearbody nu nv. rewrite E, E'. unfold RTOL.
    destruct I as [<-|[<-|[<-|[]]]]; cbn [vx vy vz]; rewrite ?Rabs_R1, ?Rabs_R0; try (apply Rabs_le; lra). }
  rewrite C. cbn [rbind]. f_equal. unfold within_edge_box. apply negb_true_iff. unfold tri_a, tri_b, pt_out. cbn [vx vy vz].
  rewrite (round8_int (-50000000) (- (1 / 2))) by lra. rewrite (round8_int (-50000100) (- (1 / 2) - 1 / 1000000)) by lra. rewrite (round8_int (-100000000) (-1)) by lra. rewrite (round8_int 0 0) by lra.
  rewrite (Rmax_right (-1) 0), (Rmin_left (-1) 0), (Rmax_right 0 0), (Rmin_left 0 0) by lra. unfold GEOM_ATOL. rewrite !orb_false_iff. repeat split; apply Rltb_false; lra.
Qed.

(** Centroids. *)
Lemma tri_pts_spec pts t q : tri_pts pts t = Ok q <-> tri_verts pts t q.
Proof.
  unfold tri_pts, tri_verts. destruct t as ((i, j), k), q as ((a, b), c). destruct (nth_error pts i), (nth_error pts j), (nth_error pts k); split; intros H; try discriminate; try (destruct H as (A & B & C); congruence).
  inversion H; auto.
Qed.
Lemma mapM_Forall2 {A B} (f : A -> result B) l r : mapM f l = Ok r <-> Forall2 (fun a b => f a = Ok b) l r.
Proof.
  revert r. induction l as [|a l IH]; intros r; cbn [mapM].
  - split; [intros H; inversion H; constructor|intros H; inversion H; auto].
  - split.
    + destruct (f a) as [b|] eqn:E; [|discriminate]. cbn [rbind]. destruct (mapM f l) as [bs|] eqn:E2; [|discriminate]. cbn [rbind]. intros H; inversion H; subst. constructor; auto. apply IH; auto.
    + intros H; inversion H; subst. rewrite H2. cbn [rbind]. apply IH in H4. rewrite H4. auto.
Qed.
Definition wsum (ts : list (vec * vec * vec)) : vec :=
  fold_right (fun t acc => let '(a, b, c) := t in vadd (smul (triangle_area a b c) (triangle_centroid a b c)) acc) vzero ts.
Definition asum (ts : list (vec * vec * vec)) : R := fold_right (fun t acc => let '(a, b, c) := t in triangle_area a b c + acc) 0 ts.
Lemma fold_vadd {A} (f : A -> vec) l acc : fold_left (fun s x => vadd s (f x)) l acc = vadd acc (fold_right (fun x s => vadd (f x) s) vzero l).
Proof.
  revert acc. induction l as [|a l IH]; intros acc; cbn [fold_left fold_right]; [dvec acc; unfold vzero; vunf; f_equal; ring|].
  rewrite IH. generalize (fold_right (fun x s => vadd (f x) s) vzero l). intros w. generalize (f a). intros y. dvec acc; dvec y; dvec w; vunf; f_equal; ring.
Qed.
Lemma centroid_eq pts tris ts : tris <> [] -> Forall2 (tri_verts pts) tris ts -> polygon_centroid pts tris = Ok (wsum ts).
Proof.
  intros N F. unfold polygon_centroid. destruct tris as [|t tris]; [congruence|]. set (l := t :: tris) in *.
  assert (M : mapM (fun t => do q <- tri_pts pts t; let '(a, b, c) := q in Ok (triangle_centroid a b c, triangle_area a b c)) l = Ok (map (fun q => let '(a, b, c) := q in (triangle_centroid a b c, triangle_area a b c)) ts)).
  { apply mapM_Forall2. clear N. clearbody l. induction F; cbn [map]; constructor; auto. apply tri_pts_spec in H. rewrite H. cbn [rbind]. destruct y as ((a, b), c). auto. }
  rewrite M. cbn [rbind]. f_equal. rewrite fold_vadd. clear. unfold wsum. set (g := fold_right _ _ (map _ _)). transitivity g; [generalize g; intros w; dvec w; unfold vzero; vunf; f_equal; ring|]. unfold g. clear g.
  induction ts as [|((a, b), c) ts IH]; cbn [map fold_right fst snd]; auto. rewrite IH. auto.
Qed.
Lemma centroid_err pts tris : polygon_centroid pts [] = Err AssertionError /\ ((exists t, In t tris /\ forall q, ~ tri_verts pts t q) -> forall c, polygon_centroid pts tris <> Ok c).
Proof.
  split; auto. intros (t & I & H) c E. unfold polygon_centroid in E. destruct tris as [|t0 tris]; [contradiction|]. set (l := t0 :: tris) in *.
  destruct (mapM _ l) as [cs|] eqn:M; [|discriminate]. apply mapM_Forall2 in M. clear E. clearbody l. induction M; [contradiction|]. destruct I as [->|I]; auto.
  destruct (tri_pts pts t) as [q|] eqn:T; [|discriminate]. apply tri_pts_spec in T. apply (H q T).
Qed.
Definition shift3 (t : vec) (q : vec * vec * vec) : vec * vec * vec := let '(a, b, c) := q in (vadd a t, vadd b t, vadd c t).
Lemma wsum_shift t ts : wsum (map (shift3 t) ts) = vadd (wsum ts) (smul (asum ts) t).
Proof.
  unfold wsum, asum. induction ts as [|((a, b), c) ts IH]; cbn [map fold_right shift3]; [dvec t; unfold vzero; vunf; f_equal; ring|].
  rewrite IH, triangle_area_shift. replace (triangle_centroid (vadd a t) (vadd b t) (vadd c t)) with (vadd (triangle_centroid a b c) t) by (clear; unfold triangle_centroid, vdiv; dvec a; dvec b; dvec c; dvec t; vunf; f_equal; field).
  set (x := triangle_area a b c). set (y := triangle_centroid a b c). set (w := fold_right _ vzero ts). set (z := fold_right _ 0 ts). clearbody x y w z. clear. dvec y; dvec w; dvec t. vunf. f_equal; ring.
Qed.
Lemma verts_shift pts t tris ts : Forall2 (tri_verts pts) tris ts -> Forall2 (tri_verts (map (fun p => vadd p t) pts)) tris (map (shift3 t) ts).
Proof.
  induction 1 as [|((i, j), k) ((a, b), c) l l' H F IH]; cbn [map]; constructor; auto. unfold tri_verts, shift3 in *. destruct H as (A & B & C).
  rewrite !nth_error_map, A, B, C. auto.
Qed.
Lemma centroid_shift pts tris ts t : tris <> [] -> Forall2 (tri_verts pts) tris ts ->
  polygon_centroid (map (fun p => vadd p t) pts) tris = Ok (vadd (wsum ts) (smul (asum ts) t)).
Proof. intros N F. rewrite (centroid_eq _ _ _ N (verts_shift _ t _ _ F)), wsum_shift. auto. Qed.

Definition square2 : list vec := [V 0 0 0; V 2 0 0; V 2 2 0; V 0 2 0].
Lemma square2_centroid : exists c, polygon_centroid square2 [(0, 1, 2)%nat; (0, 2, 3)%nat] = Ok c /\ 4 <= vx c.
Proof.
  eexists. split; [apply centroid_eq with (ts := [(V 0 0 0, V 2 0 0, V 2 2 0); (V 0 0 0, V 2 2 0, V 0 2 0)]); [discriminate|repeat constructor]|].
  pose proof (triangle_area_bounds (V 0 0 0) (V 2 0 0) (V 2 2 0)) as B1. pose proof (triangle_area_bounds (V 0 0 0) (V 2 2 0) (V 0 2 0)) as B2.
  assert (T1 : true_area (V 0 0 0) (V 2 0 0) (V 2 2 0) = 2). { unfold true_area. replace (cross (vsub (V 2 0 0) (V 0 0 0)) (vsub (V 2 2 0) (V 0 0 0))) with (smul 4 (V 0 0 1)) by (vunf; f_equal; ring). rewrite norm_smul, (unit_norm (V 0 0 1)), Rabs_pos_eq by (try lra; unfold unit, dot; cbn [vx vy vz]; ring). lra. }
  assert (T2 : true_area (V 0 0 0) (V 2 2 0) (V 0 2 0) = 2). { unfold true_area. replace (cross (vsub (V 2 2 0) (V 0 0 0)) (vsub (V 0 2 0) (V 0 0 0))) with (smul 4 (V 0 0 1)) by (vunf; f_equal; ring). rewrite norm_smul, (unit_norm (V 0 0 1)), Rabs_pos_eq by (try lra; unfold unit, dot; cbn [vx vy vz]; ring). lra. }
  rewrite T1 in B1. rewrite T2 in B2. unfold wsum. cbn [fold_right]. set (x := triangle_area _ _ _) in *. set (y := triangle_area (V 0 0 0) (V 2 2 0) (V 0 2 0)) in *. clearbody x y.
  unfold triangle_centroid, vdiv, vadd, smul, vzero. cbn [vx vy vz]. lra.
Qed.

(** Planes. *)
Lemma plane_spec pts n d : plane_coefficients pts = Ok (Some (n, d)) ->
  unit n /\ exists pl p0 p1, first_three pts = Ok (pl, p0, p1) /\ dot n pl + d = 0 /\ dot n p0 + d = 0 /\ dot n p1 + d = 0 /\ 0 < dot n (cross (vsub p0 pl) (vsub p1 pl)).
Proof.
  unfold plane_coefficients. destruct (first_three pts) as [((pl, p0), p1)|] eqn:E; [|discriminate]. cbn [rbind]. destruct (normal pl p0 p1) as [m|] eqn:En; [|discriminate].
  intros H. apply Ok_inj in H. unfold option_map, projection_coefficients in H. assert (H1 : m = n) by (inversion H; auto). assert (H2 : -1 * dot m p0 = d) by (inversion H; auto). subst m d.
  pose proof En as En2. apply normal_spec in En. apply normal_some in En2. destruct En2 as (L & En2). set (w := cross (vsub p0 pl) (vsub p1 pl)) in *.
  split; [apply En|]. exists pl, p0, p1. split; auto. assert (Nw : norm w <> 0) by lra.
  assert (A : dot w (vsub p0 pl) = 0) by (unfold w; clear; dvec p0; dvec pl; dvec p1; vunf; ring). assert (B : dot w (vsub p1 pl) = 0) by (unfold w; clear; dvec p0; dvec pl; dvec p1; vunf; ring).
  assert (A' : dot n (vsub p0 pl) = 0) by (rewrite En2, vdiv_smul, dot_smul_l, A; ring). assert (B' : dot n (vsub p1 pl) = 0) by (rewrite En2, vdiv_smul, dot_smul_l, B; ring).
  assert (D : forall x y, dot n (vsub x y) = dot n x - dot n y) by (intros; unfold dot, vsub; cbn [vx vy vz]; ring). rewrite D in A', B'. repeat split; try lra.
  rewrite En2, vdiv_smul, dot_smul_l. apply Rmult_lt_0_compat; [apply Rinv_0_lt_compat; lra|]. change (0 < dot w w). rewrite <- (norm_sq w). assert (Lw : 0 < norm w) by lra. apply Rmult_lt_0_compat; exact Lw.
Qed.
Lemma first_three_err pts : first_three pts = Err IndexError <-> (length pts < 2)%nat.
Proof. destruct pts as [|a [|b r]]; simpl; split; intros; auto; try discriminate; lia. Qed.
Lemma first_three_in pts pl p0 p1 : first_three pts = Ok (pl, p0, p1) -> nth_error pts (length pts - 1) = Some pl /\ nth_error pts 0 = Some p0 /\ nth_error pts 1 = Some p1.
Proof.
  destruct pts as [|a [|b r]]; try discriminate. intros H. inversion H; subst. split; auto.
  replace (length (p0 :: p1 :: r) - 1)%nat with (length (p1 :: r)) by (simpl; lia). clear H.
  assert (G : forall (l : list vec) a d, nth_error (a :: l) (length l) = Some (last (a :: l) d)).
  { clear. induction l as [|b l IH]; intros a d; auto. cbn [length]. change (nth_error (a :: b :: l) (S (length l))) with (nth_error (b :: l) (length l)). rewrite (IH b d). reflexivity. }
  apply (G (p1 :: r) p0 p0).
Qed.
Lemma plane_all pts n d : plane_coefficients pts = Ok (Some (n, d)) -> coplanar pts -> forall p, In p pts -> dot n p + d = 0.
Proof.
  intros H (n0 & c & N & C) p I. pose proof H as H'. apply plane_spec in H. destruct H as (_ & pl & p0 & p1 & F & _ & E0 & _ & _).
  unfold plane_coefficients in H'. rewrite F in H'. cbn [rbind] in H'. destruct (normal pl p0 p1) as [m|] eqn:En; [|discriminate]. apply Ok_inj in H'. assert (H1 : m = n) by (inversion H'; auto). subst m.
  destruct (first_three_in _ _ _ _ F) as (I1 & I2 & I3). apply nth_error_In in I1, I2, I3.
  destruct (parallel_normal n0 pl p0 p1 n) as (k & K); auto; try (rewrite !C; auto; fail). rewrite K in *. rewrite dot_smul_l in *. rewrite C in * by auto. lra.
Qed.
Lemma plane_none pts : plane_coefficients pts = Ok None <-> exists pl p0 p1, first_three pts = Ok (pl, p0, p1) /\ 2 * true_area pl p0 p1 <= 1 / 100000000.
Proof.
  unfold plane_coefficients, true_area. destruct (first_three pts) as [((pl, p0), p1)|] eqn:E.
  - cbn [rbind]. destruct (normal pl p0 p1) as [m|] eqn:En; simpl; split.
    + discriminate.
    + intros (a & b & c & H & L). inversion H; subst. apply normal_some in En. destruct En. lra.
    + intros _. exists pl, p0, p1. split; auto. apply normal_none in En. lra.
    + auto.
  - split; [discriminate|intros (a & b & c & H & _); discriminate].
Qed.

Lemma wsum_spec ts : wsum ts = weighted_centroids triangle_area ts.
Proof.
  unfold wsum, weighted_centroids. induction ts as [|((a, b), c) ts IH]; cbn [fold_right]; auto. rewrite IH. f_equal. set (x := triangle_area a b c). clearbody x. clear. unfold triangle_centroid, vdiv. dvec a; dvec b; dvec c. vunf. f_equal; field.
Qed.
Lemma centroid_full pts tris ts : tris <> [] -> Forall2 (tri_verts pts) tris ts ->
  polygon_centroid pts tris = Ok (weighted_centroids triangle_area ts) /\
  forall t, polygon_centroid (map (fun p => vadd p t) pts) tris = Ok (vadd (weighted_centroids triangle_area ts) (smul (weight_sum triangle_area ts) t)).
Proof. intros N F. rewrite <- wsum_spec. split; [apply centroid_eq; auto|intros t; apply centroid_shift; auto]. Qed.
Lemma segment_sound p1 p2 q atol : 0 <= atol -> p1 <> p2 -> is_point_on_segment q p1 p2 atol = true ->
  near_point atol p1 q \/ near_point atol p2 q \/
  exists t, dist (seg_point p1 p2 t) q * dist p1 p2 <= atol * sqrt 3 /\ - (atol / (dist p1 p2 * dist p1 p2)) <= t <= 1 + atol / (dist p1 p2 * dist p1 p2).
Proof.
  intros A N H. destruct (on_segment_sound p1 p2 q atol A N H) as [C|[C|C]]; auto.
  - left. apply allclose_dist in C; [exact C|unfold RTOL; lra|exact A].
  - right. left. apply allclose_dist in C; [exact C|unfold RTOL; lra|exact A].
Qed.
Lemma edges_spec {P} (pts : list P) : pts <> [] -> exists es, polygon_edges pts = Ok es /\ length es = length pts /\
  forall i p q, nth_error pts i = Some p -> nth_error pts ((i + 1) mod length pts) = Some q -> nth_error es i = Some (p, q).
Proof. intros N. exists (cyc_pairs pts). split; [apply polygon_edges_eq; auto|]. split; [apply cyc_pairs_length|apply cyc_pairs_nth]. Qed.
Lemma ones_witness : exists pts u phi pts' m, unit u /\ rotate_points_around_vector pts u phi = Ok (pts', m) /\ pts' <> map (mapply m) pts.
Proof.
  exists [V 1 0 0], (V 0 0 1), 0, [V 1 0 0], mones. split; [unfold unit, dot; cbn [vx vy vz]; lra|]. split; [apply rotate_around_small; left; rewrite Rabs_R0; lra|].
  intros H. assert (X := f_equal (fun l => match l with p :: _ => vy p | [] => 0 end) H). unfold mones, mapply, dot in X. cbn [map vx vy vz] in X. lra.
Qed.
