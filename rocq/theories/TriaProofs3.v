(** Triangulation of a polygon: the rotations and the faces. *)
From Coq Require Import ZArith Reals List Bool Arith Lia Lra.
From Verif Require Import Prelude UtilModel TreeModel MeshModel VecModel VecProofs VoxModel GeomModel GeomSpec GeomProofs1 GeomProofs2 GeomProofs5 TriModel PolyModel MshProofs6 StatModel TriaModel TriaSpec TriaProofs TriaProofs2.
Import ListNotations.
Local Open Scope R_scope.

Lemma rot_id : is_rotation (fun v => v).
Proof. repeat split; auto. Qed.
Lemma rot_matrix u phi m : unit u -> rotation_matrix u phi = Ok m -> is_rotation (mapply m).
Proof.
  intros U E. pose proof (rotation_rodrigues u phi m U E) as Rm. split; [|split; [|split]].
  - intros v w. destruct m as ((r1, r2), r3). unfold mapply. dvec r1; dvec r2; dvec r3; dvec v; dvec w. vunf. f_equal; ring.
  - intros k v. destruct m as ((r1, r2), r3). unfold mapply. dvec r1; dvec r2; dvec r3; dvec v. vunf. f_equal; ring.
  - intros v w. rewrite !Rm. apply rodrigues_dot. auto.
  - intros v w. rewrite !Rm. apply rodrigues_cross. auto.
Qed.
Lemma rot_sub f v w : is_rotation f -> f (vsub v w) = vsub (f v) (f w).
Proof.
  intros (A & S & _). replace (vsub v w) with (vadd v (smul (-1) w)) by (dvec v; dvec w; vunf; f_equal; ring). rewrite A, S.
  generalize (f v) (f w). intros a b. dvec a; dvec b; vunf; f_equal; ring.
Qed.
Lemma rot_norm f v : is_rotation f -> norm (f v) = norm v.
Proof. intros (_ & _ & D & _). unfold norm. rewrite D. auto. Qed.
Lemma rot_dist f p q : is_rotation f -> dist (f p) (f q) = dist p q.
Proof. intros Rf. unfold dist. rewrite <- (rot_sub f _ _ Rf). apply rot_norm. auto. Qed.
Lemma rot_normal f a b c : is_rotation f -> normal (f a) (f b) (f c) = option_map f (normal a b c).
Proof.
  intros Rf. unfold normal. rewrite <- !(rot_sub f _ _ Rf). destruct Rf as (A & S & D & C) eqn:ER. rewrite C. rewrite (rot_norm f _ Rf).
  destruct (isclose _ _ _ _); auto. cbn [option_map]. f_equal. rewrite !vdiv_smul, S. auto.
Qed.

(** The rotation to the plane, the one of the fixed points and the one back. *)
Lemma to_xy pts pxy ax phi : rotate_points_to_plane pts vzero (V 0 0 1) 0 = Ok (pxy, ax, phi) ->
  exists f g pl p0 p1 n, first_three pts = Ok (pl, p0, p1) /\ normal pl p0 p1 = Some n /\ is_rotation f /\ is_rotation g /\ inverses f g /\ pxy = map f pts /\
    (forall l, exists m, rotate_points_around_vector l ax phi = Ok (map f l, m)) /\ (forall l, exists m, rotate_points_around_vector l ax (- phi) = Ok (map g l, m)) /\
    (f n = ez1 \/ ((forall v, f v = v) /\ Rabs (vx n) < 1 / 10000000000000 /\ Rabs (vy n) < 1 / 10000000000000)).
Proof.
  intros H. destruct (first_three pts) as [((pl, p0), p1)|] eqn:F; [|unfold rotate_points_to_plane in H; rewrite F in H; discriminate].
  destruct (normal pl p0 p1) as [n|] eqn:N; [|unfold rotate_points_to_plane in H; rewrite F in H; cbn [rbind] in H; rewrite N in H; discriminate].
  assert (Uz : unit (V 0 0 1)) by (unfold unit; vunf; ring).
  assert (Az : anchor_used vzero = vzero) by (unfold anchor_used; destruct (points_equal vzero vzero); auto).
  assert (Cz : cross n (V 0 0 1) = V (vy n) (- vx n) 0) by (dvec n; vunf; f_equal; ring).
  destruct (Rlt_dec (Rmax (Rabs (vx n)) (Rabs (vy n))) (1 / 10000000000000)) as [Lm|Lm].
  { assert (Lx : Rabs (vx n) < 1 / 10000000000000) by (apply Rle_lt_trans with (2 := Lm); apply Rmax_l). assert (Ly : Rabs (vy n) < 1 / 10000000000000) by (apply Rle_lt_trans with (2 := Lm); apply Rmax_r).
    rewrite (to_plane_parallel pts vzero (V 0 0 1) 0 pl p0 p1 n F N) in H by (rewrite Cz; cbn [vx vy vz]; rewrite Rabs_Ropp, Rabs_R0; repeat split; auto; lra).
    injection H as <- <- <-. exists (fun v => v), (fun v => v), pl, p0, p1, n. split; auto. split; auto. split; [apply rot_id|]. split; [apply rot_id|]. split; [intros v; auto|].
    split; [apply map_ext; intros p; rewrite Az; dvec p; vunf; f_equal; ring|].
    assert (Sm : forall l a, Rabs a = 0 -> exists m, rotate_points_around_vector l (cross n (V 0 0 1)) a = Ok (map (fun v => v) l, m)).
    { intros l a Ha. exists mones. rewrite map_id. apply rotate_around_small. left. lra. }
    split; [intros l; apply Sm; apply Rabs_R0|]. split; [intros l; apply Sm; rewrite Ropp_0; apply Rabs_R0|]. right. auto. }
  assert (NP : ~ (Rabs (vx (cross n (V 0 0 1))) < 1 / 10000000000000 /\ Rabs (vy (cross n (V 0 0 1))) < 1 / 10000000000000 /\ Rabs (vz (cross n (V 0 0 1))) < 1 / 10000000000000)).
  { rewrite Cz; cbn [vx vy vz]. rewrite Rabs_Ropp. intros (A & B & _). apply Lm. apply Rmax_lub_lt; auto. }
  destruct (to_plane_spec pts vzero (V 0 0 1) 0 pl p0 p1 n F N Uz NP) as (pts' & ax' & phi' & m & E & Em & Ua & Al & Ep).
  rewrite H in E. injection E as -> -> ->.
  assert (Big : 1 / 10000000000000 <= Rabs phi').
  { destruct (normal_spec _ _ _ _ N) as (Un & _). unfold rotate_points_to_plane in H. rewrite F in H. cbn [rbind] in H. rewrite N in H.
    destruct (_ && _ && _) eqn:B. { exfalso. apply NP. rbool. unfold GEOM_ATOL in *. auto. }
    destruct (angle n (V 0 0 1)) as [ph|] eqn:A; [|discriminate]. destruct (rotation_matrix _ ph); [|discriminate]. cbn [rbind] in H. injection H as _ _ ->.
    pose proof (angle_cos _ _ _ A) as C. rewrite !unit_norm, !Rmult_1_r in C by auto. pose proof (angle_range _ _ _ A) as (R0 & R1).
    assert (C' : cos phi' = vz n) by (rewrite C; dvec n; vunf; ring). rewrite (Rabs_pos_eq phi') by auto.
    destruct (Rle_dec (1 / 10000000000000) phi') as [|Sm]; auto. exfalso. apply Lm.
    assert (S0 : 0 <= sin phi' < 1 / 10000000000000).
    { split; [apply sin_ge_0; auto|]. destruct (Req_dec phi' 0) as [->|Nz]; [rewrite sin_0; lra|]. apply Rlt_le_trans with phi'; [apply sin_lt_x|]; lra. }
    pose proof (cs1 phi') as X. rewrite C' in X. unfold unit, dot in Un.
    assert (Q : vx n * vx n + vy n * vy n = sin phi' * sin phi') by lra.
    assert (Sq : forall x y s, 0 <= s -> x * x + y * y = s * s -> Rabs x <= s). { intros x y s' P K. unfold Rabs. destruct (Rcase_abs x); nra. }
    apply Rmax_lub_lt; [apply Rle_lt_trans with (sin phi'); [apply (Sq _ (vy n))|]|apply Rle_lt_trans with (sin phi'); [apply (Sq _ (vx n))|]]; lra. }
  destruct (rotation_matrix_spec ax' phi' m Ua Em) as (_ & _ & _ & _ & _ & (m' & Em' & Inv)).
  exists (mapply m), (mapply m'), pl, p0, p1, n. split; auto. split; auto. split; [apply (rot_matrix _ _ _ Ua Em)|]. split; [apply (rot_matrix _ _ _ Ua Em')|]. split; [exact Inv|].
  split; [subst pts'; apply map_ext; intros p; rewrite Az; replace (vsub p vzero) with p by (dvec p; vunf; f_equal; ring); set (q := mapply m p); dvec q; vunf; f_equal; ring|].
  assert (Ra : forall l a k, rotation_matrix ax' a = Ok k -> 1 / 10000000000000 <= Rabs a -> rotate_points_around_vector l ax' a = Ok (map (mapply k) l, k)).
  { intros l a k Ek Ba. unfold rotate_points_around_vector. rewrite (proj2 (Rltb_false (norm ax') GEOM_ATOL)) by (rewrite (unit_norm _ Ua); unfold GEOM_ATOL; lra).
    rewrite (proj2 (Rltb_false (Rabs a) GEOM_ATOL)) by (unfold GEOM_ATOL; lra). cbn [orb]. rewrite Ek. reflexivity. }
  split; [intros l; exists m; apply Ra; auto|]. split; [intros l; exists m'; apply Ra; auto; rewrite Rabs_Ropp; auto|]. left. exact Al.
Qed.
