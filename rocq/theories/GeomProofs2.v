(** Rotations, boxes, edges, polygon areas. *)
From Coq Require Import Reals List Bool Arith Lia Lra Psatz.
From Verif Require Import Prelude VecModel VecProofs GeomModel GeomSpec GeomProofs1.
Import ListNotations.
Local Open Scope R_scope.

(** Rotations. *)
Definition rodrigues (u : vec) (phi : R) (v : vec) : vec :=
  vadd (vadd (smul (cos phi) v) (smul (sin phi) (cross u v))) (smul ((1 - cos phi) * dot u v) u).
Lemma half_angle phi : 2 * sin (phi / 2) ^ 2 = 1 - cos phi.
Proof. replace phi with (2 * (phi / 2)) at 2 by field. rewrite cos_2a_sin. ring. Qed.
Lemma unit_norm u : unit u -> norm u = 1.
Proof. intros U. unfold norm. rewrite U. apply sqrt_1. Qed.
Lemma rotation_ok u phi : unit u -> exists m, rotation_matrix u phi = Ok m.
Proof.
  intros U. unfold rotation_matrix. replace (isclose (norm u) 1 RTOL ATOL8) with true; [eauto|]. symmetry. unfold isclose. apply Rleb_true.
  rewrite (unit_norm u U), Rminus_diag_eq, Rabs_R0, Rabs_R1 by auto. unfold ATOL8, RTOL. lra.
Qed.
Lemma rotation_rodrigues u phi m : unit u -> rotation_matrix u phi = Ok m -> forall v, mapply m v = rodrigues u phi v.
Proof.
  intros U E v. unfold rotation_matrix in E. destruct (isclose (norm u) 1 RTOL ATOL8); [|discriminate].
  rewrite half_angle in E. assert (E' := f_equal (fun r => match r with Ok a => a | Err _ => m end) E). cbv beta iota in E'. rewrite <- E'. clear E E'. unfold unit in U. unfold rodrigues. dvec u; dvec v.
  unfold mapply, madd, mscale, mmul, mcols, meye. vunf.
  assert (X : x * x = 1 - y * y - z * z) by lra. set (s := sin phi). set (c := cos phi).
  f_equal.
  - transitivity (x0 + s * (y * z0 - z * y0) + (1 - c) * (x * (x * x0 + y * y0 + z * z0) - (x*x+y*y+z*z) * x0)); [ring|]. rewrite U. ring.
  - transitivity (y0 + s * (z * x0 - x * z0) + (1 - c) * (y * (x * x0 + y * y0 + z * z0) - (x*x+y*y+z*z) * y0)); [ring|]. rewrite U. ring.
  - transitivity (z0 + s * (x * y0 - y * x0) + (1 - c) * (z * (x * x0 + y * y0 + z * z0) - (x*x+y*y+z*z) * z0)); [ring|]. rewrite U. ring.
Qed.
Lemma cs1 phi : sin phi * sin phi + cos phi * cos phi = 1.
Proof. pose proof (sin2_cos2 phi). unfold Rsqr in H. auto. Qed.
Lemma rodrigues_dot u phi v w : unit u -> dot (rodrigues u phi v) (rodrigues u phi w) = dot v w.
Proof.
  intros U. unfold rodrigues, unit in *. pose proof (cs1 phi) as C. set (s := sin phi) in *. set (c := cos phi) in *.
  assert (L : dot (cross u v) (cross u w) = dot v w - dot u v * dot u w).
  { transitivity (dot u u * dot v w - dot u v * dot u w); [dvec u; dvec v; dvec w; vunf; ring|rewrite U; ring]. }
  transitivity (c * c * dot v w + s * s * dot (cross u v) (cross u w) + ((1 - c) * (1 - c) * dot u u + 2 * (1 - c) * c) * (dot u v * dot u w)).
  - dvec u; dvec v; dvec w. vunf. ring.
  - rewrite L, U. assert (S : s * s = 1 - c * c) by lra. rewrite S. ring.
Qed.
Lemma rodrigues_axis u phi : unit u -> rodrigues u phi u = u.
Proof.
  intros U. unfold rodrigues, unit in *. rewrite U. dvec u. vunf. f_equal; ring.
Qed.
Lemma rodrigues_sub u phi v w : rodrigues u phi (vsub v w) = vsub (rodrigues u phi v) (rodrigues u phi w).
Proof. unfold rodrigues. dvec u; dvec v; dvec w. vunf. f_equal; ring. Qed.
Lemma rodrigues_inv u phi v : unit u -> rodrigues u (- phi) (rodrigues u phi v) = v.
Proof.
  intros U. unfold rodrigues at 1. rewrite cos_neg, sin_neg. pose proof (cs1 phi) as C.
  assert (D : dot u (rodrigues u phi v) = dot u v).
  { rewrite <- (rodrigues_axis u phi U) at 1. apply rodrigues_dot. auto. }
  rewrite D. unfold rodrigues. set (s := sin phi) in *. set (c := cos phi) in *. assert (S : s * s = 1 - c * c) by lra. unfold unit in U.
  dvec u; dvec v. vunf. f_equal.
  - transitivity (c * c * x0 + s * s * ((x*x+y*y+z*z) * x0 - x * (x * x0 + y * y0 + z * z0)) + (1 - c*c) * (x * (x * x0 + y * y0 + z * z0))); [ring|rewrite S, U; ring].
  - transitivity (c * c * y0 + s * s * ((x*x+y*y+z*z) * y0 - y * (x * x0 + y * y0 + z * z0)) + (1 - c*c) * (y * (x * x0 + y * y0 + z * z0))); [ring|rewrite S, U; ring].
  - transitivity (c * c * z0 + s * s * ((x*x+y*y+z*z) * z0 - z * (x * x0 + y * y0 + z * z0)) + (1 - c*c) * (z * (x * x0 + y * y0 + z * z0))); [ring|rewrite S, U; ring].
Qed.
Lemma rodrigues_cross u phi v w : unit u -> cross (rodrigues u phi v) (rodrigues u phi w) = rodrigues u phi (cross v w).
Proof.
  (* both sides have the same dot product with every rotated vector *)
  intros U. unfold rodrigues, unit in *. pose proof (cs1 phi) as C. set (s := sin phi) in *. set (c := cos phi) in *.
  assert (S : s * s = 1 - c * c) by lra.
  assert (X : cross (vadd (vadd (smul c v) (smul s (cross u v))) (smul ((1 - c) * dot u v) u))
                    (vadd (vadd (smul c w) (smul s (cross u w))) (smul ((1 - c) * dot u w) u))
    = vadd (vadd (smul (c * c) (cross v w)) (smul (s * s * dot u (cross v w)) u))
       (vadd (smul (c * s) (vadd (cross v (cross u w)) (cross (cross u v) w)))
          (vadd (smul (c * (1 - c)) (vadd (smul (dot u w) (cross v u)) (smul (dot u v) (cross u w))))
                (smul (s * (1 - c)) (vadd (smul (dot u w) (cross (cross u v) u)) (smul (dot u v) (cross u (cross u w)))))))).
  { dvec u; dvec v; dvec w. vunf. f_equal; ring. }
  rewrite X. clear X.
  assert (E1 : vadd (smul (dot u w) (cross v u)) (smul (dot u v) (cross u w)) = vsub (smul (dot u u) (cross v w)) (smul (dot u (cross v w)) u)).
  { dvec u; dvec v; dvec w. vunf. f_equal; ring. }
  rewrite E1, S, U.
  assert (E2 : vadd (smul (dot u w) (cross (cross u v) u)) (smul (dot u v) (cross u (cross u w))) = smul (dot u u) (cross u (cross v w))).
  { dvec u; dvec v; dvec w. vunf. f_equal; ring. }
  rewrite E2, U.
  assert (E3 : vadd (cross v (cross u w)) (cross (cross u v) w) = cross u (cross v w)).
  { dvec u; dvec v; dvec w. vunf. f_equal; ring. }
  rewrite E3. set (k := cross u (cross v w)). set (d := dot u (cross v w)). set (m := cross v w). dvec u; dvec k; dvec m. vunf. f_equal; ring.
Qed.

Lemma rotation_matrix_spec u phi m : unit u -> rotation_matrix u phi = Ok m ->
  mmul (mcols m) m = meye /\ mdet m = 1 /\ mapply m u = u /\
  (forall v w, dot (mapply m v) (mapply m w) = dot v w) /\
  (forall p q, norm (vsub (mapply m q) (mapply m p)) = norm (vsub q p)) /\
  (exists m', rotation_matrix u (- phi) = Ok m' /\ forall v, mapply m' (mapply m v) = v /\ mapply m (mapply m' v) = v).
Proof.
  intros U E. pose proof (rotation_rodrigues u phi m U E) as Rm.
  assert (D : forall v w, dot (mapply m v) (mapply m w) = dot v w) by (intros; rewrite !Rm; apply rodrigues_dot; auto).
  assert (Cc : forall v w, cross (mapply m v) (mapply m w) = mapply m (cross v w)) by (intros; rewrite !Rm; apply rodrigues_cross; auto).
  split; [|split; [|split; [|split; [|split]]]]; auto.
  - pose proof (D (V 1 0 0) (V 1 0 0)) as D11. pose proof (D (V 1 0 0) (V 0 1 0)) as D12. pose proof (D (V 1 0 0) (V 0 0 1)) as D13.
    pose proof (D (V 0 1 0) (V 0 1 0)) as D22. pose proof (D (V 0 1 0) (V 0 0 1)) as D23. pose proof (D (V 0 0 1) (V 0 0 1)) as D33.
    clear - D11 D12 D13 D22 D23 D33. destruct m as (((a1, a2, a3), (b1, b2, b3)), (c1, c2, c3)).
    unfold mapply, mmul, mcols, meye, dot in *. cbn [vx vy vz] in *. repeat (first [lra | progress f_equal]).
  - pose proof (D (mapply m (V 0 0 0)) (V 0 0 0)) as _D. clear _D.
    assert (X : dot (mapply m (V 1 0 0)) (cross (mapply m (V 0 1 0)) (mapply m (V 0 0 1))) = 1).
    { rewrite Cc, D. vunf. lra. }
    clear - X. destruct m as (((a1, a2, a3), (b1, b2, b3)), (c1, c2, c3)). unfold mapply, mdet in *. vunf. lra.
  - rewrite Rm. apply rodrigues_axis. auto.
  - intros p q. apply norm_dot_eq. rewrite !Rm, <- rodrigues_sub. apply rodrigues_dot. auto.
  - destruct (rotation_ok u (- phi) U) as (m' & E'). exists m'. split; auto. intros v. pose proof (rotation_rodrigues u (- phi) m' U E') as Rm'. split.
    + rewrite Rm', Rm. apply rodrigues_inv; auto.
    + rewrite Rm, Rm'. rewrite <- (Ropp_involutive phi) at 1. apply rodrigues_inv; auto.
Qed.
Lemma rotation_not_unit u phi : isclose (norm u) 1 RTOL ATOL8 = false -> rotation_matrix u phi = Err AssertionError.
Proof. intros H. unfold rotation_matrix. rewrite H. auto. Qed.
Lemma rotate_around_spec pts u phi : unit u -> 1 / 10000000000000 <= Rabs phi ->
  exists m pts', rotation_matrix u phi = Ok m /\ rotate_points_around_vector pts u phi = Ok (pts', m) /\ length pts' = length pts /\
    (forall i p, nth_error pts i = Some p -> nth_error pts' i = Some (mapply m p)).
Proof.
  intros U P. destruct (rotation_ok u phi U) as (m & E). exists m, (map (mapply m) pts). split; auto. unfold rotate_points_around_vector.
  rewrite (proj2 (Rltb_false (norm u) GEOM_ATOL)) by (rewrite (unit_norm u U); unfold GEOM_ATOL; lra).
  rewrite (proj2 (Rltb_false (Rabs phi) GEOM_ATOL)) by (unfold GEOM_ATOL; lra). cbn [orb]. rewrite E. cbn [rbind]. split; auto.
  split; [apply map_length|]. intros i p Ei. rewrite nth_error_map, Ei. auto.
Qed.
Lemma rotate_around_small pts u phi : Rabs phi < 1 / 10000000000000 \/ norm u < 1 / 10000000000000 ->
  rotate_points_around_vector pts u phi = Ok (pts, mones).
Proof.
  intros H. unfold rotate_points_around_vector. destruct H as [H|H]; [rewrite (proj2 (Rltb_true (Rabs phi) GEOM_ATOL)) by (unfold GEOM_ATOL; lra); rewrite orb_true_r|rewrite (proj2 (Rltb_true (norm u) GEOM_ATOL)) by (unfold GEOM_ATOL; lra)]; reflexivity.
Qed.

(** Rotation to a plane. *)
Lemma align n u phi : unit n -> unit u -> angle n u = Some phi -> norm (cross n u) <> 0 ->
  rodrigues (vdiv (cross n u) (norm (cross n u))) phi n = u.
Proof.
  intros Un Uu A N. pose proof (angle_cos _ _ _ A) as C. rewrite !unit_norm, !Rmult_1_r in C by auto. pose proof (angle_range _ _ _ A) as (R0 & R1).
  assert (S : sin phi = norm (cross n u)).
  { assert (S2 : sin phi * sin phi = norm (cross n u) * norm (cross n u)).
    { rewrite norm_sq. pose proof (cs1 phi) as X. rewrite C in X.
      assert (L : dot (cross n u) (cross n u) = 1 - dot n u * dot n u).
      { transitivity (dot n n * dot u u - dot n u * dot n u); [dvec n; dvec u; vunf; ring|rewrite Un, Uu; ring]. } lra. }
    pose proof (sin_ge_0 phi R0 R1). pose proof (norm_pos (cross n u)). nra. }
  unfold rodrigues. rewrite C, S, vdiv_smul. set (k := norm (cross n u)) in *.
  assert (D : dot (smul (/ k) (cross n u)) n = 0) by (rewrite dot_smul_l; destruct (cross_perp n u) as (-> & _); ring).
  rewrite D. unfold unit in *.
  transitivity (vadd (smul (dot n u) n) (cross (cross n u) n)).
  - set (w := cross n u) in *. dvec n; dvec w. vunf. f_equal; field; auto.
  - transitivity (smul (dot n n) u); [dvec n; dvec u; vunf; f_equal; ring|rewrite Un; dvec u; vunf; f_equal; ring].
Qed.
Lemma to_plane_spec pts anchor u d pl p0 p1 n : first_three pts = Ok (pl, p0, p1) -> normal pl p0 p1 = Some n -> unit u ->
  ~ (Rabs (vx (cross n u)) < 1 / 10000000000000 /\ Rabs (vy (cross n u)) < 1 / 10000000000000 /\ Rabs (vz (cross n u)) < 1 / 10000000000000) ->
  exists pts' ax phi m, rotate_points_to_plane pts anchor u d = Ok (pts', ax, phi) /\
    rotation_matrix ax phi = Ok m /\ unit ax /\ mapply m n = u /\
    pts' = map (fun p => vadd (vadd (mapply m (vsub p (anchor_used anchor))) (anchor_used anchor)) (smul d u)) pts.
Proof.
  intros F N Uu NP. pose proof (normal_spec _ _ _ _ N) as (Un & _).
  set (w := cross n u) in *.
  assert (Nw : norm w <> 0).
  { intros Z. apply norm_zero in Z. apply NP. rewrite Z. unfold vzero. cbn [vx vy vz]. rewrite Rabs_R0. lra. }
  destruct (angle n u) as [phi|] eqn:A.
  2:{ apply angle_none in A. rewrite <- !norm_zero, !unit_norm in A by auto. lra. }
  pose proof (unit_vdiv w Nw) as Ua. destruct (rotation_ok _ phi Ua) as (m & Em).
  exists (map (fun p => vadd (vadd (mapply m (vsub p (anchor_used anchor))) (anchor_used anchor)) (smul d u)) pts), (vdiv w (norm w)), phi, m.
  unfold rotate_points_to_plane. rewrite F. cbn [rbind]. rewrite N. fold w.
  destruct (Rltb (Rabs (vx w)) GEOM_ATOL && Rltb (Rabs (vy w)) GEOM_ATOL && Rltb (Rabs (vz w)) GEOM_ATOL) eqn:B.
  { exfalso. apply NP. rbool. unfold GEOM_ATOL in *. auto. }
  rewrite A, Em. cbn [rbind]. split; [|split; [auto|split; [auto|split; [|auto]]]].
  - unfold anchor_used. destruct (points_equal anchor vzero).
    + rewrite map_map. f_equal. f_equal. f_equal. apply map_ext. intros p.
      replace (vsub p vzero) with p by (dvec p; vunf; f_equal; ring). f_equal. set (q := mapply m p). dvec q; vunf; f_equal; ring.
    + rewrite !map_map. reflexivity.
  - rewrite (rotation_rodrigues _ _ _ Ua Em). apply align; auto.
Qed.
Lemma to_plane_parallel pts anchor u d pl p0 p1 n : first_three pts = Ok (pl, p0, p1) -> normal pl p0 p1 = Some n ->
  (Rabs (vx (cross n u)) < 1 / 10000000000000 /\ Rabs (vy (cross n u)) < 1 / 10000000000000 /\ Rabs (vz (cross n u)) < 1 / 10000000000000) ->
  rotate_points_to_plane pts anchor u d = Ok (map (fun p => vsub p (anchor_used anchor)) pts, cross n u, 0).
Proof.
  intros F N (A & B & C). unfold rotate_points_to_plane. rewrite F. cbn [rbind]. rewrite N. unfold GEOM_ATOL.
  rewrite !(proj2 (Rltb_true _ _)) by auto. cbn [andb]. unfold anchor_used. destruct (points_equal anchor vzero); auto.
  f_equal. f_equal. f_equal. rewrite <- (map_id pts) at 1. apply map_ext. intros p. dvec p; vunf; f_equal; ring.
Qed.
Lemma to_plane_full pts anchor u d pl p0 p1 n c : first_three pts = Ok (pl, p0, p1) -> normal pl p0 p1 = Some n -> unit u ->
  ~ (Rabs (vx (cross n u)) < 1 / 10000000000000 /\ Rabs (vy (cross n u)) < 1 / 10000000000000 /\ Rabs (vz (cross n u)) < 1 / 10000000000000) ->
  (forall p, In p pts -> dot n p = c) ->
  exists pts' ax phi, rotate_points_to_plane pts anchor u d = Ok (pts', ax, phi) /\ length pts' = length pts /\
    (forall q, In q pts' -> dot u q = c - dot n (anchor_used anchor) + dot u (anchor_used anchor) + d) /\
    (forall i j p q p' q', nth_error pts i = Some p -> nth_error pts j = Some q -> nth_error pts' i = Some p' -> nth_error pts' j = Some q' -> norm (vsub q' p') = norm (vsub q p)).
Proof.
  intros F N Uu NP Cp. destruct (to_plane_spec pts anchor u d pl p0 p1 n F N Uu NP) as (pts' & ax & phi & m & E & Em & Ua & Al & Ep).
  exists pts', ax, phi. split; auto. destruct (rotation_matrix_spec ax phi m Ua Em) as (_ & _ & _ & Dm & Nm & _). set (a := anchor_used anchor) in *. subst pts'.
  split; [apply map_length|]. split.
  - intros q I. apply in_map_iff in I. destruct I as (p & <- & I). specialize (Cp p I).
    assert (X : dot u (mapply m (vsub p a)) = dot n p - dot n a).
    { rewrite <- Al at 1. rewrite Dm. unfold dot, vsub. cbn [vx vy vz]. ring. }
    transitivity (dot u (mapply m (vsub p a)) + dot u a + d * dot u u); [unfold dot, vadd, smul; cbn [vx vy vz]; ring|]. rewrite X, Uu, Cp. ring.
  - intros i j p q p' q' Ei Ej Ei' Ej'. rewrite nth_error_map, Ei in Ei'. rewrite nth_error_map, Ej in Ej'. inversion Ei'; inversion Ej'.
    rewrite <- (Nm p q). apply norm_dot_eq.
    assert (X : forall r s, vsub (vadd (vadd (mapply m (vsub r a)) a) (smul d u)) (vadd (vadd (mapply m (vsub s a)) a) (smul d u)) = vsub (mapply m r) (mapply m s)).
    { intros r s. destruct m as ((r1, r2), r3). unfold mapply. dvec r1; dvec r2; dvec r3; dvec r; dvec s; dvec a; dvec u. vunf. f_equal; ring. }
    rewrite X. auto.
Qed.

(** Bounding boxes. *)
Lemma lmin_spec l m : lmin l = Ok m <-> (In m l /\ forall y, In y l -> m <= y).
Proof.
  assert (X : forall r x, (forall y, In y (x :: r) -> fold_left Rmin r x <= y) /\ In (fold_left Rmin r x) (x :: r)).
  { induction r as [|a r IH]; intros x; cbn [fold_left]; [split; [intros y [<-|[]]; lra|left; auto]|].
    destruct (IH (Rmin x a)) as (A & B). pose proof (A _ (or_introl eq_refl)). split.
    - intros y [<-|[<-|I]]; [apply Rle_trans with (Rmin x a); auto; apply Rmin_l|apply Rle_trans with (Rmin x a); auto; apply Rmin_r|apply A; right; auto].
    - destruct B as [B|B]; [|right; right; auto]. rewrite <- B. unfold Rmin. destruct (Rle_dec x a); [left; auto|right; left; auto]. }
  destruct l as [|x r]; simpl lmin; [split; [discriminate|intros ([] & _)]|]. destruct (X r x) as (A & B). split.
  - intros H; inversion H; subst. auto.
  - intros (I & M). f_equal. apply Rle_antisym; [apply A; auto|apply M; auto].
Qed.
Lemma lmax_spec l m : lmax l = Ok m <-> (In m l /\ forall y, In y l -> y <= m).
Proof.
  assert (X : forall r x, (forall y, In y (x :: r) -> y <= fold_left Rmax r x) /\ In (fold_left Rmax r x) (x :: r)).
  { induction r as [|a r IH]; intros x; cbn [fold_left]; [split; [intros y [<-|[]]; lra|left; auto]|].
    destruct (IH (Rmax x a)) as (A & B). pose proof (A _ (or_introl eq_refl)). split.
    - intros y [<-|[<-|I]]; [apply Rle_trans with (Rmax x a); auto; apply Rmax_l|apply Rle_trans with (Rmax x a); auto; apply Rmax_r|apply A; right; auto].
    - destruct B as [B|B]; [|right; right; auto]. rewrite <- B. unfold Rmax. destruct (Rle_dec x a); [right; left; auto|left; auto]. }
  destruct l as [|x r]; simpl lmax; [split; [discriminate|intros ([] & _)]|]. destruct (X r x) as (A & B). split.
  - intros H; inversion H; subst. auto.
  - intros (I & M). f_equal. apply Rle_antisym; [apply M; auto|apply A; auto].
Qed.
Lemma lmin_ok l : l <> [] -> exists m, lmin l = Ok m.
Proof. destruct l; [congruence|]. intros _. eexists. reflexivity. Qed.
Lemma lmax_ok l : l <> [] -> exists m, lmax l = Ok m.
Proof. destruct l; [congruence|]. intros _. eexists. reflexivity. Qed.
Lemma map_nil {A B} (f : A -> B) l : l <> [] -> map f l <> [].
Proof. destruct l; [congruence|discriminate]. Qed.
Lemma bbox_empty : bounding_box [] = Err ValueError.
Proof. reflexivity. Qed.
Lemma bbox_spec pts : pts <> [] -> exists lo hi, bounding_box pts = Ok (lo, hi) /\
  forall c, In c [vx; vy; vz] -> (forall p, In p pts -> c lo <= c p <= c hi) /\ (exists p, In p pts /\ c p = c lo) /\ (exists p, In p pts /\ c p = c hi).
Proof.
  intros N. unfold bounding_box.
  destruct (lmin_ok _ (map_nil vx pts N)) as (x0 & X0), (lmax_ok _ (map_nil vx pts N)) as (x1 & X1).
  destruct (lmin_ok _ (map_nil vy pts N)) as (y0 & Y0), (lmax_ok _ (map_nil vy pts N)) as (y1 & Y1).
  destruct (lmin_ok _ (map_nil vz pts N)) as (z0 & Z0), (lmax_ok _ (map_nil vz pts N)) as (z1 & Z1).
  rewrite X0, X1, Y0, Y1, Z0, Z1. cbn [rbind]. exists (V x0 y0 z0), (V x1 y1 z1). split; auto.
  assert (X : forall (c : vec -> R) a b, lmin (map c pts) = Ok a -> lmax (map c pts) = Ok b ->
    (forall p, In p pts -> a <= c p <= b) /\ (exists p, In p pts /\ c p = a) /\ (exists p, In p pts /\ c p = b)).
  { intros c a b A B. apply lmin_spec in A. apply lmax_spec in B. destruct A as (Ia & Ma), B as (Ib & Mb). split; [|split].
    - intros p I. split; [apply Ma|apply Mb]; apply in_map; auto.
    - apply in_map_iff in Ia. destruct Ia as (p & E & I). eauto.
    - apply in_map_iff in Ib. destruct Ib as (p & E & I). eauto. }
  intros c [<-|[<-|[<-|[]]]]; cbn [vx vy vz]; apply X; auto.
Qed.
Lemma any_lt_false a b : any_lt a b = false <-> vx b <= vx a /\ vy b <= vy a /\ vz b <= vz a.
Proof. unfold any_lt. rewrite !orb_false_iff, !Rltb_false. tauto. Qed.
Lemma any_lt_true a b : any_lt a b = true <-> exists c, In c [vx; vy; vz] /\ c a < c b.
Proof.
  unfold any_lt. rewrite !orb_true_iff, !Rltb_true. split.
  - intros [[H|H]|H]; [exists vx|exists vy|exists vz]; simpl; auto.
  - intros (c & [<-|[<-|[<-|[]]]] & H); auto.
Qed.
Lemma inside_bbox_spec pt pts atol : pts <> [] -> exists b, is_point_inside_bbox pt pts atol = Ok b /\
  (b = true <-> forall c, In c [vx; vy; vz] -> (exists p, In p pts /\ c p - atol <= c pt) /\ (exists p, In p pts /\ c pt <= c p + atol)).
Proof.
  intros N. destruct (bbox_spec pts N) as (lo & hi & E & H). unfold is_point_inside_bbox. rewrite E. cbn [rbind fst snd]. eexists. split; [reflexivity|].
  rewrite negb_true_iff, orb_false_iff, !any_lt_false. unfold vshift. cbn [vx vy vz]. split.
  - intros ((A1 & A2 & A3) & (B1 & B2 & B3)) c I. destruct (H c I) as (_ & (p & Ip & Ep) & (q & Iq & Eq)).
    destruct I as [<-|[<-|[<-|[]]]]; (split; [exists p|exists q]; split; auto; lra).
  - intros K. assert (X : forall c, In c [vx; vy; vz] -> c lo - atol <= c pt <= c hi + atol).
    { intros c I. destruct (K c I) as ((p & Ip & Ep) & (q & Iq & Eq)). destruct (H c I) as (R & _). pose proof (R p Ip). pose proof (R q Iq). lra. }
    pose proof (X vx ltac:(simpl; auto)). pose proof (X vy ltac:(simpl; auto)). pose proof (X vz ltac:(simpl; auto)). lra.
Qed.
Lemma overlap_sym b1 b2 : are_bboxes_overlapping b1 b2 = are_bboxes_overlapping b2 b1.
Proof. unfold are_bboxes_overlapping. rewrite orb_comm. auto. Qed.
Lemma overlap_spec b1 b2 : (exists p, in_bbox b1 p) -> (exists p, in_bbox b2 p) ->
  (are_bboxes_overlapping b1 b2 = true <-> exists p, in_bbox b1 p /\ in_bbox b2 p).
Proof.
  intros (p1 & I1) (p2 & I2). unfold are_bboxes_overlapping. rewrite negb_true_iff, orb_false_iff, !any_lt_false. split.
  - intros ((A1 & A2 & A3) & (B1 & B2 & B3)).
    exists (V (Rmax (vx (fst b1)) (vx (fst b2))) (Rmax (vy (fst b1)) (vy (fst b2))) (Rmax (vz (fst b1)) (vz (fst b2)))).
    split; intros c I; pose proof (I1 c I) as J1; pose proof (I2 c I) as J2; destruct I as [<-|[<-|[<-|[]]]]; cbn [vx vy vz]; unfold Rmax; destruct (Rle_dec _ _); lra.
  - intros (p & J1 & J2).
    pose proof (J1 vx ltac:(simpl; auto)). pose proof (J1 vy ltac:(simpl; auto)). pose proof (J1 vz ltac:(simpl; auto)).
    pose proof (J2 vx ltac:(simpl; auto)). pose proof (J2 vy ltac:(simpl; auto)). pose proof (J2 vz ltac:(simpl; auto)). lra.
Qed.
