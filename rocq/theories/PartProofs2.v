(** Predefined walls: single walls and apertures. *)
From Coq Require Import Ascii String Reals List Bool Arith Lia Lra Permutation.
From Verif Require Import Prelude TreeModel IoModel VecModel VecProofs GeomModel GeomSpec GeomProofs1 GeomProofs2 GeomProofs3 GeomProofs4 GeomProofs5 TriModel TriSpec TriProofs TriProofs2 TriProofs3 PolyModel PolySpec PolyProofs1 PolyProofs2 SolidModel SolidSpec SolidProofs1 SolidProofs2 PlanSpec PlanProofs1 PlanProofs2 PlanProofs3 PlanProofs5 SliceProofs8 PartModel PartSpec PartProofs.
Import ListNotations.
Local Open Scope R_scope.

Lemma about_rodrigues u phi v : about u phi v = rodrigues u phi v.
Proof. reflexivity. Qed.
Lemma idle_dec u phi : {idle u phi} + {~ idle u phi}.
Proof. unfold idle. destruct (Rlt_dec (norm u) (1 / 10000000000000)); [left; auto|]. destruct (Rlt_dec (Rabs phi) (1 / 10000000000000)); [left; auto|right; tauto]. Qed.
Definition turner (u : vec) (phi : R) : vec -> vec := fun v => if idle_dec u phi then v else about u phi v.
Lemma turner_turned u phi : turned_by u phi (turner u phi).
Proof. unfold turned_by, turner. destruct (idle_dec u phi); auto. Qed.

Ltac each_point := repeat (apply f_equal2; [f_equal; ring|]); reflexivity.
Section Turn.
Context (u : vec) (phi : R) (f : vec -> vec) (Tf : turned_by u phi f) (Uu : unit u \/ idle u phi).
Lemma turn_add v w : f (vadd v w) = vadd (f v) (f w).
Proof. destruct Tf as [(_ & H)|(_ & H)]; rewrite !H; auto. unfold about. dvec u; dvec v; dvec w; vunf; f_equal; ring. Qed.
Lemma turn_smul k v : f (smul k v) = smul k (f v).
Proof. destruct Tf as [(_ & H)|(_ & H)]; rewrite !H; auto. unfold about. dvec u; dvec v; vunf; f_equal; ring. Qed.
Lemma turn_dot v w : dot (f v) (f w) = dot v w.
Proof. destruct Tf as [(_ & H)|(N & H)]; rewrite !H; auto. destruct Uu as [U|U]; [|tauto]. rewrite !about_rodrigues. apply rodrigues_dot. auto. Qed.
Lemma turn_cross' v w : cross (f v) (f w) = f (cross v w).
Proof. destruct Tf as [(_ & H)|(N & H)]; rewrite !H; auto. destruct Uu as [U|U]; [|tauto]. rewrite !about_rodrigues. apply rodrigues_cross. auto. Qed.
Lemma turn_norm v : norm (f v) = norm v.
Proof. unfold norm. rewrite turn_dot. auto. Qed.
Lemma turn_sub v w : f (vsub v w) = vsub (f v) (f w).
Proof. replace (vsub v w) with (vadd v (smul (-1) w)) by (dvec v; dvec w; vunf; f_equal; ring). rewrite turn_add, turn_smul. generalize (f v) (f w). intros a b. dvec a; dvec b; vunf; f_equal; ring. Qed.
Lemma turn_inj v w : f v = f w -> v = w.
Proof.
  intros E. assert (N : dot (vsub v w) (vsub v w) = 0). { rewrite <- turn_dot, turn_sub, E. generalize (f w). intros a. dvec a; vunf; ring. }
  clear - N. destruct v as [a b c], w as [a' b' c']. vunf. assert (Z : forall x y z, x * x + y * y + z * z = 0 -> x = 0) by (intros; nra). pose proof (Z (a - a') (b - b') (c - c') ltac:(lra)). pose proof (Z (b - b') (a - a') (c - c') ltac:(lra)). pose proof (Z (c - c') (a - a') (b - b') ltac:(lra)). f_equal; lra.
Qed.
Lemma rotate_turn pts : phi <> 0 -> exists m, rotate_points_around_vector pts u phi = Ok (map f pts, m).
Proof.
  intros P. destruct Tf as [(I & H)|(I & H)].
  - exists mones. rewrite rotate_around_small by (unfold idle in I; tauto). rewrite (map_ext _ (fun x => x) H), map_id. auto.
  - destruct Uu as [U|U]; [|tauto]. destruct (rotation_ok u phi U) as (m & Em). exists m. unfold rotate_points_around_vector. unfold idle in I.
    rewrite (proj2 (Rltb_false (norm u) GEOM_ATOL)), (proj2 (Rltb_false (Rabs phi) GEOM_ATOL)) by (unfold GEOM_ATOL; lra). cbn [orb]. rewrite Em. cbn [rbind]. f_equal. f_equal. unfold rotate_points. apply map_ext. intros v. rewrite H. apply rotation_rodrigues; auto.
Qed.
Lemma turn_zero_angle v : phi = 0 -> f v = v.
Proof. intros E. destruct Tf as [(_ & H)|(I & _)]; auto. exfalso. apply I. right. rewrite E, Rabs_R0. lra. Qed.
Lemma place_turned pts : (if Reqb phi 0 then Ok pts else do a <- rotate_points_around_vector pts u phi; Ok (fst a)) = Ok (map f pts).
Proof.
  destruct (Reqb phi 0) eqn:E.
  - apply Reqb_true in E. rewrite (map_ext _ (fun x => x)), map_id; auto. intros v. apply turn_zero_angle. auto.
  - apply Reqb_false in E. destruct (rotate_turn pts E) as (m & ->). auto.
Qed.
End Turn.

Lemma aperture_upright ox oz aw ah : aperture_rect ox oz aw ah = upright ox oz aw ah.
Proof. unfold aperture_rect, upright. vunf. each_point. Qed.
Lemma wall_upright w h : wall_rect w h = upright 0 0 w h.
Proof. unfold wall_rect, upright. each_point. Qed.
Definition placed (f : vec -> vec) (tr : vec) (l : list vec) : list vec := map (fun p => vadd (f p) tr) l.

Section Walls.
Context (tr rv : vec) (phi : R) (f : vec -> vec) (Tf : turned_by rv phi f) (Uu : unit rv \/ idle rv phi).
Lemma upright_cross x z w h :
  let q i := nth i (placed f tr (upright x z w h)) vzero in
  vsub (q 2%nat) (q 1%nat) = vsub (q 3%nat) (q 0%nat) /\ cross (vsub (q 1%nat) (q 0%nat)) (vsub (q 3%nat) (q 0%nat)) = smul (w * h) (f (V 0 1 0)).
Proof.
  cbn [placed upright map nth]. rewrite !vsub_shift, <- !(turn_sub _ _ _ Tf Uu), (turn_cross' _ _ _ Tf Uu), <- (turn_smul _ _ _ Tf Uu). split; f_equal; vunf; f_equal; ring.
Qed.
Lemma flat_sign k n m A : unit n -> unit m -> 0 < A -> smul k m = smul A n -> A = Rabs k /\ n = smul (k / Rabs k) m.
Proof.
  intros Un Um Ap E. assert (K : A = Rabs k). { pose proof (f_equal norm E) as X. rewrite !norm_smul, (unit_norm _ Un), (unit_norm _ Um), (Rabs_pos_eq A) in X by lra. lra. }
  split; auto. rewrite <- K. assert (A <> 0) by lra. clear - E H. destruct n as [n0 n1 n2], m as [m0 m1 m2]. vunf. injection E as E1 E2 E3. f_equal; [replace n0 with (A * n0 / A) by (field; auto); rewrite <- E1|replace n1 with (A * n1 / A) by (field; auto); rewrite <- E2|replace n2 with (A * n2 / A) by (field; auto); rewrite <- E3]; field; auto.
Qed.
Lemma upright_made x z w h p : make_polygon (placed f tr (upright x z w h)) None None = Ok p ->
  p_pts p = placed f tr (upright x z w h) /\ p_area p = Rabs (w * h) /\ 1 / 100000000 < Rabs (w * h) /\ p_vn p = smul (w * h / Rabs (w * h)) (f (V 0 1 0)).
Proof.
  intros M. destruct (upright_cross x z w h) as (E1 & E2). cbn [placed upright map nth] in E1, E2. destruct (para_area _ _ _ _ _ M E1) as (Ep & U & Ap & Ec).
  rewrite E2 in Ec. assert (Uy : unit (f (V 0 1 0))) by (unfold unit; rewrite (turn_dot _ _ _ Tf Uu); vunf; ring). destruct (flat_sign _ _ _ _ U Uy Ap Ec) as (A & N). split; auto. split; auto. split; auto.
  destruct (made_normal _ _ M) as (p0 & p1 & r & Eq & Nn). injection Eq as <- <- <-. cbn [last map placed upright] in Nn. apply normal_some in Nn. destruct Nn as (Nn & _).
  match type of Nn with _ < norm ?c => assert (Cc : c = smul (w * h) (f (V 0 1 0))) end. { rewrite <- E2. generalize (f (V x 0 z)) (f (V x 0 (z + h))) (f (V (x + w) 0 z)). intros a b d. clear. dvec a; dvec b; dvec d; dvec tr; vunf; f_equal; ring. }
  rewrite Cc, norm_smul, (unit_norm _ Uy) in Nn. lra.
Qed.
Lemma vwall_inv w h name rp rw W : vertical_wall w h tr rv phi name rp rw = Ok W -> same_or name rw (fst W) /\ same_or name rp (fst (snd W)) /\
  make_polygon (placed f tr (upright 0 0 w h)) None None = Ok (snd (snd W)).
Proof.
  unfold vertical_wall, place_points. rewrite (place_turned _ _ _ Tf Uu). cbn [rbind]. rewrite map_map, wall_upright. fold (placed f tr (upright 0 0 w h)). destruct (named_polygon _ _) as [(n1, p)|] eqn:N; [|discriminate]. cbn [rbind]. unfold make_wall. destruct (validate_name _) as [n2|] eqn:V; [|discriminate]. cbn [rbind].
  intros H. apply Ok_inj in H. subst W. cbn [fst snd]. apply VN in V. pose proof (named_name _ _ _ N) as E. cbn [fst] in E. subst. split; [destruct name; cbn; auto|]. split; [destruct name; cbn; auto|]. apply (named_made _ _ _ N).
Qed.
Lemma vwall_spec w h name rp rw W : vertical_wall w h tr rv phi name rp rw = Ok W -> same_or name rw (fst W) /\ same_or name rp (fst (snd W)) /\
  p_pts (snd (snd W)) = placed f tr (upright 0 0 w h) /\ p_area (snd (snd W)) = Rabs (w * h) /\ p_vn (snd (snd W)) = smul (w * h / Rabs (w * h)) (f (V 0 1 0)).
Proof. intros H. destruct (vwall_inv _ _ _ _ _ _ H) as (A & B & M). destruct (upright_made _ _ _ _ _ M) as (C & D & _ & E). auto 6. Qed.
Lemma vwall_flat w h name rp rw : Rabs (w * h) <= 1 / 100000000 -> exists e, vertical_wall w h tr rv phi name rp rw = Err e.
Proof. intros S. destruct (vertical_wall w h tr rv phi name rp rw) as [W|e] eqn:H; eauto. destruct (vwall_inv _ _ _ _ _ _ H) as (_ & _ & M). destruct (upright_made _ _ _ _ _ M) as (_ & _ & D & _). lra. Qed.
Lemma ap_inv w h name rp rw aw ah ox oz W q : wall_with_aperture w h tr rv phi name rp rw aw ah ox oz = Ok (W, q) ->
  vertical_wall w h tr rv phi name rp rw = Ok W /\ fst q = fst (snd W) ++ str_of "-sub" /\ make_polygon (placed f tr (upright ox oz aw ah)) None None = Ok (snd q).
Proof.
  unfold wall_with_aperture, vertical_wall, place_points. rewrite !(place_turned _ _ _ Tf Uu). cbn [rbind]. rewrite !map_map, wall_upright, aperture_upright. fold (placed f tr (upright 0 0 w h)) (placed f tr (upright ox oz aw ah)).
  destruct (named_polygon (or_random name rp) _) as [p|] eqn:N; [|discriminate]. cbn [rbind]. destruct (named_polygon (fst p ++ _) _) as [q'|] eqn:N'; [|discriminate]. cbn [rbind].
  unfold make_wall. destruct (validate_name _) as [n2|] eqn:V; [|discriminate]. cbn [rbind]. intros H. apply Ok_inj in H. inversion H. subst. cbn [snd]. split; auto. split; [apply (named_name _ _ _ N')|]. destruct q as (nq, q). apply (named_made _ _ _ N').
Qed.
Lemma ap_spec w h name rp rw aw ah ox oz W q : wall_with_aperture w h tr rv phi name rp rw aw ah ox oz = Ok (W, q) ->
  vertical_wall w h tr rv phi name rp rw = Ok W /\ fst q = fst (snd W) ++ str_of "-sub" /\ p_pts (snd q) = placed f tr (upright ox oz aw ah) /\
  p_area (snd q) = Rabs (aw * ah) /\ p_vn (snd q) = smul (aw * ah / Rabs (aw * ah)) (f (V 0 1 0)).
Proof. intros H. destruct (ap_inv _ _ _ _ _ _ _ _ _ _ _ H) as (A & B & M). destruct (upright_made _ _ _ _ _ M) as (C & D & _ & E). auto 6. Qed.
Lemma ap_flat w h name rp rw aw ah ox oz : Rabs (aw * ah) <= 1 / 100000000 -> exists e, wall_with_aperture w h tr rv phi name rp rw aw ah ox oz = Err e.
Proof. intros S. destruct (wall_with_aperture _ _ _ _ _ _ _ _ _ _ _ _) as [(W, q)|e] eqn:H; eauto. destruct (ap_inv _ _ _ _ _ _ _ _ _ _ _ H) as (_ & _ & M). destruct (upright_made _ _ _ _ _ M) as (_ & _ & D & _). lra. Qed.
(** Points of the plane of the wall. *)
Lemma para_coords w h x z : 0 < w -> 0 < h -> (in_para (placed f tr (upright 0 0 w h)) (vadd (f (V x 0 z)) tr) <-> 0 <= x <= w /\ 0 <= z <= h).
Proof.
  intros Hw Hh. split.
  - intros (a & b & c & d & s & t & E & Hs & Ht & Eq). injection E as <- <- <- <-.
    assert (X : f (V x 0 z) = f (V (s * w) 0 (t * h))).
    { assert (Y : vadd (vadd (f (V 0 0 0)) tr) (vadd (smul s (vsub (vadd (f (V (0 + w) 0 0)) tr) (vadd (f (V 0 0 0)) tr))) (smul t (vsub (vadd (f (V 0 0 (0 + h))) tr) (vadd (f (V 0 0 0)) tr)))) = vadd (f (V (s * w) 0 (t * h))) tr).
      { rewrite !vsub_shift, <- !(turn_sub _ _ _ Tf Uu), <- !(turn_smul _ _ _ Tf Uu), <- (turn_add _ _ _ Tf Uu). assert (Z : vadd (V 0 0 0) (vadd (smul s (vsub (V (0 + w) 0 0) (V 0 0 0))) (smul t (vsub (V 0 0 (0 + h)) (V 0 0 0)))) = V (s * w) 0 (t * h)) by (vunf; f_equal; ring). rewrite <- Z, (turn_add _ _ _ Tf Uu (V 0 0 0)).
        generalize (f (V 0 0 0)) (f (vadd (smul s (vsub (V (0 + w) 0 0) (V 0 0 0))) (smul t (vsub (V 0 0 (0 + h)) (V 0 0 0))))). intros a b. clear. dvec a; dvec b; dvec tr; vunf; f_equal; ring. }
      rewrite Y in Eq. revert Eq. generalize (f (V x 0 z)) (f (V (s * w) 0 (t * h))). clear. intros a b. dvec a; dvec b; dvec tr; vunf. intros E. injection E as E1 E2 E3. f_equal; lra. }
    apply (turn_inj _ _ _ Tf Uu) in X. injection X as -> ->. split; nra.
  - intros (Hx & Hz). do 4 eexists. exists (x / w), (z / h). split; [reflexivity|]. assert (Dx : 0 <= x / w <= 1). { split; [apply Rmult_le_pos; [lra|left; apply Rinv_0_lt_compat; lra]|]. apply (Rmult_le_reg_r w); auto. unfold Rdiv. rewrite Rmult_assoc, Rinv_l by lra. lra. }
    assert (Dz : 0 <= z / h <= 1). { split; [apply Rmult_le_pos; [lra|left; apply Rinv_0_lt_compat; lra]|]. apply (Rmult_le_reg_r h); auto. unfold Rdiv. rewrite Rmult_assoc, Rinv_l by lra. lra. }
    split; auto. split; auto. rewrite !vsub_shift, <- !(turn_sub _ _ _ Tf Uu), <- !(turn_smul _ _ _ Tf Uu), <- (turn_add _ _ _ Tf Uu). set (k := vadd _ _). assert (Z : V x 0 z = vadd (V 0 0 0) (vadd (smul (x / w) (vsub (V (0 + w) 0 0) (V 0 0 0))) (smul (z / h) (vsub (V 0 0 (0 + h)) (V 0 0 0))))) by (vunf; f_equal; field; lra).
    unfold k. rewrite Z, (turn_add _ _ _ Tf Uu (V 0 0 0)). generalize (f (V 0 0 0)) (f (vadd (smul (x / w) (vsub (V (0 + w) 0 0) (V 0 0 0))) (smul (z / h) (vsub (V 0 0 (0 + h)) (V 0 0 0))))). intros a b. clear. dvec a; dvec b; dvec tr; vunf; f_equal; ring.
Qed.
Lemma ap_inside w h name rp rw aw ah ox oz W q : 0 < w -> 0 < h -> 0 <= aw -> 0 <= ah -> wall_with_aperture w h tr rv phi name rp rw aw ah ox oz = Ok (W, q) ->
  ((forall x, In x (p_pts (snd q)) -> in_para (p_pts (snd (snd W))) x) <-> 0 <= ox /\ ox + aw <= w /\ 0 <= oz /\ oz + ah <= h).
Proof.
  intros Hw Hh Ha Hb H. destruct (ap_spec _ _ _ _ _ _ _ _ _ _ _ H) as (H1 & _ & Eq & _). destruct (vwall_spec _ _ _ _ _ _ H1) as (_ & _ & Ep & _). rewrite Eq, Ep. unfold placed at 1. split.
  - intros I. pose proof (proj1 (para_coords _ _ _ _ Hw Hh) (I _ (or_introl eq_refl))) as A. pose proof (proj1 (para_coords _ _ _ _ Hw Hh) (I _ (or_intror (or_intror (or_introl eq_refl))))) as B. lra.
  - intros (A & B & C & D) x [<-|[<-|[<-|[<-|[]]]]]; apply para_coords; auto; lra.
Qed.
(** When they are built. *)
Lemma norm_x a : norm (V a 0 0) = Rabs a.
Proof. rewrite <- sqrt_Rsqr_abs. unfold norm. f_equal. unfold Rsqr. vunf. ring. Qed.
Lemma upright_ok x z w h m : 1 / 1000 <= m -> m <= w <= 5000 * m -> m <= h <= 5000 * m -> Rabs x <= 2000 * m -> Rabs z <= 2000 * m -> norm tr <= 20000 * m ->
  exists p, make_polygon (placed f tr (upright x z w h)) None None = Ok p.
Proof.
  intros Hm Hw Hh Hx Hz Ht. set (o := vadd (f (V x 0 z)) tr). set (a := f (V 0 0 h)). set (b := f (V w 0 0)).
  assert (E : placed f tr (upright x z w h) = rect o a b).
  { unfold placed, upright, rect. cbn [map]. assert (E1 : V x 0 (z + h) = vadd (V x 0 z) (V 0 0 h)) by (vunf; f_equal; ring). assert (E2 : V (x + w) 0 (z + h) = vadd (vadd (V x 0 z) (V 0 0 h)) (V w 0 0)) by (vunf; f_equal; ring). assert (E3 : V (x + w) 0 z = vadd (V x 0 z) (V w 0 0)) by (vunf; f_equal; ring).
    rewrite E1, E2, E3, !(turn_add _ _ _ Tf Uu). unfold o, a, b. generalize (f (V x 0 z)) (f (V 0 0 h)) (f (V w 0 0)). intros p q r. clear. dvec p; dvec q; dvec r; dvec tr; vunf. each_point. }
  rewrite E. assert (Na : norm a = h) by (unfold a; rewrite (turn_norm _ _ _ Tf Uu), norm_up, Rabs_pos_eq by lra; auto). assert (Nb : norm b = w) by (unfold b; rewrite (turn_norm _ _ _ Tf Uu), norm_x, Rabs_pos_eq by lra; auto).
  destruct (rect_make o a b (f (V 0 1 0)) h w m) as (p & Mp & _); auto; [| | | |eauto].
  - unfold unit. rewrite (turn_dot _ _ _ Tf Uu). vunf. ring.
  - unfold a, b. rewrite (turn_dot _ _ _ Tf Uu). vunf. ring.
  - unfold a, b. rewrite (turn_cross' _ _ _ Tf Uu), <- (turn_smul _ _ _ Tf Uu). f_equal. vunf. f_equal; ring.
  - assert (No : norm o <= 24000 * m). { unfold o. pose proof (norm_triangle (f (V x 0 z)) tr) as T. rewrite (turn_norm _ _ _ Tf Uu) in T. assert (Vx : V x 0 z = vadd (V x 0 0) (V 0 0 z)) by (vunf; f_equal; ring). rewrite Vx in T at 2. pose proof (norm_triangle (V x 0 0) (V 0 0 z)) as T2. rewrite norm_x, norm_up in T2. lra. }
    pose proof (norm_triangle o a) as T1. pose proof (norm_triangle o b) as T2. pose proof (norm_triangle (vadd o a) b) as T3. intros q [<-|[<-|[<-|[<-|[]]]]]; lra.
Qed.
Lemma vwall_made w h name rp rw : (forall n, In n [or_random name rp; or_random name rw] -> validate_name n = Ok n) -> wall_fits w h 0 0 w h tr -> exists W, vertical_wall w h tr rv phi name rp rw = Ok W.
Proof.
  intros Hn (m & Hm & Hs & Hx & Hz & Ht). destruct (upright_ok 0 0 w h m) as (p & Mp); auto; try (apply Hs; cbn; tauto). unfold vertical_wall, place_points. rewrite (place_turned _ _ _ Tf Uu). cbn [rbind]. rewrite map_map, wall_upright. fold (placed f tr (upright 0 0 w h)).
  rewrite (named_ok _ _ _ (Hn _ (or_introl eq_refl)) Mp). cbn [rbind]. unfold make_wall. rewrite (Hn (or_random name rw)) by (cbn; tauto). cbn [rbind]. eauto.
Qed.
Lemma ap_made w h name rp rw aw ah ox oz : (forall n, In n [or_random name rp; or_random name rw] -> validate_name n = Ok n) -> wall_fits w h ox oz aw ah tr ->
  exists W q, wall_with_aperture w h tr rv phi name rp rw aw ah ox oz = Ok (W, q).
Proof.
  intros Hn (m & Hm & Hs & Hx & Hz & Ht). assert (Z0 : Rabs 0 <= 2000 * m) by (rewrite Rabs_R0; lra). destruct (upright_ok 0 0 w h m) as (p & Mp); auto; try (apply Hs; cbn; tauto). destruct (upright_ok ox oz aw ah m) as (q & Mq); auto; try (apply Hs; cbn; tauto).
  unfold wall_with_aperture. rewrite !(place_turned _ _ _ Tf Uu). cbn [rbind]. rewrite !map_map, wall_upright, aperture_upright. fold (placed f tr (upright 0 0 w h)) (placed f tr (upright ox oz aw ah)).
  pose proof (Hn _ (or_introl eq_refl)) as V1. rewrite (named_ok _ _ _ V1 Mp). cbn [rbind fst].
  assert (V2 : validate_name (or_random name rp ++ str_of "-sub") = Ok (or_random name rp ++ str_of "-sub")).
  { unfold validate_name in *. rewrite existsb_app. destruct (existsb _ (or_random name rp)); [discriminate|]. reflexivity. }
  rewrite (named_ok _ _ _ V2 Mq). cbn [rbind]. unfold make_wall. rewrite (Hn (or_random name rw)) by (cbn; tauto). cbn [rbind]. eauto.
Qed.
End Walls.
Lemma vwall_axis w h tr rv phi name rp rw aw ah ox oz : ~ idle rv phi -> 1 / 100000000 + 1 / 100000 < Rabs (norm rv - 1) ->
  vertical_wall w h tr rv phi name rp rw = Err AssertionError /\ wall_with_aperture w h tr rv phi name rp rw aw ah ox oz = Err AssertionError.
Proof.
  intros N D. unfold idle in N. assert (P : phi <> 0) by (intros ->; apply N; right; rewrite Rabs_R0; lra). assert (Rt : forall pts, rotate_points_around_vector pts rv phi = Err AssertionError).
  { intros pts. unfold rotate_points_around_vector. rewrite (proj2 (Rltb_false (norm rv) GEOM_ATOL)), (proj2 (Rltb_false (Rabs phi) GEOM_ATOL)) by (unfold GEOM_ATOL; lra). cbn [orb].
    rewrite rotation_not_unit; auto. unfold isclose. apply Rleb_false. unfold RTOL, ATOL8. rewrite Rabs_R1. lra. }
  unfold vertical_wall, wall_with_aperture, place_points. rewrite (proj2 (Reqb_false phi 0) P), !Rt. auto.
Qed.
