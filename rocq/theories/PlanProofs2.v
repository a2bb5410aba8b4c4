(** Floor plans. *)
From Coq Require Import Ascii String Reals List Bool Arith Lia Lra Permutation.
From Verif Require Import Prelude TreeModel IoModel VecModel VecProofs GeomModel GeomSpec GeomProofs1 GeomProofs2 GeomProofs3 GeomProofs4 GeomProofs5 TriModel TriSpec TriProofs TriProofs2 TriProofs3 PolyModel PolySpec PolyProofs1 PolyProofs2 SolidModel SolidSpec SolidProofs2 PlanSpec PlanProofs1.
Import ListNotations.
Local Open Scope R_scope.

Lemma unit_ez : unit ez.
Proof. unfold unit, ez. vunf. ring. Qed.
(** Placing the plan. *)
Lemma move_cases tr : allclose tr vzero RTOL ATOL8 = true <-> small_move tr.
Proof. apply allclose_zero. Qed.
Lemma turn_rodrigues phi p : rodrigues ez phi p = turn_z phi p.
Proof. unfold rodrigues, turn_z, ez. dvec p. vunf. f_equal; ring. Qed.
Lemma rotate_z pts phi r : 1 / 100000000 < Rabs phi -> rotate_points_around_vector pts ez phi = Ok r -> fst r = map (turn_z phi) pts.
Proof.
  intros H E. unfold rotate_points_around_vector in E. rewrite (unit_norm ez unit_ez) in E. replace (Rltb 1 GEOM_ATOL) with false in E by (symmetry; apply Rltb_false; unfold GEOM_ATOL; lra).
  replace (Rltb (Rabs phi) GEOM_ATOL) with false in E by (symmetry; apply Rltb_false; unfold GEOM_ATOL; lra). cbn [orb] in E. destruct (rotation_matrix ez phi) as [m|] eqn:M; [|discriminate]. cbn [rbind] in E. apply Ok_inj in E. subst r. cbn [fst]. unfold rotate_points. apply map_ext. intros p. rewrite (rotation_rodrigues ez phi m unit_ez M p). apply turn_rodrigues.
Qed.
Lemma plan_points_spec plan h tr phi fl ce z0 : plan_points plan h tr phi = Ok (fl, ce, z0) -> exists t, move_used tr t /\ fl = corners plan 0 t phi /\ ce = corners plan h t phi /\ z0 = vz t.
Proof.
  unfold plan_points. destruct plan as [|xy plan']; [discriminate|]. set (plan := xy :: plan'). set (fl0 := map (fun xy => V (fst xy) (snd xy) 0) plan). set (ce0 := map (fun xy => V (fst xy) (snd xy) h) plan).
  intros H. assert (Q : exists r, (if isclose phi 0 RTOL ATOL8 then Ok (fl0, ce0) else do a <- rotate_points_around_vector fl0 ez phi; do b <- rotate_points_around_vector ce0 ez phi; Ok (fst a, fst b)) = Ok r /\ fst r = map (place_turn phi) fl0 /\ snd r = map (place_turn phi) ce0).
  { assert (I : isclose phi 0 RTOL ATOL8 = true <-> Rabs phi <= 1 / 100000000) by (unfold isclose; rewrite Rleb_true, Rminus_0_r, Rabs_R0, Rmult_0_r, Rplus_0_r; unfold ATOL8; tauto).
    destruct (isclose phi 0 RTOL ATOL8).
    - exists (fl0, ce0). split; auto. cbn [fst snd]. split; (rewrite <- map_id at 1; apply map_ext; intros p; unfold place_turn; destruct (Rle_dec _ _) as [|K]; auto; destruct K; apply I; auto).
    - assert (K : ~ Rabs phi <= 1 / 100000000) by (intros K; apply I in K; discriminate). cbn [rbind] in H. destruct (rotate_points_around_vector fl0 ez phi) as [a|] eqn:A; [|discriminate]. cbn [rbind] in *. destruct (rotate_points_around_vector ce0 ez phi) as [b|] eqn:B; [|discriminate]. cbn [rbind] in *.
      exists (fst a, fst b). split; auto. cbn [fst snd]. rewrite (rotate_z fl0 phi a), (rotate_z ce0 phi b) by (auto; lra). split; apply map_ext; intros p; unfold place_turn; destruct (Rle_dec _ _); auto; contradiction. }
  destruct Q as (r & Q & E1 & E2). rewrite Q in H. cbn [rbind] in H. clear Q. unfold corners. destruct (allclose tr vzero RTOL ATOL8) eqn:M.
  - apply move_cases in M. apply Ok_inj in H. injection H as <- <- <-. exists vzero. split; [left; auto|]. rewrite E1, E2. unfold fl0, ce0. rewrite !map_map. split; [|split; auto]; apply map_ext; intros p; generalize (place_turn phi (V (fst p) (snd p) 0)), (place_turn phi (V (fst p) (snd p) h)); intros v w; dvec v; dvec w; vunf; f_equal; ring.
  - apply Ok_inj in H. injection H as <- <- <-. exists tr. split; [right; split; auto; intros K; apply move_cases in K; congruence|]. rewrite E1, E2. unfold fl0, ce0. rewrite !map_map. auto.
Qed.
Lemma plan_points_total plan h tr phi : plan <> [] -> exists r, plan_points plan h tr phi = Ok r.
Proof.
  intros N. unfold plan_points. destruct plan as [|xy plan']; [contradiction|]. set (f := map _ (xy :: plan')). set (c := map (fun xy => V (fst xy) (snd xy) h) _).
  assert (R : forall pts, exists r, rotate_points_around_vector pts ez phi = Ok r). { intros pts. unfold rotate_points_around_vector. destruct (_ || _); [eauto|]. destruct (rotation_ok ez phi unit_ez) as (m & ->). cbn [rbind]. eauto. }
  destruct (R f) as (a & ->), (R c) as (b & ->). cbn [rbind]. destruct (isclose phi 0 RTOL ATOL8); cbn [rbind]; destruct (allclose tr vzero RTOL ATOL8); eauto.
Qed.
Lemma place_z phi p : vz (place_turn phi p) = vz p.
Proof. unfold place_turn, turn_z. destruct (Rle_dec _ _); auto. Qed.
Lemma place_up phi x y h : place_turn phi (V x y h) = vadd (place_turn phi (V x y 0)) (V 0 0 h).
Proof. unfold place_turn, turn_z. destruct (Rle_dec _ _); vunf; f_equal; ring. Qed.
Lemma ceiling_up plan h t phi : corners plan h t phi = map (fun p => vadd p (V 0 0 h)) (corners plan 0 t phi).
Proof.
  unfold corners. rewrite map_map. apply map_ext. intros (x, y). cbn [fst snd]. rewrite place_up. generalize (place_turn phi (V x y 0)). intros v. dvec v; dvec t; vunf; f_equal; ring.
Qed.
Lemma dot_ez p : dot ez p = vz p.
Proof. unfold ez. dvec p. vunf. ring. Qed.
Lemma corners_plane plan z t phi : in_plane ez (z + vz t) (corners plan z t phi).
Proof.
  intros p I. unfold corners in I. apply in_map_iff in I. destruct I as ((x, y) & <- & _). rewrite dot_ez. cbn [fst snd]. unfold vadd. cbn [vz]. rewrite place_z. cbn [vz]. auto.
Qed.
(** The shape does not depend on the placing. *)
Lemma turn_cross phi p q : vz (cross (place_turn phi p) (place_turn phi q)) = vz (cross p q).
Proof.
  unfold place_turn, turn_z. destruct (Rle_dec _ _); auto. pose proof (cs1 phi) as C. dvec p; dvec q. vunf. match goal with |- ?l = ?r => replace l with (r * (cos phi * cos phi + sin phi * sin phi)) by ring end. replace (cos phi * cos phi + sin phi * sin phi) with 1; [ring|].
  clear - C. nra.
Qed.
Lemma area_z pts : vz (vector_area2 pts) = fold_right Rplus 0 (map (fun e => vz (cross (fst e) (snd e))) (cyc_pairs pts)).
Proof. unfold vector_area2. induction (cyc_pairs pts) as [|e r IH]; cbn [map fold_right]; auto. rewrite <- IH. reflexivity. Qed.
Lemma corners_area plan z t phi : dot ez (vector_area2 (corners plan z t phi)) = vz (vector_area2 (drawn plan)).
Proof.
  rewrite dot_ez. unfold corners. rewrite <- (map_map (fun xy => place_turn phi (V (fst xy) (snd xy) z)) (fun p => vadd p t)), vector_area2_shift. unfold drawn. rewrite !area_z, !cyc_pairs_map, !map_map. cbn [fst snd]. f_equal. apply map_ext. intros ((a, b), (c, d)). cbn [fst snd]. rewrite turn_cross. vunf. ring.
Qed.
Lemma place_sub phi p q : vsub (place_turn phi p) (place_turn phi q) = place_turn phi (vsub p q).
Proof. unfold place_turn, turn_z. destruct (Rle_dec _ _); auto. dvec p; dvec q; vunf; f_equal; ring. Qed.
Lemma vsub_shift a b t : vsub (vadd a t) (vadd b t) = vsub a b.
Proof. dvec a; dvec b; dvec t; vunf; f_equal; ring. Qed.
Lemma last_map' {A B} (f : A -> B) l d : last (map f l) (f d) = f (last l d).
Proof. apply last_map. Qed.
Lemma corners_turn plan z t phi : turn0 ez (corners plan z t phi) = turn0 ez (drawn plan).
Proof.
  destruct plan as [|a [|b plan]]; auto. unfold turn0, corners, drawn. set (f := fun xy => vadd (place_turn phi (V (fst xy) (snd xy) z)) t). set (g := fun xy : R * R => V (fst xy) (snd xy) 0). cbn [map].
  change (f a :: f b :: map f plan) with (map f (a :: b :: plan)). change (g a :: g b :: map g plan) with (map g (a :: b :: plan)). rewrite !last_map'. set (l := last _ a). rewrite !dot_ez. unfold f. rewrite !vsub_shift, !place_sub, turn_cross. unfold g. generalize l. intros (x, y). destruct a as (ax, ay), b as (bx, by_). vunf. cbn [fst snd]. ring.
Qed.
Lemma corners_convex plan z t phi : first_convex (corners plan z t phi) <-> first_convex (drawn plan).
Proof.
  assert (P : in_plane ez 0 (drawn plan)) by (intros p I; unfold drawn in I; apply in_map_iff in I; destruct I as (xy & <- & _); rewrite dot_ez; auto).
  rewrite (first_convex_turn ez _ _ unit_ez (corners_plane plan z t phi)), (first_convex_turn ez _ _ unit_ez P). rewrite corners_area, corners_turn, dot_ez. tauto.
Qed.
Lemma corners_rev plan z t phi : rev (corners plan z t phi) = corners (rev plan) z t phi.
Proof. unfold corners. rewrite map_rev. auto. Qed.
Lemma corners_last plan z t phi : last_convex (corners plan z t phi) <-> last_convex (drawn plan).
Proof. unfold last_convex. rewrite corners_rev, corners_convex. unfold drawn. rewrite map_rev. tauto. Qed.

(** Horizontal polygons. *)
Lemma smul_ez s : smul s ez = V 0 0 s.
Proof. unfold ez. vunf. f_equal; ring. Qed.
Lemma level_close s w : (s = 1 \/ s = -1) -> (w = 1 \/ w = -1) -> allclose (V 0 0 s) (V 0 0 w) RTOL ATOL8 = true <-> s = w.
Proof.
  intros S W. unfold allclose, isclose, RTOL, ATOL8. cbn [vx vy vz]. rewrite !andb_true_iff, !Rleb_true. rewrite !Rminus_0_r, !Rabs_R0. split.
  - intros (_ & H). destruct S as [->| ->], W as [->| ->]; auto; exfalso; unfold Rabs in H; repeat destruct (Rcase_abs _) in H; lra.
  - intros ->. rewrite Rminus_diag_eq, Rabs_R0 by auto. pose proof (Rabs_pos w). lra.
Qed.
Definition made_from (p : polygon) : Prop := exists pts0, (3 <= length pts0)%nat /\ triangulate_pts pts0 (p_vn p) = Ok (p_pts p, p_tri p).
Lemma made_made pts p : make_polygon pts None None = Ok p -> made_from p.
Proof. intros H. destruct (made_triangulated _ _ H) as (T & _ & L). exists pts. auto. Qed.
Lemma named_name name pts r : named_polygon name pts = Ok r -> fst r = name.
Proof.
  unfold named_polygon. destruct (check_polygon pts); [|discriminate]. cbn [rbind]. unfold validate_name. destruct (existsb _ _); [discriminate|]. cbn [rbind]. destruct (build_polygon pts None None); [|discriminate]. cbn [rbind]. intros H. apply Ok_inj in H. subst. auto.
Qed.
Lemma level_spec name rid pts w c nm p : (w = 1 \/ w = -1) -> in_plane ez c pts -> level_polygon name rid pts (V 0 0 w) = Ok (nm, p) ->
  let S := dot ez (vector_area2 pts) in let t0 := turn0 ez pts in
  made_from p /\ (3 <= length pts)%nat /\ S <> 0 /\ exists v, (v = 1 \/ v = -1) /\ p_vn p = V 0 0 v /\ 0 < v * dot ez (vector_area2 (p_pts p)) /\ (0 < v * S -> p_pts p = pts) /\ (v * S < 0 -> p_pts p = rev pts) /\
  ((0 < w * t0 /\ v = w /\ nm = name) \/ (w * t0 < 0 /\ nm = rid /\ (first_convex pts /\ last_convex pts /\ v = w \/ ~ (first_convex pts /\ last_convex pts) /\ v = - w))).
Proof.
  intros W P H S t0. unfold level_polygon in H. destruct (named_polygon name pts) as [(n1, p1)|] eqn:N; [|discriminate]. cbn [rbind snd] in H. pose proof (named_name _ _ _ N) as En. cbn [fst] in En. subst n1. apply named_made in N. cbn [snd] in N.
  destruct (made_plane ez c pts p1 unit_ez P N) as (s & Ss & Ev & T0 & Ar & K & Rv). fold S in K, Rv. fold t0 in T0. destruct (made_triangulated _ _ N) as (T & _ & L). rewrite smul_ez in Ev. rewrite Ev in H.
  assert (SN : S <> 0) by (destruct (Rle_lt_dec (s * S) 0) as [X|X]; [destruct (Rv X); nra|nra]).
  destruct (made_orient ez c pts p1 unit_ez P N) as (_ & _ & _ & C1 & C2).
  destruct (allclose (V 0 0 s) (V 0 0 w) RTOL ATOL8) eqn:A.
  - apply level_close in A; auto. subst s. apply Ok_inj in H. injection H as <- <-. split; [eapply made_made; eauto|]. split; auto. split; auto. exists w. repeat (split; [auto; fail|]). split; [intros; apply Rv; lra|]. left. auto.
  - assert (s = - w) as -> by (destruct Ss as [->| ->], W as [->| ->]; try lra; exfalso; rewrite (proj2 (level_close _ _ (or_introl eq_refl) (or_introl eq_refl))) in A || rewrite (proj2 (level_close _ _ (or_intror eq_refl) (or_intror eq_refl))) in A; auto; discriminate).
    unfold flip_named in H. pose proof (named_name _ _ _ H) as En. cbn [fst] in En. subst nm. apply named_made in H. cbn [snd] in H. split; [eapply made_made; eauto|]. split; auto. split; auto.
    destruct (flip_orient ez c p1 p pts unit_ez P N H) as (_ & F1 & F2). destruct (made_plane ez c (rev (p_pts p1)) p unit_ez) as (v & Sv & Ev' & _ & Ar' & _); auto.
    { destruct (tri_structure _ _ _ _ L T) as (Q & _). intros q I. apply P. apply in_rev in I. destruct Q as [Q|Q]; rewrite Q in I; auto. apply in_rev; auto. }
    rewrite smul_ez in Ev'. exists v. split; auto. split; auto. split; auto.
    assert (Pp : p_pts p = pts \/ p_pts p = rev pts). { destruct (tri_structure _ _ _ _ L T) as (Q & _). destruct (made_triangulated _ _ H) as (T' & _ & L'). destruct (tri_structure _ _ _ _ L' T') as (Q' & _). destruct Q as [Q|Q], Q' as [Q'|Q']; rewrite Q in Q'; rewrite ?rev_involutive in Q'; auto. }
    assert (Sr : dot ez (vector_area2 (rev pts)) = - S) by (rewrite vector_area2_rev; unfold S; rewrite !dot_ez; unfold vopp, smul; cbn [vz]; ring).
    assert (O : (0 < v * S -> p_pts p = pts) /\ (v * S < 0 -> p_pts p = rev pts)). { split; intros X; destruct Pp as [Q|Q]; auto; rewrite Q in Ar'; exfalso; rewrite ?Sr in Ar'; fold S in Ar'; lra. }
    split; [apply O|]. split; [apply O|]. right. split; [lra|]. split; auto.
    assert (V0 : forall a b, V 0 0 a = V 0 0 b -> a = b) by (intros a b X; injection X; auto). assert (VO : forall a, vopp (V 0 0 a) = V 0 0 (- a)) by (intros; unfold vopp, smul; cbn [vx vy vz]; f_equal; ring).
    assert (DF : first_convex pts \/ ~ first_convex pts) by (rewrite (first_convex_turn ez c pts unit_ez P); destruct (Rlt_dec 0 (turn0 ez pts * dot ez (vector_area2 pts))); auto).
    assert (DL : last_convex pts \/ ~ last_convex pts). { unfold last_convex. assert (P2 : in_plane ez c (rev pts)) by (intros q I; apply P, in_rev; auto). rewrite (first_convex_turn ez c _ unit_ez P2). destruct (Rlt_dec 0 (turn0 ez (rev pts) * dot ez (vector_area2 (rev pts)))); auto. }
    destruct DF as [F|F].
    + rewrite (C1 F) in *. destruct DL as [D|D].
      * left. split; auto. split; auto. destruct (F1 D) as (_ & X). rewrite Ev, Ev', VO in X. apply V0 in X. lra.
      * right. split; [tauto|]. destruct (F2 D) as (_ & X). rewrite Ev, Ev' in X. apply V0 in X. auto.
    + right. split; [tauto|]. rewrite (C2 F) in *. destruct F2 as (_ & X); [unfold last_convex; rewrite rev_involutive; auto|]. rewrite Ev, Ev' in X. apply V0 in X. auto.
Qed.
