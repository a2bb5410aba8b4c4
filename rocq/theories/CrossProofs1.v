(** Crossing and touching polygons: results for all polygons. *)
From Coq Require Import Reals List Bool Arith Lia Lra ZArith Permutation.
From Verif Require Import Prelude VecModel VecProofs GeomModel GeomSpec GeomProofs1 GeomProofs2 GeomProofs3 GeomProofs4 GeomProofs5 TriModel TriSpec TriProofs TriProofs2 PolyModel PolySpec PolyProofs1 VisModel VisSpec VisProofs CrossSpec.
Import ListNotations.
Local Open Scope R_scope.

Lemma anyM_total {A} (f : A -> result bool) l : (forall x, In x l -> exists b, f x = Ok b) -> exists b, anyM f l = Ok b.
Proof.
  induction l as [|x l IH]; intros H; [eexists; reflexivity|]. cbn [anyM]. destruct (H x (or_introl eq_refl)) as ([|] & ->); cbn [rbind]; [eexists; reflexivity|].
  apply IH. intros y I. apply H. right; auto.
Qed.
Lemma anyM_found {A} (f : A -> result bool) l : (forall x, In x l -> exists b, f x = Ok b) -> (exists x, In x l /\ f x = Ok true) -> anyM f l = Ok true.
Proof.
  intros T (x & I & E). destruct (anyM_total f l T) as ([|] & H); auto. rewrite (proj1 (anyM_false f l) H x I) in E. discriminate.
Qed.

Lemma loop_total q pts ts bin atol : pts <> [] -> good_mesh pts ts -> exists b, inside_loop q pts bin atol ts = Ok b.
Proof.
  intros N. induction ts as [|t ts IH]; intros G; [eexists; reflexivity|]. cbn [inside_loop].
  destruct (G t (or_introl eq_refl)) as (a & b & c & T & A). apply tri_pts_spec in T. rewrite T. cbn [rbind].
  destruct (inside_total a b c q) as ([|] & ->); [unfold GEOM_ATOL; lra| |]; cbn [rbind].
  - destruct bin; [eexists; reflexivity|]. unfold is_point_at_boundary. rewrite polygon_edges_eq by auto. cbn [rbind]. eexists; reflexivity.
  - apply IH. intros t' I. apply G. right; auto.
Qed.
Lemma inside_poly_total q pts ts bin atol : pts <> [] -> good_mesh pts ts -> exists b, is_point_inside q pts ts bin atol = Ok b.
Proof.
  intros N G. unfold is_point_inside. destruct (inside_bbox_spec q pts (1 / 100) N) as (bb & -> & _). cbn [rbind]. destruct bb; cbn [negb]; [|eexists; reflexivity].
  destruct (coplanar_total (pts ++ [q]) atol) as ([|] & ->); cbn [rbind negb]; [apply loop_total; auto|eexists; reflexivity].
Qed.

Lemma pair_total pts1 ts1 pts2 ts2 e1 e2 : pts1 <> [] -> pts2 <> [] -> good_mesh pts1 ts1 -> good_mesh pts2 ts2 -> fst e1 <> snd e1 -> fst e2 <> snd e2 ->
  exists b, crossing_pair pts1 ts1 pts2 ts2 e1 e2 = Ok b.
Proof.
  intros N1 N2 G1 G2 D1 D2. unfold crossing_pair. match goal with |- context [if ?c then _ else _] => destruct c end; [eexists; reflexivity|].
  destruct (line_segment_intersection _ _ _ _) as [q|]; [|eexists; reflexivity].
  assert (T : forall e, fst e <> snd e -> exists d, distance_point_to_edge q (fst e) (snd e) = Ok d).
  { intros e D. destruct (distance_point_to_edge q (fst e) (snd e)) as [d|err] eqn:E; [eauto|]. destruct (dist_edge_min q _ _ D) as (d & E' & _). congruence. }
  destruct (T e1 D1) as (d1 & ->). cbn [rbind]. destruct (T e2 D2) as (d2 & ->). cbn [rbind].
  assert (X : exists b, anyM (fun x => do a <- is_point_inside (new_point_between (fst e1) (snd e1) x) pts2 ts2 false GEOM_ATOL; if a then Ok true else is_point_inside (new_point_between (fst e2) (snd e2) x) pts1 ts1 false GEOM_ATOL) (linspace01 10) = Ok b).
  { apply anyM_total. intros x _. destruct (inside_poly_total (new_point_between (fst e1) (snd e1) x) pts2 ts2 false GEOM_ATOL N2 G2) as ([|] & ->); cbn [rbind]; [eexists; reflexivity|]. apply inside_poly_total; auto. }
  destruct (isclose d1 0 RTOL ATOL8); cbn [rbind]; auto. destruct (isclose d2 0 RTOL ATOL8); auto. eexists; reflexivity.
Qed.
Lemma bbox_total pts : pts <> [] -> exists b, bounding_box pts = Ok b.
Proof. intros N. destruct (bbox_spec pts N) as (lo & hi & E & _). eauto. Qed.
Lemma crossing_total pts1 ts1 pts2 ts2 : pts1 <> [] -> pts2 <> [] -> good_mesh pts1 ts1 -> good_mesh pts2 ts2 -> real_edges pts1 -> real_edges pts2 ->
  exists b, are_polygons_crossing pts1 ts1 pts2 ts2 = Ok b.
Proof.
  intros N1 N2 G1 G2 R1 R2. unfold are_polygons_crossing. destruct (bbox_total pts1 N1) as (b1 & ->). destruct (bbox_total pts2 N2) as (b2 & ->). cbn [rbind].
  destruct (are_bboxes_overlapping b1 b2); cbn [negb]; [|eexists; reflexivity]. destruct (coplanar_total (pts1 ++ pts2) GEOM_ATOL) as ([|] & ->); cbn [rbind negb]; [|eexists; reflexivity].
  rewrite !polygon_edges_eq by auto. cbn [rbind]. apply anyM_total. intros e1 I1. apply anyM_total. intros e2 I2. apply pair_total; auto.
Qed.

Lemma overlap_meet l1 l2 b1 b2 : bounding_box l1 = Ok b1 -> bounding_box l2 = Ok b2 -> (are_bboxes_overlapping b1 b2 = true <-> boxes_meet l1 l2).
Proof.
  intros E1 E2. assert (N1 : l1 <> []) by (intros ->; rewrite bbox_empty in E1; discriminate). assert (N2 : l2 <> []) by (intros ->; rewrite bbox_empty in E2; discriminate).
  destruct (bbox_spec l1 N1) as (lo1 & hi1 & F1 & S1). destruct (bbox_spec l2 N2) as (lo2 & hi2 & F2 & S2).
  rewrite F1 in E1. injection E1 as <-. rewrite F2 in E2. injection E2 as <-.
  assert (P1 : exists p, in_bbox (lo1, hi1) p). { destruct l1 as [|p l]; [congruence|]. exists p. intros c Ic. apply (proj1 (S1 c Ic)). left; auto. }
  assert (P2 : exists p, in_bbox (lo2, hi2) p). { destruct l2 as [|p l]; [congruence|]. exists p. intros c Ic. apply (proj1 (S2 c Ic)). left; auto. }
  rewrite (overlap_spec _ _ P1 P2). unfold boxes_meet. split; intros (p & H); exists p.
  - destruct H as (H1 & H2). intros c Ic. pose proof (H1 c Ic) as X1. pose proof (H2 c Ic) as X2. cbn [fst snd] in X1, X2.
    destruct (S1 c Ic) as (_ & (a1 & A1 & B1) & (a2 & A2 & B2)). destruct (S2 c Ic) as (_ & (c1 & C1 & D1) & (c2 & C2 & D2)).
    split; [exists a1, a2|exists c1, c2]; (split; [auto|split; [auto|lra]]).
  - split; intros c Ic; cbn [fst snd]; destruct (H c Ic) as ((a1 & a2 & A1 & A2 & A3) & (c1 & c2 & C1 & C2 & C3)).
    + pose proof (proj1 (S1 c Ic) a1 A1). pose proof (proj1 (S1 c Ic) a2 A2). lra.
    + pose proof (proj1 (S2 c Ic) c1 C1). pose proof (proj1 (S2 c Ic) c2 C2). lra.
Qed.
Lemma crossing_false_box pts1 ts1 pts2 ts2 : pts1 <> [] -> pts2 <> [] -> ~ boxes_meet pts1 pts2 -> are_polygons_crossing pts1 ts1 pts2 ts2 = Ok false.
Proof.
  intros N1 N2 D. unfold are_polygons_crossing. destruct (bbox_total pts1 N1) as (b1 & E1). destruct (bbox_total pts2 N2) as (b2 & E2). rewrite E1, E2. cbn [rbind].
  pose proof (overlap_meet _ _ _ _ E1 E2). destruct (are_bboxes_overlapping b1 b2); cbn [negb]; auto. tauto.
Qed.
Lemma crossing_false_plane pts1 ts1 pts2 ts2 : pts1 <> [] -> pts2 <> [] -> are_points_coplanar (pts1 ++ pts2) GEOM_ATOL = Ok false -> are_polygons_crossing pts1 ts1 pts2 ts2 = Ok false.
Proof.
  intros N1 N2 D. unfold are_polygons_crossing. destruct (bbox_total pts1 N1) as (b1 & E1). destruct (bbox_total pts2 N2) as (b2 & E2). rewrite E1, E2. cbn [rbind].
  destruct (are_bboxes_overlapping b1 b2); cbn [negb]; auto. rewrite D. reflexivity.
Qed.

Lemma linspace_div m x : (1 <= m)%nat -> In x (linspace01 (S m)) <-> exists k, (k <= m)%nat /\ x = INR k / INR m.
Proof.
  intros M. unfold linspace01. rewrite in_map_iff. replace (S m - 1)%nat with m by lia. split.
  - intros (k & <- & I). apply in_seq in I. exists k. split; [lia|auto].
  - intros (k & L & ->). exists k. split; auto. apply in_seq. lia.
Qed.
Lemma between_seg a b x : new_point_between a b x = seg_point a b x.
Proof. unfold new_point_between, seg_point. vring. Qed.
Lemma point_equal_refl p : points_equal p p = true.
Proof. apply points_equal_refl. Qed.

Lemma pair_sound_any pts1 ts1 pts2 ts2 e1 e2 : crossing_pair pts1 ts1 pts2 ts2 e1 e2 = Ok true ->
  exists q, line_segment_intersection (fst e1) (snd e1) (fst e2) (snd e2) = Some q /\ ~ share_end e1 e2 /\
  ((exists k, (k <= 9)%nat /\ (strictly_in pts2 ts2 (seg_point (fst e1) (snd e1) (INR k / INR 9)) \/ strictly_in pts1 ts1 (seg_point (fst e2) (snd e2) (INR k / INR 9)))) \/
   (forall w, on_segment (fst e1) (snd e1) w \/ on_segment (fst e2) (snd e2) w -> 1 / 100000000 < dist q w)).
Proof.
  unfold crossing_pair. match goal with |- context [if ?c then _ else _] => destruct c eqn:C end; [discriminate|].
  destruct (line_segment_intersection _ _ _ _) as [q|]; [|discriminate]. intros H. exists q. split; auto. split.
  { intros S. apply orb_false_iff in C. destruct C as (C & C4). apply orb_false_iff in C. destruct C as (C & C3). apply orb_false_iff in C. destruct C as (C1 & C2).
    destruct S as [S|[S|[S|S]]]; rewrite S, point_equal_refl in *; discriminate. }
  destruct (distance_point_to_edge q (fst e1) (snd e1)) as [d1|] eqn:E1; [|discriminate]. cbn [rbind] in H.
  assert (K : anyM (fun x =>
            do a <- is_point_inside (new_point_between (fst e1) (snd e1) x) pts2 ts2 false GEOM_ATOL;
            if a then Ok true else is_point_inside (new_point_between (fst e2) (snd e2) x) pts1 ts1 false GEOM_ATOL) (linspace01 10) = Ok true ->
     exists k, (k <= 9)%nat /\ (strictly_in pts2 ts2 (seg_point (fst e1) (snd e1) (INR k / INR 9)) \/ strictly_in pts1 ts1 (seg_point (fst e2) (snd e2) (INR k / INR 9)))).
  { intros A. apply anyM_true in A. destruct A as (x & Ix & Fx). change 10%nat with (S 9) in Ix. apply linspace_div in Ix; [|lia]. destruct Ix as (k & Lk & ->).
    destruct (is_point_inside (new_point_between (fst e1) (snd e1) _) pts2 ts2 false GEOM_ATOL) as [[|]|] eqn:B; [| |discriminate]; cbn [rbind] in Fx; rewrite between_seg in *.
    - exists k. split; [exact Lk|left; exact B].
    - exists k. split; [exact Lk|right; exact Fx]. }
  assert (Dd : forall e d, distance_point_to_edge q (fst e) (snd e) = Ok d -> isclose d 0 RTOL ATOL8 = false -> forall w, on_segment (fst e) (snd e) w -> 1 / 100000000 < dist q w).
  { intros e d E F w W. destruct (vec_eq_dec (fst e) (snd e)) as [Q|Q].
    - exfalso. apply (proj2 (dist_edge_err q (fst e) (snd e))) in Q. congruence.
    - destruct (dist_edge_min q (fst e) (snd e) Q) as (d' & E' & (w0 & W0 & Ew) & M). rewrite E in E'. injection E' as <-. specialize (M w W).
      unfold isclose in F. apply Rleb_false in F. rewrite Rminus_0_r, Rabs_R0, Rmult_0_r, Rplus_0_r in F. unfold ATOL8 in F.
      assert (0 <= d) by (rewrite Ew; unfold dist, norm; apply sqrt_pos). rewrite Rabs_pos_eq in F by lra. lra. }
  destruct (isclose d1 0 RTOL ATOL8) eqn:F1; cbn [rbind] in H; [left; auto|].
  destruct (distance_point_to_edge q (fst e2) (snd e2)) as [d2|] eqn:E2; [|discriminate]. cbn [rbind] in H.
  destruct (isclose d2 0 RTOL ATOL8) eqn:F2; [left; auto|]. right. intros w [W|W]; [apply (Dd e1 d1)|apply (Dd e2 d2)]; auto.
Qed.
Lemma crossing_pairs pts1 ts1 pts2 ts2 : are_polygons_crossing pts1 ts1 pts2 ts2 = Ok true -> exists e1 e2, In e1 (cyc_pairs pts1) /\ In e2 (cyc_pairs pts2) /\ crossing_pair pts1 ts1 pts2 ts2 e1 e2 = Ok true.
Proof.
  unfold are_polygons_crossing. destruct (bounding_box pts1) as [b1|] eqn:E1; [|discriminate]. destruct (bounding_box pts2) as [b2|] eqn:E2; [|discriminate]. cbn [rbind].
  destruct (are_bboxes_overlapping b1 b2) eqn:O; [|discriminate]. cbn [negb]. destruct (are_points_coplanar (pts1 ++ pts2) GEOM_ATOL) as [[|]|]; try discriminate. cbn [rbind negb].
  assert (N1 : pts1 <> []) by (intros ->; rewrite bbox_empty in E1; discriminate). assert (N2 : pts2 <> []) by (intros ->; rewrite bbox_empty in E2; discriminate).
  rewrite !polygon_edges_eq by auto. cbn [rbind]. intros H. apply anyM_true in H. destruct H as (e1 & I1 & H). apply anyM_true in H. destruct H as (e2 & I2 & H). eauto.
Qed.
Lemma crossing_sound pts1 ts1 pts2 ts2 : are_polygons_crossing pts1 ts1 pts2 ts2 = Ok true ->
  boxes_meet pts1 pts2 /\ are_points_coplanar (pts1 ++ pts2) GEOM_ATOL = Ok true /\
  exists e1 e2 q, In e1 (cyc_pairs pts1) /\ In e2 (cyc_pairs pts2) /\ line_segment_intersection (fst e1) (snd e1) (fst e2) (snd e2) = Some q /\ ~ share_end e1 e2 /\
  ((exists k, (k <= 9)%nat /\ (strictly_in pts2 ts2 (seg_point (fst e1) (snd e1) (INR k / INR 9)) \/ strictly_in pts1 ts1 (seg_point (fst e2) (snd e2) (INR k / INR 9)))) \/
   (forall w, on_segment (fst e1) (snd e1) w \/ on_segment (fst e2) (snd e2) w -> 1 / 100000000 < dist q w)).
Proof.
  unfold are_polygons_crossing. destruct (bounding_box pts1) as [b1|] eqn:E1; [|discriminate]. destruct (bounding_box pts2) as [b2|] eqn:E2; [|discriminate]. cbn [rbind].
  destruct (are_bboxes_overlapping b1 b2) eqn:O; [|discriminate]. cbn [negb]. destruct (are_points_coplanar (pts1 ++ pts2) GEOM_ATOL) as [[|]|]; try discriminate. cbn [rbind negb].
  assert (N1 : pts1 <> []) by (intros ->; rewrite bbox_empty in E1; discriminate). assert (N2 : pts2 <> []) by (intros ->; rewrite bbox_empty in E2; discriminate).
  rewrite !polygon_edges_eq by auto. cbn [rbind]. intros H. apply anyM_true in H. destruct H as (e1 & I1 & H). apply anyM_true in H. destruct H as (e2 & I2 & H).
  split; [apply (overlap_meet _ _ _ _ E1 E2); auto|]. split; auto. destruct (pair_sound_any _ _ _ _ _ _ H) as (q & A & B & C). exists e1, e2, q. auto.
Qed.

(** The tolerant segment test, in terms of [seems_on]. *)
Lemma on_seems e q : fst e <> snd e -> is_point_on_segment q (fst e) (snd e) GEOM_ATOL = true -> seems_on e q.
Proof.
  destruct e as (a, b). cbn [fst snd]. intros D H. apply segment_sound in H; [|unfold GEOM_ATOL; lra|auto]. exact H.
Qed.
Lemma seg_inter_sound a1 b1 a2 b2 q : line_segment_intersection a1 b1 a2 b2 = Some q -> a1 <> b1 /\ a2 <> b2 /\ seems_on (a1, b1) q /\ seems_on (a2, b2) q.
Proof.
  intros H. apply segment_meet_sound in H. destruct H as (L & A & B). apply intersection_sound in L. destruct L as (Z1 & Z2 & _).
  assert (NZ : forall a b, ~ seem_zero (vsub b a) -> a <> b).
  { intros a b Z ->. apply Z. unfold seem_zero. replace (vsub b b) with vzero by vring. apply allclose_refl; unfold RTOL, ATOL8; lra. }
  split; [auto|]. split; [auto|]. split; apply on_seems; auto; apply NZ; auto.
Qed.
Lemma crossing_apart pts1 ts1 pts2 ts2 : pts1 <> [] -> pts2 <> [] ->
  (forall e1 e2, In e1 (cyc_pairs pts1) -> In e2 (cyc_pairs pts2) -> share_end e1 e2 \/ forall q, ~ (seems_on e1 q /\ seems_on e2 q)) ->
  are_polygons_crossing pts1 ts1 pts2 ts2 = Ok false.
Proof.
  intros N1 N2 H. unfold are_polygons_crossing. destruct (bbox_total pts1 N1) as (b1 & ->). destruct (bbox_total pts2 N2) as (b2 & ->). cbn [rbind].
  destruct (are_bboxes_overlapping b1 b2); cbn [negb]; auto. destruct (coplanar_total (pts1 ++ pts2) GEOM_ATOL) as ([|] & ->); cbn [rbind negb]; auto.
  rewrite !polygon_edges_eq by auto. cbn [rbind]. apply anyM_false. intros e1 I1. apply anyM_false. intros e2 I2. unfold crossing_pair.
  destruct (H e1 e2 I1 I2) as [S|A].
  - replace (_ || _ || _ || _) with true; auto. symmetry. destruct S as [S|[S|[S|S]]]; rewrite S, point_equal_refl, ?orb_true_r; auto.
  - match goal with |- context [if ?c then _ else _] => destruct c end; auto. destruct (line_segment_intersection _ _ _ _) as [q|] eqn:L; auto. exfalso.
    apply seg_inter_sound in L. destruct e1, e2. cbn [fst snd] in L. apply (A q). tauto.
Qed.
Lemma crossing_same pts ts ts' pts' : pts <> [] -> rotation_of pts pts' \/ rotation_of (rev pts) pts' ->
  (forall e1 e2, In e1 (cyc_pairs pts) -> In e2 (cyc_pairs pts) -> share_end e1 e2 \/ forall q, ~ (seems_on e1 q /\ seems_on e2 q)) ->
  are_polygons_crossing pts ts pts' ts' = Ok false.
Proof.
  intros N R H. assert (Q : forall a b q, seems_on (a, b) q -> seems_on (b, a) q).
  { intros a b q [A|[A|(t & A & B)]]; [right; left; auto|left; auto|right; right]. exists (1 - t).
    assert (Dd : dist b a = dist a b) by (unfold dist, norm; f_equal; vunf; ring). rewrite Dd. replace (seg_point b a (1 - t)) with (seg_point a b t) by (unfold seg_point; vring). split; [exact A|lra]. }
  assert (N' : pts' <> []).
  { intros ->. destruct R as [(a & b & Ea & Eb)|(a & b & Ea & Eb)]; symmetry in Eb; apply app_eq_nil in Eb; destruct Eb as (-> & ->); cbn [app] in Ea; [auto|]. apply N. rewrite <- (rev_involutive pts), Ea. auto. }
  apply crossing_apart; auto. intros e1 e2 I1 I2. destruct R as [R|R].
  - apply H; auto. apply (Permutation_in _ (Permutation_sym (cyc_pairs_rotation _ _ R))). auto.
  - apply (Permutation_in _ (Permutation_sym (cyc_pairs_rotation _ _ R))) in I2. apply (Permutation_in _ (cyc_pairs_rev pts)) in I2. apply in_map_iff in I2. destruct I2 as ((a, b) & <- & I2).
    unfold GeomProofs3.swap. cbn [fst snd]. destruct (H e1 (a, b) I1 I2) as [S|A].
    + left. unfold share_end in *. cbn [fst snd] in *. tauto.
    + right. intros q (A1 & A2). apply (A q). split; auto.
Qed.

(** Touching polygons. *)
Lemma check_spec pts_a ts_a : pts_a <> [] -> good_mesh pts_a ts_a -> forall pts_b prev bnd ins, exists bnd' ins', check_loop pts_a ts_a prev pts_b bnd ins = Ok (bnd', ins') /\
  (bnd' = true <-> bnd = true \/ exists v e, In v pts_b /\ In e (cyc_pairs pts_a) /\ is_point_on_segment v (fst e) (snd e) GEOM_ATOL = true) /\
  (ins' = true <-> ins = true \/ exists a b k, In (a, b) (combine (prev :: pts_b) pts_b) /\ (k <= 4)%nat /\ strictly_in pts_a ts_a (seg_point a b (INR k / INR 4))).
Proof.
  intros N G pts_b. induction pts_b as [|p r IH]; intros prev bnd ins.
  - exists bnd, ins. split; [reflexivity|]. split; (split; [auto|intros [H|H]; auto]); [destruct H as (v & e & [] & _)|destruct H as (a & b & k & [] & _)].
  - cbn [check_loop].
    assert (T : forall x, In x (linspace01 5) -> exists b, is_point_inside (new_point_between prev p x) pts_a ts_a false GEOM_ATOL = Ok b) by (intros; apply inside_poly_total; auto).
    destruct (anyM_total _ _ T) as (mid & Em). rewrite Em. cbn [rbind]. unfold is_point_at_boundary. rewrite polygon_edges_eq by auto. cbn [rbind].
    destruct (inside_poly_total p pts_a ts_a false GEOM_ATOL N G) as (i & Ei). rewrite Ei. cbn [rbind].
    set (at_b := existsb (fun e => is_point_on_segment p (fst e) (snd e) GEOM_ATOL) (cyc_pairs pts_a)).
    destruct (IH p (if at_b then true else bnd) (if mid || i then true else ins)) as (bnd' & ins' & -> & B & I). exists bnd', ins'. split; auto. split.
    + rewrite B. assert (A : at_b = true <-> exists e, In e (cyc_pairs pts_a) /\ is_point_on_segment p (fst e) (snd e) GEOM_ATOL = true) by (apply existsb_exists).
      split.
      * intros [H|(v & e & Iv & Ie & H)]; [|right; exists v, e; split; [right; auto|auto]]. destruct at_b; auto. right. destruct (proj1 A eq_refl) as (e & Ie & He). exists p, e. split; [left; auto|auto].
      * intros [->|(v & e & [<-|Iv] & Ie & H)]; [left; destruct at_b; auto| |right; exists v, e; auto]. left. rewrite (proj2 A) by eauto. auto.
    + rewrite I. assert (M : mid || i = true <-> exists k, (k <= 4)%nat /\ strictly_in pts_a ts_a (seg_point prev p (INR k / INR 4))).
      { split.
        - intros H. apply orb_true_iff in H. destruct H as [->| ->].
          + apply anyM_true in Em. destruct Em as (x & Ix & Hx). change 5%nat with (S 4) in Ix. apply linspace_div in Ix; [|lia]. destruct Ix as (k & Lk & ->). rewrite between_seg in Hx. exists k. auto.
          + exists 4%nat. split; auto. replace (INR 4 / INR 4) with 1 by (cbn [INR]; field). replace (seg_point prev p 1) with p by (unfold seg_point; vring). exact Ei.
        - intros (k & Lk & H). apply orb_true_iff. left. destruct mid; auto.
          pose proof (proj1 (anyM_false _ _) Em (INR k / INR 4)) as X. cbv beta in X. rewrite between_seg in X. unfold strictly_in in H. rewrite X in H; [discriminate|]. change 5%nat with (S 4). apply linspace_div; [lia|eauto]. }
      cbn [combine]. split.
      * intros [H|(a & b & k & Iab & X)]; [|right; exists a, b, k; split; [right; auto|auto]]. destruct (mid || i) eqn:Q; auto. right. destruct (proj1 M eq_refl) as (k & X). exists prev, p, k. split; [left; auto|auto].
      * intros [->|(a & b & k & [Q|Iab] & X)]; [left; destruct (mid || i); auto| |right; exists a, b, k; auto]. injection Q as <- <-. left. rewrite (proj2 M) by eauto. auto.
Qed.
Lemma cyc_prev {A} (l : list A) d e : l <> [] -> In e (combine (last l d :: l) l) <-> In e (cyc_pairs l).
Proof.
  intros N. destruct (exists_last N) as (m & z & ->). rewrite last_last.
  assert (C : combine (z :: m ++ [z]) (m ++ [z]) = cyc_pairs (z :: m)).
  { unfold cyc_pairs. change (z :: m ++ [z]) with ((z :: m) ++ [z]).
    assert (G : forall (l1 l2 l3 : list A), length l1 = length l2 -> combine (l1 ++ l3) l2 = combine l1 l2).
    { induction l1 as [|a l1 IH]; intros [|b l2] l3 L; try discriminate; cbn [app combine]; [destruct l3; auto|]. f_equal. apply IH. simpl in L. lia. }
    apply G. rewrite app_length. simpl. lia. }
  rewrite C. assert (R : rotation_of (z :: m) (m ++ [z])) by (exists [z], m; auto).
  split; intros H; [apply (Permutation_in _ (cyc_pairs_rotation _ _ R))|apply (Permutation_in _ (Permutation_sym (cyc_pairs_rotation _ _ R)))]; auto.
Qed.
Lemma check_against pts_a ts_a pts_b : pts_a <> [] -> pts_b <> [] -> good_mesh pts_a ts_a -> exists bnd ins, check_a_against_b pts_a ts_a pts_b = Ok (bnd, ins) /\
  (bnd = true <-> meets_outline pts_a pts_b) /\ (ins = true <-> exists w, division_point 4 pts_b w /\ strictly_in pts_a ts_a w).
Proof.
  intros N Nb G. destruct (check_spec pts_a ts_a N G pts_b (last pts_b (hd vzero pts_b)) false false) as (bnd & ins & E & B & I). exists bnd, ins. split; [|split].
  - unfold check_a_against_b. destruct pts_b as [|p r]; [congruence|]. exact E.
  - rewrite B. unfold meets_outline. split; [intros [H|H]; [discriminate|auto]|auto].
  - rewrite I. unfold division_point. split.
    + intros [H|(a & b & k & Iab & Lk & H)]; [discriminate|]. apply cyc_prev in Iab; auto. exists (seg_point a b (INR k / INR 4)). split; auto. exists (a, b), k. auto.
    + intros (w & ((a, b) & k & Iab & Lk & ->) & H). right. exists a, b, k. split; [apply cyc_prev; auto|auto].
Qed.
Lemma all_same_incl pts1 pts2 : told_apart (pts1 ++ pts2) -> NoDup pts1 -> are_all_points_same pts1 pts2 = true <-> incl pts1 pts2.
Proof.
  intros T D. unfold are_all_points_same. rewrite Nat.eqb_eq, count_exact by (intros p q I J; apply T; apply in_app_iff; auto). split.
  - intros H p I. specialize (H p). rewrite free_nil in H. apply (count_occ_In vec_eq_dec) in I. apply (count_occ_In vec_eq_dec). lia.
  - intros H p. rewrite free_nil. destruct (in_dec vec_eq_dec p pts1) as [I|I].
    + pose proof (proj1 (NoDup_count_occ vec_eq_dec pts1) D p). apply H in I. apply (count_occ_In vec_eq_dec) in I. lia.
    + apply (count_occ_not_In vec_eq_dec) in I. lia.
Qed.
Lemma touching_spec pts1 ts1 pts2 ts2 : pts1 <> [] -> pts2 <> [] -> good_mesh pts1 ts1 -> good_mesh pts2 ts2 -> told_apart (pts1 ++ pts2) -> NoDup pts1 ->
  exists b, are_polygons_touching pts1 ts1 pts2 ts2 = Ok b /\
  (b = true <-> boxes_meet pts1 pts2 /\ ~ incl pts1 pts2 /\ (meets_outline pts1 pts2 \/ meets_outline pts2 pts1) /\
     (forall w, division_point 4 pts2 w -> ~ strictly_in pts1 ts1 w) /\ (forall w, division_point 4 pts1 w -> ~ strictly_in pts2 ts2 w)).
Proof.
  intros N1 N2 G1 G2 T D. unfold are_polygons_touching. destruct (bbox_total pts1 N1) as (b1 & E1). destruct (bbox_total pts2 N2) as (b2 & E2). rewrite E1, E2. cbn [rbind].
  pose proof (overlap_meet _ _ _ _ E1 E2) as O. destruct (are_bboxes_overlapping b1 b2); cbn [negb].
  - pose proof (all_same_incl pts1 pts2 T D) as S. destruct (are_all_points_same pts1 pts2).
    + exists false. split; auto. split; [discriminate|]. intros (_ & H & _). exfalso. apply H, S. auto.
    + destruct (check_against pts1 ts1 pts2 N1 N2 G1) as (ab & ai & -> & B1 & I1). cbn [rbind]. destruct (check_against pts2 ts2 pts1 N2 N1 G2) as (bb & bi & -> & B2 & I2). cbn [rbind fst snd].
      exists (negb (ai || bi) && (ab || bb)). split; [destruct (ai || bi); auto|]. rewrite andb_true_iff, negb_true_iff, orb_false_iff, orb_true_iff, B1, B2.
      assert (X1 : ai = false <-> forall w, division_point 4 pts2 w -> ~ strictly_in pts1 ts1 w).
      { rewrite <- not_true_iff_false, I1. split; [intros H w A C; apply H; eauto|intros H (w & A & C); eapply H; eauto]. }
      assert (X2 : bi = false <-> forall w, division_point 4 pts1 w -> ~ strictly_in pts2 ts2 w).
      { rewrite <- not_true_iff_false, I2. split; [intros H w A C; apply H; eauto|intros H (w & A & C); eapply H; eauto]. }
      rewrite X1, X2. split; [intros ((A1 & A2) & A3)|intros (A0 & A4 & A3 & A1 & A2); auto]. split; [apply O; auto|]. split; [|auto]. intros C. apply S in C. discriminate.
  - exists false. split; auto. split; [discriminate|]. intros (H & _). apply O in H. discriminate.
Qed.
Lemma self_matched pts : forall k matched, (forall j, In j matched <-> (j < k)%nat) -> forall r, skipn k pts = r -> count_matching r pts matched = length r.
Proof.
  intros k matched M r. revert k matched M. induction r as [|p r IH]; intros k matched M E; auto. cbn [count_matching].
  assert (Hk : nth_error pts k = Some p). { rewrite <- (firstn_skipn k pts), E. rewrite nth_error_app2; rewrite firstn_length; assert (k < length pts)%nat by (apply Nat.lt_nge; intros L; rewrite skipn_all2 in E by lia; discriminate); [|lia]. replace (k - min k (length pts))%nat with 0%nat by lia. reflexivity. }
  destruct (find_match p matched 0 pts) as [j|] eqn:F.
  - assert (j = k).
    { assert (G : forall l j0 k0, (forall i, (i < k0)%nat -> In (j0 + i)%nat matched) -> ~ In (j0 + k0)%nat matched -> nth_error l k0 = Some p -> find_match p matched j0 l = Some (j0 + k0)%nat).
      { clear F. intros l. induction l as [|q l IHl]; intros j0 [|k0] H1 H2 H3; try discriminate; cbn [find_match].
        - simpl in H3. injection H3 as ->. rewrite Nat.add_0_r in *. rewrite points_equal_refl. replace (memb j0 matched) with false; auto. symmetry. apply not_true_iff_false. rewrite memb_true. auto.
        - assert (X : memb j0 matched = true) by (apply memb_true; pose proof (H1 0%nat ltac:(lia)) as Y; rewrite Nat.add_0_r in Y; auto). rewrite X. cbn [negb andb].
          replace (j0 + S k0)%nat with (S j0 + k0)%nat in * by lia. apply IHl; auto. intros i Li. replace (S j0 + i)%nat with (j0 + S i)%nat by lia. apply H1. lia. }
      rewrite (G pts 0%nat k) in F; [injection F as <-; auto|intros i Li; apply M; auto|simpl; rewrite M; lia|auto]. }
    subst j. cbn [length]. f_equal. apply (IH (S k)); [intros j; cbn [In]; rewrite M; lia|].
    clear - E. revert k E. induction pts as [|x l IHl]; intros [|k] E; try discriminate; cbn [skipn] in *; [injection E as _ ->; auto|]. apply IHl; auto.
  - exfalso. rewrite find_match_none in F. specialize (F k p Hk (points_equal_refl p)). simpl in F. apply M in F. lia.
Qed.
Lemma touching_self pts ts ts' : pts <> [] -> are_polygons_touching pts ts pts ts' = Ok false.
Proof.
  intros N. unfold are_polygons_touching. destruct (bbox_total pts N) as (b & ->). cbn [rbind]. destruct (are_bboxes_overlapping b b); cbn [negb]; auto.
  unfold are_all_points_same. rewrite (self_matched pts 0 [] ltac:(intros j; simpl; split; [tauto|lia]) pts eq_refl), Nat.eqb_refl. auto.
Qed.

Lemma pair_complete pts1 ts1 pts2 ts2 e1 e2 q : pts1 <> [] -> pts2 <> [] -> good_mesh pts1 ts1 -> good_mesh pts2 ts2 -> fst e1 <> snd e1 -> fst e2 <> snd e2 ->
  (forall a b, In a [fst e1; snd e1] -> In b [fst e2; snd e2] -> points_equal a b = true -> a = b) -> ~ share_end e1 e2 -> line_segment_intersection (fst e1) (snd e1) (fst e2) (snd e2) = Some q ->
  ((exists k, (k <= 9)%nat /\ (strictly_in pts2 ts2 (seg_point (fst e1) (snd e1) (INR k / INR 9)) \/ strictly_in pts1 ts1 (seg_point (fst e2) (snd e2) (INR k / INR 9)))) \/
   (forall w, on_segment (fst e1) (snd e1) w \/ on_segment (fst e2) (snd e2) w -> 1 / 100000000 < dist q w)) -> crossing_pair pts1 ts1 pts2 ts2 e1 e2 = Ok true.
Proof.
  intros N1 N2 G1 G2 D1 D2 T S L C. unfold crossing_pair.
  replace (_ || _ || _ || _) with false.
  2:{ symmetry. unfold share_end in S. rewrite !orb_false_iff. repeat split; apply not_true_iff_false; intros E; apply T in E; cbn [In]; auto; rewrite E in S; tauto. }
  rewrite L. destruct (dist_edge_min q _ _ D1) as (d1 & -> & (w1 & W1 & E1) & M1). destruct (dist_edge_min q _ _ D2) as (d2 & -> & (w2 & W2 & E2) & M2). cbn [rbind].
  set (f := fun x => do a <- is_point_inside (new_point_between (fst e1) (snd e1) x) pts2 ts2 false GEOM_ATOL; if a then Ok true else is_point_inside (new_point_between (fst e2) (snd e2) x) pts1 ts1 false GEOM_ATOL).
  assert (Tf : forall x, exists b, f x = Ok b). { intros x. unfold f. destruct (inside_poly_total (new_point_between (fst e1) (snd e1) x) pts2 ts2 false GEOM_ATOL N2 G2) as ([|] & ->); cbn [rbind]; [eexists; reflexivity|]. apply inside_poly_total; auto. }
  destruct C as [(k & Lk & C)|C].
  - assert (A : anyM f (linspace01 10) = Ok true).
    { apply anyM_found; [intros; apply Tf|]. exists (INR k / INR 9). split; [change 10%nat with (Datatypes.S 9); apply linspace_div; [lia|eauto]|]. unfold f. rewrite !between_seg. destruct C as [C|C]; unfold strictly_in in C.
      - rewrite C. reflexivity.
      - destruct (inside_poly_total (seg_point (fst e1) (snd e1) (INR k / INR 9)) pts2 ts2 false GEOM_ATOL N2 G2) as ([|] & ->); cbn [rbind]; auto. }
    fold f. rewrite A. destruct (isclose d1 0 RTOL ATOL8); cbn [rbind]; auto. destruct (isclose d2 0 RTOL ATOL8); auto.
  - assert (Cf : forall d, 1 / 100000000 < d -> isclose d 0 RTOL ATOL8 = false).
    { intros d Hd. unfold isclose. apply Rleb_false. rewrite Rminus_0_r, Rabs_R0, Rmult_0_r, Rplus_0_r. unfold ATOL8. rewrite Rabs_pos_eq; lra. }
    pose proof (C w1 (or_introl W1)). pose proof (C w2 (or_intror W2)). rewrite (Cf d1), (Cf d2) by (rewrite ?E1, ?E2; auto). reflexivity.
Qed.
Lemma crossing_iff pts1 ts1 pts2 ts2 : pts1 <> [] -> pts2 <> [] -> good_mesh pts1 ts1 -> good_mesh pts2 ts2 -> real_edges pts1 -> real_edges pts2 -> told_apart (pts1 ++ pts2) ->
  exists b, are_polygons_crossing pts1 ts1 pts2 ts2 = Ok b /\
  (b = true <-> boxes_meet pts1 pts2 /\ are_points_coplanar (pts1 ++ pts2) GEOM_ATOL = Ok true /\
    exists e1 e2 q, In e1 (cyc_pairs pts1) /\ In e2 (cyc_pairs pts2) /\ ~ share_end e1 e2 /\ line_segment_intersection (fst e1) (snd e1) (fst e2) (snd e2) = Some q /\
    ((exists k, (k <= 9)%nat /\ (strictly_in pts2 ts2 (seg_point (fst e1) (snd e1) (INR k / INR 9)) \/ strictly_in pts1 ts1 (seg_point (fst e2) (snd e2) (INR k / INR 9)))) \/
     (forall w, on_segment (fst e1) (snd e1) w \/ on_segment (fst e2) (snd e2) w -> 1 / 100000000 < dist q w))).
Proof.
  intros N1 N2 G1 G2 R1 R2 T. destruct (crossing_total pts1 ts1 pts2 ts2 N1 N2 G1 G2 R1 R2) as (b & E). exists b. split; auto. split.
  - intros ->. apply crossing_sound in E. destruct E as (B & C & e1 & e2 & q & I1 & I2 & L & S & X). split; auto. split; auto. exists e1, e2, q. auto 10.
  - intros (B & C & e1 & e2 & q & I1 & I2 & S & L & X). destruct b; auto. exfalso. revert E. unfold are_polygons_crossing. destruct (bbox_total pts1 N1) as (b1 & E1). destruct (bbox_total pts2 N2) as (b2 & E2). rewrite E1, E2. cbn [rbind].
    rewrite (proj2 (overlap_meet _ _ _ _ E1 E2) B), C. cbn [rbind negb]. rewrite !polygon_edges_eq by auto. cbn [rbind]. intros H. pose proof (proj1 (anyM_false _ _) H e1 I1) as H1. pose proof (proj1 (anyM_false _ _) H1 e2 I2) as H2. cbv beta in H2.
    rewrite (pair_complete pts1 ts1 pts2 ts2 e1 e2 q) in H2; auto; [discriminate|]. intros p r Ip Ir. destruct (cyc_members _ _ I1), (cyc_members _ _ I2). cbn [In] in Ip, Ir. apply T; apply in_app_iff; [left|right]; intuition congruence.
Qed.
