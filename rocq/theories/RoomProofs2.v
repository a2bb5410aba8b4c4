(** Proofs: the distance to a polygon is the true one. *)
From Coq Require Import Reals ZArith List Bool Arith Lia Lra Permutation.
From Verif Require Import Prelude VecModel VecProofs VoxModel GeomModel GeomSpec GeomProofs1 GeomProofs2 GeomProofs3 GeomProofs4 GeomProofs5 TriModel TriSpec TriProofs TriProofs2 PolyModel PolySpec PolyProofs1 PolyProofs2 PlanSpec PlanProofs1 CrossSpec CrossProofs1 InsideSpec InsideProofs1 AdjSpec AdjProofs1 RoomSpec RoomProofs1.
Import ListNotations.
Local Open Scope R_scope.

Definition flat (f : face) (n : vec) (d : R) : Prop := unit n /\ (forall q, In q (fst f) -> on_plane n d q) /\ good_mesh (fst f) (snd f) /\ fst f <> [].
Lemma flat_coplanar (f : face) n d q atol : flat f n d -> 0 < atol -> on_plane n d q -> are_points_coplanar (fst f ++ [q]) atol = Ok true.
Proof.
  intros (U & P & _) A Q. apply coplanar_accepted; [lra|]. exists n, (- d). split; [intros ->; unfold unit, dot, vzero in U; cbn in U; lra|].
  intros p I. apply in_app_iff in I. destruct I as [I|[<-|[]]]; [apply P in I|]; unfold on_plane in *; lra.
Qed.
Lemma flat_touch (f : face) n d q : flat f n d -> touches f q -> exists t a b c, In t (snd f) /\ tri_verts (fst f) t (a, b, c) /\ hull3 a b c q /\ is_point_inside_triangle q a b c GEOM_ATOL = Ok true.
Proof.
  intros S [(t & a & b & c & It & Tv & Si & Oe)|(t & a & b & c & It & Tv & R)]; exists t, a, b, c; (split; [exact It|]); (split; [exact Tv|]).
  - split; [destruct Si as (x & y & z & X & Y & Z & S1 & E); exists x, y, z; repeat (split; [lra|]); exact E|]. apply inside_complete; auto. destruct S as (_ & _ & G & _). destruct (G t It) as (a' & b' & c' & Tv' & Ar).
    destruct t as ((i, j), k). destruct Tv as (T1 & T2 & T3), Tv' as (T1' & T2' & T3'). assert (a' = a) by congruence. assert (b' = b) by congruence. assert (c' = c) by congruence. subst. exact Ar.
  - assert (H : hull3 a b c q) by (apply rim_hull; tauto). split; [exact H|]. unfold is_point_inside_triangle. destruct (inside_bbox_spec q [a; b; c] (1 / 100)) as (bb & -> & B); [discriminate|]. assert (bb = true) as ->.
    { apply B. intros co Ico. destruct (hull3_coord a b c q co Ico H) as ((v & Iv & Lv) & (w & Iw & Lw)). split; [exists v|exists w]; (split; [auto|lra]). }
    cbn [rbind negb]. destruct (_ || _ || allclose q c RTOL GEOM_ATOL); auto. cbn [edge_verdict].
    destruct R as [R|[(O1 & R)|(O1 & O2 & R)]].
    + rewrite (between_collinear _ _ _ R). cbn [rbind]. rewrite (between_box _ _ _ R). auto.
    + rewrite (off_edge_not_collinear _ _ _ O1). cbn [rbind]. rewrite (between_collinear _ _ _ R). cbn [rbind]. rewrite (between_box _ _ _ R). auto.
    + rewrite (off_edge_not_collinear _ _ _ O1). cbn [rbind]. rewrite (off_edge_not_collinear _ _ _ O2). cbn [rbind]. rewrite (between_collinear _ _ _ R). cbn [rbind]. rewrite (between_box _ _ _ R). auto.
Qed.
Lemma touches_in_mesh (f : face) n d q : flat f n d -> touches f q -> in_mesh f q.
Proof. intros S T. destruct (flat_touch f n d q S T) as (t & a & b & c & It & Tv & H & _). exists t, a, b, c. auto. Qed.
(** A point some triangle accepts is accepted. *)
Lemma accepted_by (f : face) n d q atol t a b c : flat f n d -> 0 < atol -> on_plane n d q -> In t (snd f) -> tri_verts (fst f) t (a, b, c) -> in_triangle a b c q -> is_point_inside_triangle q a b c GEOM_ATOL = Ok true ->
  is_point_inside q (fst f) (snd f) true atol = Ok true.
Proof.
  intros S A Q It Tv H Ht. pose proof (flat_coplanar f n d q atol S A Q) as C. destruct S as (U & P & G & Ne).
  unfold is_point_inside. destruct (inside_bbox_spec q (fst f) (1 / 100) Ne) as (bb & -> & B). assert (bb = true) as ->.
  { apply B. intros co Ico. destruct (hull3_coord a b c q co Ico H) as ((v & Iv & Lv) & (w & Iw & Lw)). destruct t as ((i, j), k). destruct Tv as (T1 & T2 & T3). apply nth_error_In in T1, T2, T3.
    assert (X : forall v, In v [a; b; c] -> In v (fst f)) by (intros v0 [<-|[<-|[<-|[]]]]; auto). split; [exists v|exists w]; (split; [auto|lra]). }
  cbn [rbind negb]. rewrite C. cbn [rbind negb]. clear C B. induction (snd f) as [|t' ts IH]; [destruct It|]. cbn [inside_loop]. destruct (G t' (or_introl eq_refl)) as (a' & b' & c' & Tv' & Ar).
  rewrite (proj2 (tri_pts_spec _ _ (a', b', c')) Tv'). cbn [rbind]. destruct It as [->|It].
  - destruct t as ((i, j), k). destruct Tv as (T1 & T2 & T3), Tv' as (T1' & T2' & T3'). assert (a' = a) by congruence. assert (b' = b) by congruence. assert (c' = c) by congruence. subst.
    rewrite Ht; auto.
  - destruct (inside_total a' b' c' q) as (bb & ->); [exact Ar|]. cbn [rbind]. destruct bb; auto. apply IH; auto. intros t0 I0. apply G. right; auto.
Qed.
Lemma flat_accepted (f : face) n d q atol : flat f n d -> 0 < atol -> on_plane n d q -> touches f q -> is_point_inside q (fst f) (snd f) true atol = Ok true.
Proof. intros S A Q T. destruct (flat_touch f n d q S T) as (t & a & b & c & It & Tv & H & Ht). eapply accepted_by; eauto. Qed.
Lemma flat_rejected (f : face) n d q atol : flat f n d -> 0 < atol -> on_plane n d q -> clear_of f q -> is_point_inside q (fst f) (snd f) true atol = Ok false.
Proof.
  intros S A Q Cl. pose proof (flat_coplanar f n d q atol S A Q) as C. destruct S as (U & P & G & Ne).
  destruct Cl as [B|Cl]; [apply (beyond_box q (fst f) atol Ne B)|]. unfold is_point_inside. destruct (inside_bbox_spec q (fst f) (1 / 100) Ne) as (bb & -> & _). cbn [rbind]. destruct bb; auto. cbn [negb]. rewrite C. cbn [rbind negb]. clear C.
  induction (snd f) as [|t ts IH]; auto. cbn [inside_loop]. destruct (G t (or_introl eq_refl)) as (a & b & c & Tv & Ar). rewrite (proj2 (tri_pts_spec _ _ (a, b, c)) Tv). cbn [rbind].
  assert (Z : is_point_inside_triangle q a b c GEOM_ATOL = Ok false).
  { destruct (Cl t a b c (or_introl eq_refl) Tv) as [(co & Ico & B)|(Oe & F1 & F2 & F3 & N)]; [apply (inside_out_of_box a b c q co); auto|].
    destruct (inside_total a b c q) as (bb & E); [exact Ar|]. rewrite E. f_equal. destruct bb; auto. exfalso. apply N. apply inside_sound; auto.
    unfold in_plane_of. destruct t as ((i, j), k). destruct Tv as (T1 & T2 & T3). apply nth_error_In in T1, T2, T3. apply P in T1, T2, T3. unfold on_plane in *.
    destruct (perp_cross n (vsub b a) (vsub c a)) as (k' & ->); auto; try (vunf; unfold dot in *; lra). replace (dot (smul k' n) (vsub q a)) with (k' * (dot n q - dot n a)) by (vunf; ring). replace (dot n q - dot n a) with 0 by lra. ring. }
  rewrite Z. cbn [rbind]. apply IH; [intros t0 I0; apply G; right; auto|]. intros t0 a0 b0 c0 I0. apply Cl. right; auto.
Qed.
Lemma wall_flat (f : face) n d : sound_wall f n d -> flat f n d.
Proof. intros ((U & P & _) & G & _ & a & b & c & r & E & _). split; auto. split; auto. split; auto. rewrite E. discriminate. Qed.
Lemma wall_plane (f : face) n d : sound_wall f n d -> exists e, (e = 1 \/ e = -1) /\ plane_coefficients (fst f) = Ok (Some (smul e n, e * d)).
Proof. intros ((U & P & _) & _ & _ & a & b & c & r & E & A). apply (plane_flat _ n d a b c r U P E A). Qed.
(** A wall of a well outside triangle does not contain the point. *)
Lemma clear_not_in_mesh (f : face) n d q : flat f n d -> clear_of f q -> ~ in_mesh f q.
Proof.
  intros S Cl (t & a & b & c & It & Tv & H). assert (Ic : forall v, In v [a; b; c] -> In v (fst f)).
  { destruct t as ((i, j), k). destruct Tv as (T1 & T2 & T3). apply nth_error_In in T1, T2, T3. intros v [<-|[<-|[<-|[]]]]; auto. }
  assert (Bx : forall l, (forall v, In v [a; b; c] -> In v l) -> ~ beyond l q).
  { intros l L (co & Ico & B). destruct (hull3_coord a b c q co Ico H) as ((v & Iv & Lv) & (w & Iw & Lw)). destruct B as [B|B]; [specialize (B w (L w Iw))|specialize (B v (L v Iv))]; lra. }
  destruct Cl as [B|Cl]; [apply (Bx (fst f)); auto|]. destruct (Cl t a b c It Tv) as [B|(Oe & _ & _ & _ & N)]; [apply (Bx [a; b; c]); auto|].
  destruct H as (x & y & z & X & Y & Z & S1 & E). apply N. exists x, y, z.
  (* a zero weight would put the point on an edge *)
  assert (Ar : forall u v w : vec, true_area u v w = norm (cross (vsub v u) (vsub w u)) / 2) by reflexivity.
  destruct Oe as ((A1 & _ & _ & B1) & (A2 & _ & _ & B2) & (A3 & _ & _ & B3)). rewrite Ar in B1, B2, B3.
  assert (Zr : forall u v w k, w = vadd u (smul k (vsub v u)) -> norm (cross (vsub v u) (vsub w u)) = 0).
  { intros u v w k ->. replace (cross (vsub v u) (vsub (vadd u (smul k (vsub v u))) u)) with vzero by (dvec u; dvec v; vunf; f_equal; ring). unfold norm, vzero, dot. cbn [vx vy vz]. rewrite !Rmult_0_l, !Rplus_0_l. apply sqrt_0. }
  assert (x <> 0) by (intros ->; rewrite (Zr b c q z) in B2; [lra|]; rewrite E; unfold bary; replace y with (1 - z) by lra; dvec a; dvec b; dvec c; vunf; f_equal; ring).
  assert (y <> 0) by (intros ->; rewrite (Zr c a q x) in B3; [lra|]; rewrite E; unfold bary; replace z with (1 - x) by lra; dvec a; dvec b; dvec c; vunf; f_equal; ring).
  assert (z <> 0) by (intros ->; rewrite (Zr a b q y) in B1; [lra|]; rewrite E; unfold bary; replace x with (1 - y) by lra; dvec a; dvec b; dvec c; vunf; f_equal; ring).
  repeat (split; [lra|]). exact E.
Qed.
(** Moving a face. *)
Definition shifted (f : face) (w : vec) : face := (map (fun q => vadd q w) (fst f), snd f).
Lemma shift_verts (f : face) w t a b c : tri_verts (fst f) t (a, b, c) -> tri_verts (fst (shifted f w)) t (vadd a w, vadd b w, vadd c w).
Proof. destruct t as ((i, j), k). intros (A & B & C). cbn [shifted fst]. repeat split; rewrite nth_error_map; [rewrite A|rewrite B|rewrite C]; auto. Qed.
Lemma unshift_verts (f : face) w t a b c : tri_verts (fst (shifted f w)) t (a, b, c) -> exists a' b' c', tri_verts (fst f) t (a', b', c') /\ a = vadd a' w /\ b = vadd b' w /\ c = vadd c' w.
Proof.
  destruct t as ((i, j), k). intros (A & B & C). cbn [shifted fst] in *. rewrite nth_error_map in A, B, C.
  destruct (nth_error (fst f) i) as [a'|] eqn:Ea; [|discriminate]. destruct (nth_error (fst f) j) as [b'|] eqn:Eb; [|discriminate]. destruct (nth_error (fst f) k) as [c'|] eqn:Ec; [|discriminate].
  injection A as <-. injection B as <-. injection C as <-. exists a', b', c'. cbn [tri_verts]. auto.
Qed.
Lemma shift_dist a b w : dist (vadd a w) (vadd b w) = dist a b.
Proof. unfold dist. f_equal. dvec a; dvec b; dvec w; vunf; f_equal; ring. Qed.
Lemma shift_area a b c w : true_area (vadd a w) (vadd b w) (vadd c w) = true_area a b c.
Proof. unfold true_area. do 2 f_equal. dvec a; dvec b; dvec c; dvec w; vunf; f_equal; ring. Qed.
Lemma shift_off_edge a b q w : off_edge a b q -> off_edge (vadd a w) (vadd b w) (vadd q w).
Proof. unfold off_edge. rewrite !shift_dist, shift_area. auto. Qed.
Lemma shift_between a b q w : between a b q -> between (vadd a w) (vadd b w) (vadd q w).
Proof. intros (k & K & E & D). exists k. split; auto. split; [rewrite E; dvec a; dvec b; dvec w; vunf; f_equal; ring|rewrite shift_dist; auto]. Qed.
Lemma shift_bary a b c w x y z : x + y + z = 1 -> vadd (bary a b c x y z) w = bary (vadd a w) (vadd b w) (vadd c w) x y z.
Proof. intros E. replace x with (1 - y - z) by lra. unfold bary. dvec a; dvec b; dvec c; dvec w; vunf; f_equal; ring. Qed.
Lemma shift_touches (f : face) q w : touches f q -> touches (shifted f w) (vadd q w).
Proof.
  intros [(t & a & b & c & It & Tv & (x & y & z & X & Y & Z & S & E) & (O1 & O2 & O3))|(t & a & b & c & It & Tv & R)]; [left|right]; exists t, (vadd a w), (vadd b w), (vadd c w); (split; [exact It|]); (split; [apply shift_verts; auto|]).
  - split; [exists x, y, z; repeat (split; [assumption|]); rewrite E; apply shift_bary; auto|split; [|split]; apply shift_off_edge; auto].
  - destruct R as [R|[(O1 & R)|(O1 & O2 & R)]]; [left; apply shift_between; auto|right; left; split; [apply shift_off_edge|apply shift_between]; auto|right; right; split; [apply shift_off_edge; auto|split; [apply shift_off_edge|apply shift_between]; auto]].
Qed.
Lemma shift_mesh (f : face) q w : in_mesh f q -> in_mesh (shifted f w) (vadd q w).
Proof. intros (t & a & b & c & It & Tv & (x & y & z & X & Y & Z & S & E)). exists t, (vadd a w), (vadd b w), (vadd c w). split; auto. split; [apply shift_verts; auto|]. exists x, y, z. repeat (split; [assumption|]). rewrite E. apply shift_bary; auto. Qed.
Lemma shift_flat (f : face) n d w : flat f n d -> flat (shifted f w) n (d - dot n w).
Proof.
  intros (U & P & G & Ne). split; auto. split; [|split].
  - intros q I. cbn [shifted fst] in I. apply in_map_iff in I. destruct I as (q0 & <- & I). apply P in I. unfold on_plane in *. rewrite dot_vadd_r. lra.
  - intros t It. destruct (G t It) as (a & b & c & Tv & A). exists (vadd a w), (vadd b w), (vadd c w). split; [apply shift_verts; auto|rewrite shift_area; auto].
  - cbn [shifted fst]. destruct (fst f); [congruence|discriminate].
Qed.
Lemma raised_shifted (f : face) n d p : raised f n d p = shifted f (smul (dot n p + d) n).
Proof. reflexivity. Qed.
Lemma foot_raised n d p : vadd (foot n d p) (smul (dot n p + d) n) = p.
Proof. unfold foot. generalize (dot n p + d). intros k. dvec n; dvec p; vunf; f_equal; ring. Qed.
Lemma ortho_raised (f : face) n d p : sound_wall f n d -> is_point_inside_ortho p (fst f) (snd f) = is_point_inside p (fst (raised f n d p)) (snd f) true GEOM_ATOL.
Proof.
  intros S. destruct (wall_plane f n d S) as (e & He & C). unfold is_point_inside_ortho. rewrite C. cbn [rbind projection_coefficients snd]. unfold raised. cbn [fst]. f_equal. apply map_ext. intros q. f_equal.
  destruct He as [->| ->]; dvec n; dvec p; vunf; f_equal; ring.
Qed.
Lemma raised_plane (f : face) n d p : unit n -> on_plane n (d - dot n (smul (dot n p + d) n)) p.
Proof. unfold unit, on_plane. intros U. rewrite dot_smul_r, U. ring. Qed.
Lemma ortho_true (f : face) n d p : sound_wall f n d -> touches f (foot n d p) -> is_point_inside_ortho p (fst f) (snd f) = Ok true.
Proof.
  intros S T. rewrite (ortho_raised f n d p S). pose proof (wall_flat _ _ _ S) as F. pose proof (shift_touches f _ (smul (dot n p + d) n) T) as T'. rewrite foot_raised in T'.
  apply (flat_accepted (shifted f (smul (dot n p + d) n)) n (d - dot n (smul (dot n p + d) n))); auto using shift_flat; [unfold GEOM_ATOL; lra|apply raised_plane; auto; apply F].
Qed.
Lemma ortho_false (f : face) n d p : sound_wall f n d -> clear_of (raised f n d p) p -> is_point_inside_ortho p (fst f) (snd f) = Ok false.
Proof.
  intros S T. rewrite (ortho_raised f n d p S). pose proof (wall_flat _ _ _ S) as F.
  apply (flat_rejected (shifted f (smul (dot n p + d) n)) n (d - dot n (smul (dot n p + d) n))); auto using shift_flat; [unfold GEOM_ATOL; lra|apply raised_plane; auto; apply F].
Qed.
Lemma ortho_total (f : face) n d p : sound_wall f n d -> exists b, is_point_inside_ortho p (fst f) (snd f) = Ok b.
Proof.
  intros S. rewrite (ortho_raised f n d p S). pose proof (shift_flat f n d (smul (dot n p + d) n) (wall_flat _ _ _ S)) as (_ & _ & G & Ne). apply (inside_poly_total p (fst (shifted f (smul (dot n p + d) n))) (snd f) true GEOM_ATOL Ne G).
Qed.
Lemma edges_total pt (es : list (vec * vec)) : (forall e, In e es -> fst e <> snd e) -> exists ds, mapM (fun e => distance_point_to_edge pt (fst e) (snd e)) es = Ok ds /\ length ds = length es.
Proof.
  induction es as [|e es IH]; intros H; [exists []; auto|]. destruct (dist_edge_min pt (fst e) (snd e)) as (x & E & _); [apply H; left; auto|]. destruct IH as (ds & E2 & L); [intros e' I; apply H; right; auto|].
  exists (x :: ds). cbn [mapM]. rewrite E. cbn [rbind]. rewrite E2. cbn [rbind length]. auto.
Qed.
(** The normal at the first corner is the plane's. *)
Lemma first_normal_plane (f : face) n d m : sound_wall f n d -> first_normal_is (fst f) m -> exists e, (e = 1 \/ e = -1) /\ m = smul e n /\ plane_coefficients (fst f) = Ok (Some (m, e * d)).
Proof.
  intros S (a & b & r & E & N). destruct (wall_plane f n d S) as (e & He & C). exists e. split; auto. assert (m = smul e n); [|subst m; auto].
  unfold plane_coefficients in C. rewrite E in C. cbn [first_three rbind] in C. rewrite <- E, N in C. apply Ok_inj in C. cbn [option_map projection_coefficients] in C. injection C as Em _. exact Em.
Qed.
Lemma distance_total (f : face) n d m p : sound_wall f n d -> first_normal_is (fst f) m -> exists r, distance_point_to_polygon p (fst f) (snd f) m = Ok r.
Proof.
  intros S N. destruct (first_normal_plane f n d m S N) as (e & He & Em & C). destruct (ortho_total f n d p S) as (b & O). pose proof (wall_flat _ _ _ S) as (U & _ & _ & Ne).
  assert (Um : unit m) by (unfold unit in *; rewrite Em; replace (dot (smul e n) (smul e n)) with (e * e * dot n n) by (dvec n; vunf; ring); rewrite U; destruct He as [->| ->]; ring).
  unfold distance_point_to_polygon. rewrite C. cbn [rbind]. rewrite (unit_norm m Um), (proj2 (Reqb_false 1 0)) by lra. rewrite O. cbn [rbind]. destruct b; [eexists; reflexivity|].
  rewrite polygon_edges_eq by auto. cbn [rbind]. destruct S as (_ & _ & Re & _). destruct (edges_total p (cyc_pairs (fst f)) Re) as (ds & -> & L). cbn [rbind]. rewrite cyc_pairs_length in L.
  destruct ds as [|x ds]; [destruct (fst f); [congruence|discriminate]|]. eexists. reflexivity.
Qed.
Lemma smul_plane e n d q : e = 1 \/ e = -1 -> on_plane (smul e n) (e * d) q <-> on_plane n d q.
Proof. unfold on_plane. replace (dot (smul e n) q) with (e * dot n q) by (dvec n; dvec q; vunf; ring). intros [->| ->]; split; lra. Qed.
Lemma distance_cases (f : face) n d m p r : sound_wall f n d -> first_normal_is (fst f) m -> distance_point_to_polygon p (fst f) (snd f) m = Ok r ->
  (is_point_inside_ortho p (fst f) (snd f) = Ok true /\ distance_to (on_plane n d) p r) \/
  (is_point_inside_ortho p (fst f) (snd f) = Ok false /\ distance_to (on_outline (fst f)) p r).
Proof.
  intros S N D. destruct (first_normal_plane f n d m S N) as (e & He & Em & C). destruct (distance_spec p (fst f) (snd f) m r m (e * d) C eq_refl D) as [(I & (q & Q & E) & M)|H]; [left|right; exact H].
  split; auto. split; [exists q; split; [|exact E]|intros q' Q'; apply M]; [|]; subst m; apply (smul_plane e n d _ He); auto.
Qed.
Lemma true_distance (f : face) n d m p : sound_wall f n d -> first_normal_is (fst f) m -> clear_foot f n d p ->
  exists r, distance_point_to_polygon p (fst f) (snd f) m = Ok r /\ distance_to (in_mesh f) p r.
Proof.
  intros S N Cl. destruct (distance_total f n d m p S N) as (r & E). exists r. split; auto. pose proof S as (T & _). pose proof (wall_flat _ _ _ S) as Fl. destruct (mesh_distance f n d p r T) as (M1 & M2).
  destruct (distance_cases f n d m p r S N E) as [(O & D)|(O & D)]; destruct Cl as [Cl|Cl].
  - apply M1; auto. eapply touches_in_mesh; eauto.
  - rewrite (ortho_false f n d p S Cl) in O. discriminate.
  - rewrite (ortho_true f n d p S Cl) in O. discriminate.
  - apply M2; auto. intros I. apply (shift_mesh f _ (smul (dot n p + d) n)) in I. rewrite foot_raised in I. revert I. apply (clear_not_in_mesh _ n (d - dot n (smul (dot n p + d) n))); auto using shift_flat.
Qed.
(** An upper bound that needs less: the foot is accepted or not in the polygon. *)
Lemma distance_upper (f : face) n d m p r q : sound_wall f n d -> first_normal_is (fst f) m -> distance_point_to_polygon p (fst f) (snd f) m = Ok r ->
  (in_mesh f (foot n d p) -> is_point_inside_ortho p (fst f) (snd f) = Ok true) -> in_mesh f q -> r <= dist p q.
Proof.
  intros S N E H I. pose proof S as (T & _). destruct (mesh_distance f n d p r T) as (M1 & M2). pose proof T as (U & P & _).
  destruct (distance_cases f n d m p r S N E) as [(O & (_ & D))|(O & D)].
  - apply D. destruct I as (((i, j), k) & a & b & c & It & (A & B & C) & X). eapply triangle_on_plane; [| | |exact X]; apply P; eapply nth_error_In; eauto.
  - apply M2; auto. intros X. rewrite (H X) in O. discriminate.
Qed.

(** Polygons made by the code from points of a plane. *)
Lemma made_wall pts p n c : make_polygon pts None None = Ok p -> unit n -> in_plane n c pts -> p_plane p <> None ->
  exists m d, (m = n \/ m = vopp n) /\ m = p_vn p /\ sound_wall (p_pts p, p_tri p) m d.
Proof.
  intros M U P Pl. destruct (made_orient n c pts p U P M) as (Hn & _). destruct (made_triangles pts p M) as (L & T). destruct (made_proper pts p M) as (L3 & G & Re).
  pose proof (tri_structure _ _ _ _ L T) as (Rv & _). assert (P' : in_plane n c (p_pts p)) by (intros q I; apply P; destruct Rv as [E|E]; rewrite E in I; auto; apply in_rev; auto).
  assert (Ln : length (p_pts p) = length pts) by (destruct Rv as [->| ->]; rewrite ?rev_length; auto).
  exists (p_vn p), (- dot (p_vn p) (hd vzero (p_pts p))). split; auto. split; auto. 
  assert (Uv : unit (p_vn p)) by (unfold unit in *; destruct Hn as [->| ->]; [auto|dvec n; vunf; unfold dot in U; cbn [vx vy vz] in U; lra]).
  assert (Ep : exists a b x r, p_pts p = a :: b :: x :: r) by (clear - L3; destruct (p_pts p) as [|a [|b [|x r]]]; try (cbn in L3; lia); eauto). destruct Ep as (a & b & x & r & Ep).
  split; [|split; [exact G|split; [exact Re|]]].
  - split; [exact Uv|]. split; [|split; [|split]].
    + intros q I. cbn [fst] in I. unfold on_plane. rewrite Ep. cbn [hd]. pose proof (P' q I) as E1. assert (E2 : dot n a = c) by (apply P'; rewrite Ep; left; auto).
      destruct Hn as [->| ->]; [lra|]. replace (dot (vopp n) q) with (- dot n q) by (clear; dvec n; dvec q; vunf; ring). replace (dot (vopp n) a) with (- dot n a) by (clear; dvec n; dvec a; vunf; ring). lra.
    + intros t It. cbn [fst snd] in *. destruct (G t It) as (u & v & w & Tv & _). exists u, v, w. split; auto. destruct (tri_positive _ _ _ _ T L t It) as (Pos & _). destruct t as ((i, j), k). destruct Tv as (T1 & T2 & T3).
      unfold tri_vec, corner in Pos. rewrite (nth_error_nth _ _ vzero T1), (nth_error_nth _ _ vzero T2), (nth_error_nth _ _ vzero T3) in Pos. rewrite dot_comm. exact Pos.
    + cbn [fst snd]. rewrite Ln. destruct (tri_boundary _ _ _ _ L T) as (_ & d & _ & Pm). intros i j I. apply (Permutation_in _ Pm) in I. apply in_app_iff in I. destruct I as [I|I]; [auto|right].
      apply (Permutation_in _ (Permutation_sym Pm)), in_app_iff. right. unfold both_ways in *. apply in_flat_map in I. destruct I as ((u, v) & Id & I). apply in_flat_map. exists (u, v). split; auto. cbn [fst snd] in *. destruct I as [I|[I|[]]]; injection I as <- <-; [right; left|left]; auto.
    + cbn [fst snd]. rewrite Ln. destruct (tri_boundary _ _ _ _ L T) as (_ & d & _ & Pm). intros e I. apply (Permutation_in _ (Permutation_sym Pm)), in_app_iff. auto.
  - exists a, b, x, r. cbn [fst]. split; [exact Ep|].
    assert (Pc : plane_coefficients (p_pts p) = Ok (p_plane p)). { clear - M. unfold make_polygon, build_polygon in M. repeat (match type of M with rbind ?e _ = _ => destruct e eqn:?; cbn [rbind] in M; [|discriminate] end). match type of M with (let '(_, _) := ?e in _) = _ => destruct e as (pts', ts) end.
      repeat (match type of M with rbind ?e _ = _ => destruct e eqn:?; cbn [rbind] in M; [|discriminate] end). apply Ok_inj in M. subst p. cbn [p_pts p_plane]. auto. }
    destruct (Rlt_dec (1 / 100000000) (2 * true_area (last (p_pts p) a) a b)) as [Y|Y]; auto. exfalso. apply Pl. assert (Nn : plane_coefficients (p_pts p) = Ok None) by (apply plane_none; exists (last (p_pts p) a), a, b; split; [rewrite Ep; reflexivity|lra]). rewrite Pc in Nn. apply Ok_inj in Nn. auto.
Qed.
