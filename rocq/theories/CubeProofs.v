(** Proofs: segments and polygons, polygons and cubes. *)
From Coq Require Import Reals List Bool Arith Lia Lra.
From Verif Require Import Prelude VecModel VecProofs GeomModel GeomSpec GeomProofs1 GeomProofs2 GeomProofs3 GeomProofs4 GeomProofs5 TriSpec PolyModel PolySpec PolyProofs1 CrossSpec CrossProofs1 AdjProofs1 SolidProofs1 InsideSpec InsideProofs1 RoomSpec RoomProofs1 RoomProofs2 RoomProofs3 CubeSpec.
Import ListNotations.
Local Open Scope R_scope.

Definition planed (f : face) (n : vec) (d : R) : Prop := flat f n d /\ exists e, (e = 1 \/ e = -1) /\ plane_coefficients (fst f) = Ok (Some (smul e n, e * d)).
Lemma wall_planed f n d : sound_wall f n d -> planed f n d.
Proof. intros S. split; [apply wall_flat; auto|apply wall_plane; auto]. Qed.
Lemma along_dot n d a b t : dot n (along a b t) + d = dot n a + d + t * dot n (vsub b a).
Proof. unfold along. rewrite dot_vadd_r, dot_smul_r. ring. Qed.
Lemma segment_spec f n d a b eps : planed f n d -> 0 < eps ->
  exists r, is_segment_crossing_polygon a b (fst f) (snd f) eps = Ok r /\
  (r = true <-> eps <= Rabs (dot n (vsub b a)) /\ exists t, 0 <= t <= 1 /\ on_plane n d (along a b t) /\ is_point_inside (along a b t) (fst f) (snd f) true GEOM_ATOL = Ok true).
Proof.
  intros (F & e & He & C) E0. unfold is_segment_crossing_polygon. rewrite C. cbn [rbind]. cbn zeta.
  assert (A : Rabs (dot (vsub b a) (smul e n)) = Rabs (dot n (vsub b a))). { rewrite dot_comm. replace (dot (smul e n) (vsub b a)) with (e * dot n (vsub b a)) by (unfold dot, smul; cbn [vx vy vz]; ring). rewrite Rabs_mult. replace (Rabs e) with 1 by (destruct He as [->| ->]; [rewrite Rabs_R1|rewrite Rabs_left]; lra). ring. }
  rewrite A. destruct (Rltb _ eps) eqn:L.
  - apply Rltb_true in L. exists false. split; auto. split; [discriminate|intros (G & _); lra].
  - apply Rltb_false in L. set (t := - (dot (smul e n) a + e * d) / dot (vsub b a) (smul e n)).
    assert (Nz : dot n (vsub b a) <> 0) by (intros Z; rewrite Z, Rabs_R0 in L; lra).
    assert (Et : t = - (dot n a + d) / dot n (vsub b a)). { unfold t. rewrite (dot_comm (vsub b a)). replace (dot (smul e n) (vsub b a)) with (e * dot n (vsub b a)) by (unfold dot, smul; cbn [vx vy vz]; ring). replace (dot (smul e n) a) with (e * dot n a) by (unfold dot, smul; cbn [vx vy vz]; ring). destruct He as [->| ->]; field; lra. }
    assert (Un : forall t', on_plane n d (along a b t') <-> t' = t). { intros t'. unfold on_plane. rewrite along_dot, Et. split; [intros H|intros ->; field; auto]. apply Rmult_eq_reg_r with (dot n (vsub b a)); auto. replace (- (dot n a + d) / dot n (vsub b a) * dot n (vsub b a)) with (- (dot n a + d)) by (field; auto). lra. }
    fold (along a b t). destruct (Rltb t 0 || Rltb 1 t) eqn:B.
    + exists false. split; auto. split; [discriminate|]. intros (_ & t' & T & P & _). apply Un in P. subst t'. apply orb_true_iff in B. destruct B as [B|B]; apply Rltb_true in B; lra.
    + apply orb_false_iff in B. destruct B as (B1 & B2). apply Rltb_false in B1, B2. destruct F as (_ & _ & G & Ne). destruct (inside_poly_total (along a b t) (fst f) (snd f) true GEOM_ATOL Ne G) as (r & Er). rewrite Er. exists r. split; auto. split.
      * intros ->. split; [lra|]. exists t. split; [lra|]. split; [apply Un; auto|auto].
      * intros (_ & t' & T & P & H). apply Un in P. subst t'. rewrite Er in H. apply Ok_inj in H. auto.
Qed.
Lemma atol_pos : 0 < GEOM_ATOL. Proof. unfold GEOM_ATOL. lra. Qed.
Lemma segment_hits f n d a b eps t : planed f n d -> 0 < eps -> eps <= Rabs (dot n (vsub b a)) -> 0 <= t <= 1 -> on_plane n d (along a b t) -> touches f (along a b t) -> is_segment_crossing_polygon a b (fst f) (snd f) eps = Ok true.
Proof.
  intros P E0 L T On Tc. destruct (segment_spec f n d a b eps P E0) as (r & E & H). rewrite E. f_equal. apply H. split; auto. exists t. split; auto. split; auto. apply (flat_accepted f n d); auto; [apply P|apply atol_pos].
Qed.
Lemma segment_misses f n d a b eps : planed f n d -> 0 < eps -> (forall t, 0 <= t <= 1 -> on_plane n d (along a b t) -> clear_of f (along a b t)) -> is_segment_crossing_polygon a b (fst f) (snd f) eps = Ok false.
Proof.
  intros P E0 M. destruct (segment_spec f n d a b eps P E0) as ([|] & E & H); auto. exfalso. destruct (proj1 H eq_refl) as (_ & t & T & On & I).
  rewrite (flat_rejected f n d (along a b t) GEOM_ATOL (proj1 P) atol_pos On (M t T On)) in I. discriminate.
Qed.
Lemma segment_total f n d a b eps : planed f n d -> 0 < eps -> exists r, is_segment_crossing_polygon a b (fst f) (snd f) eps = Ok r.
Proof. intros P E0. destruct (segment_spec f n d a b eps P E0) as (r & E & _). eauto. Qed.
Lemma along_back a b t : along b a t = along a b (1 - t).
Proof. unfold along. dvec a; dvec b; vunf; f_equal; ring. Qed.
Lemma segment_reverse f n d a b eps : planed f n d -> 0 < eps -> is_segment_crossing_polygon b a (fst f) (snd f) eps = is_segment_crossing_polygon a b (fst f) (snd f) eps.
Proof.
  intros P E0. destruct (segment_spec f n d a b eps P E0) as (r & E & H). destruct (segment_spec f n d b a eps P E0) as (r' & E' & H'). rewrite E, E'. f_equal.
  assert (A : Rabs (dot n (vsub a b)) = Rabs (dot n (vsub b a))) by (rewrite <- Rabs_Ropp; f_equal; unfold dot, vsub; cbn [vx vy vz]; ring). rewrite A in H'.
  assert (G : r' = true <-> r = true).
  { rewrite H, H'. split; intros (L & t & T & On & I); (split; [auto|]); exists (1 - t); (split; [lra|]).
    - rewrite (along_back a b t) in On, I. auto.
    - rewrite (along_back a b (1 - t)). replace (1 - (1 - t)) with t by ring. auto. }
  destruct r, r'; auto; [apply G; auto|symmetry; apply G; auto].
Qed.
Lemma segment_in_plane f n d a b eps : planed f n d -> 0 < eps -> on_plane n d a -> on_plane n d b -> is_segment_crossing_polygon a b (fst f) (snd f) eps = Ok false.
Proof.
  intros P E0 A B. destruct (segment_spec f n d a b eps P E0) as ([|] & E & H); auto. exfalso. destruct (proj1 H eq_refl) as (L & _). unfold on_plane in *. replace (dot n (vsub b a)) with (dot n b - dot n a) in L by (unfold dot, vsub; cbn [vx vy vz]; ring). replace (dot n b - dot n a) with 0 in L by lra. rewrite Rabs_R0 in L. lra.
Qed.

(** Cubes. *)
Lemma cube_edges_spec lo hi u w : (forall c, In c [vx; vy; vz] -> c lo < c hi) -> corner lo hi u -> corner lo hi w -> one_apart u w -> In (u, w) (cube_edges lo hi) \/ In (w, u) (cube_edges lo hi).
Proof.
  intros L U W O. pose proof (L vx ltac:(cbn; auto)) as Lx. pose proof (L vy ltac:(cbn; auto)) as Ly. pose proof (L vz ltac:(cbn; auto)) as Lz.
  pose proof (U vx ltac:(cbn; auto)) as Ux. pose proof (U vy ltac:(cbn; auto)) as Uy. pose proof (U vz ltac:(cbn; auto)) as Uz. pose proof (W vx ltac:(cbn; auto)) as Wx. pose proof (W vy ltac:(cbn; auto)) as Wy. pose proof (W vz ltac:(cbn; auto)) as Wz. clear L U W.
  destruct u as [ux uy uz], w as [wx wy wz], lo as [lx ly lz], hi as [hx hy hz]. unfold one_apart in O. unfold cube_edges. cbn [vx vy vz] in *.
  destruct Ux as [->| ->], Uy as [->| ->], Uz as [->| ->], Wx as [->| ->], Wy as [->| ->], Wz as [->| ->]; first [exfalso; destruct O as [(O1 & O2 & O3)|[(O1 & O2 & O3)|(O1 & O2 & O3)]]; first [lra|congruence]|cbn [In]; tauto].
Qed.
Lemma cube_edges_only lo hi u w : (forall c, In c [vx; vy; vz] -> c lo < c hi) -> In (u, w) (cube_edges lo hi) -> corner lo hi u /\ corner lo hi w /\ one_apart u w.
Proof.
  intros L I. pose proof (L vx ltac:(cbn; auto)) as Lx. pose proof (L vy ltac:(cbn; auto)) as Ly. pose proof (L vz ltac:(cbn; auto)) as Lz. unfold cube_edges in I.
  repeat (destruct I as [I|I]; [injection I as <- <-; split; [intros c [<-|[<-|[<-|[]]]]; cbn [vx vy vz]; auto|split; [intros c [<-|[<-|[<-|[]]]]; cbn [vx vy vz]; auto|unfold one_apart; cbn [vx vy vz]]]; first [left; split; [lra|auto]|right; left; split; [auto|split; [lra|auto]]|right; right; split; [auto|split; [auto|lra]]]|]). destruct I.
Qed.
Lemma cube_sides_spec lo hi c b : In c [vx; vy; vz] -> (b = c lo \/ b = c hi) -> exists l, In l (cube_polygons lo hi) /\ length l = 4%nat /\ (forall p, In p l <-> corner lo hi p /\ c p = b).
Proof.
  intros Ic Hb. assert (K : forall p, corner lo hi p -> (vx p = vx lo \/ vx p = vx hi) /\ (vy p = vy lo \/ vy p = vy hi) /\ (vz p = vz lo \/ vz p = vz hi)) by (intros p C; split; [|split]; apply C; cbn; auto).
  assert (Q : forall p a b c, vx p = a -> vy p = b -> vz p = c -> V a b c = p) by (intros [x y z] a b' c' <- <- <-; reflexivity).
  destruct Ic as [<-|[<-|[<-|[]]]]; destruct Hb as [->| ->].
  - eexists. split; [right; right; left; reflexivity|]. split; [reflexivity|]. intros p. split.
    + intros [<-|[<-|[<-|[<-|[]]]]]; (split; [intros c [<-|[<-|[<-|[]]]]; cbn [vx vy vz]; auto|auto]).
    + intros (C & E). destruct (K p C) as (_ & [Ey|Ey] & [Ez|Ez]); cbn [In]; [left|right; right; right; left|right; left|right; right; left]; apply Q; auto.
  - eexists. split; [right; right; right; left; reflexivity|]. split; [reflexivity|]. intros p. split.
    + intros [<-|[<-|[<-|[<-|[]]]]]; (split; [intros c [<-|[<-|[<-|[]]]]; cbn [vx vy vz]; auto|auto]).
    + intros (C & E). destruct (K p C) as (_ & [Ey|Ey] & [Ez|Ez]); cbn [In]; [left|right; right; right; left|right; left|right; right; left]; apply Q; auto.
  - eexists. split; [right; right; right; right; left; reflexivity|]. split; [reflexivity|]. intros p. split.
    + intros [<-|[<-|[<-|[<-|[]]]]]; (split; [intros c [<-|[<-|[<-|[]]]]; cbn [vx vy vz]; auto|auto]).
    + intros (C & E). destruct (K p C) as ([Ey|Ey] & _ & [Ez|Ez]); cbn [In]; [left|right; right; right; left|right; left|right; right; left]; apply Q; auto.
  - eexists. split; [right; right; right; right; right; left; reflexivity|]. split; [reflexivity|]. intros p. split.
    + intros [<-|[<-|[<-|[<-|[]]]]]; (split; [intros c [<-|[<-|[<-|[]]]]; cbn [vx vy vz]; auto|auto]).
    + intros (C & E). destruct (K p C) as ([Ey|Ey] & _ & [Ez|Ez]); cbn [In]; [left|right; right; right; left|right; left|right; right; left]; apply Q; auto.
  - eexists. split; [left; reflexivity|]. split; [reflexivity|]. intros p. split.
    + intros [<-|[<-|[<-|[<-|[]]]]]; (split; [intros c [<-|[<-|[<-|[]]]]; cbn [vx vy vz]; auto|auto]).
    + intros (C & E). destruct (K p C) as ([Ey|Ey] & [Ez|Ez] & _); cbn [In]; [left|right; right; right; left|right; left|right; right; left]; apply Q; auto.
  - eexists. split; [right; left; reflexivity|]. split; [reflexivity|]. intros p. split.
    + intros [<-|[<-|[<-|[<-|[]]]]]; (split; [intros c [<-|[<-|[<-|[]]]]; cbn [vx vy vz]; auto|auto]).
    + intros (C & E). destruct (K p C) as ([Ey|Ey] & [Ez|Ez] & _); cbn [In]; [right; right; right; left|left|right; right; left|right; left]; apply Q; auto.
Qed.
Lemma cube_sides_loop lo hi l e : (forall c, In c [vx; vy; vz] -> c lo < c hi) -> In l (cube_polygons lo hi) -> In e (cyc_pairs l) -> one_apart (fst e) (snd e).
Proof.
  intros L I E. pose proof (L vx ltac:(cbn; auto)) as Lx. pose proof (L vy ltac:(cbn; auto)) as Ly. pose proof (L vz ltac:(cbn; auto)) as Lz. unfold cube_polygons in I.
  destruct I as [<-|[<-|[<-|[<-|[<-|[<-|[]]]]]]]; cbn [cyc_pairs combine app] in E; destruct E as [<-|[<-|[<-|[<-|[]]]]]; unfold one_apart; cbn [fst snd vx vy vz]; first [left; split; [lra|auto]|right; left; split; [auto|split; [lra|auto]]|right; right; split; [auto|split; [auto|lra]]].
Qed.
(** The sides are proper polygons, each in the plane of one coordinate. *)
Lemma cross_big a b c k n : unit n -> cross (vsub b a) (vsub c a) = smul k n -> 1 / 1000000 <= Rabs k -> 1 / 1000000 <= 2 * true_area a b c.
Proof. intros U E K. unfold true_area. rewrite E, norm_smul, (unit_norm n U). lra. Qed.
Definition axis (c : vec -> R) (n : vec) : Prop := unit n /\ forall v, dot n v = c v.
Lemma side_planed lo hi l : proper_cube lo hi -> In l (cube_polygons lo hi) -> exists c b n, In c [vx; vy; vz] /\ (b = c lo \/ b = c hi) /\ axis c n /\ planed (cube_side l) n (- b) /\ forall p, In p l -> corner lo hi p /\ c p = b.
Proof.
  intros Pc I. pose proof (Pc vx ltac:(cbn; auto)) as Lx. pose proof (Pc vy ltac:(cbn; auto)) as Ly. pose proof (Pc vz ltac:(cbn; auto)) as Lz.
  assert (Ax : axis vx (V 1 0 0)) by (split; [unfold unit; vunf; ring|intros v; dvec v; vunf; ring]). assert (Ay : axis vy (V 0 1 0)) by (split; [unfold unit; vunf; ring|intros v; dvec v; vunf; ring]). assert (Az : axis vz (V 0 0 1)) by (split; [unfold unit; vunf; ring|intros v; dvec v; vunf; ring]).
  assert (G : forall a b c d n k co bb x y, l = [a; b; c; d] -> axis co n -> In co [vx; vy; vz] -> (bb = co lo \/ bb = co hi) -> (forall p, In p l -> corner lo hi p /\ co p = bb) -> 1 / 1000 <= x -> 1 / 1000 <= y -> (k = x * y \/ k = - (x * y)) ->
    cross (vsub b a) (vsub c a) = smul k n -> cross (vsub c a) (vsub d a) = smul k n -> cross (vsub a d) (vsub b d) = smul k n -> exists c b n, In c [vx; vy; vz] /\ (b = c lo \/ b = c hi) /\ axis c n /\ planed (cube_side l) n (- b) /\ forall p, In p l -> corner lo hi p /\ c p = b).
  { intros a b c d n k co bb x y -> An Ic Hbb P X Y K C1 C2 C3. exists co, bb, n. split; auto. split; auto. split; auto. split; [|exact P]. destruct An as (U & Dn).
    assert (Ka : 1 / 1000000 <= Rabs k). { assert (1 / 1000000 <= x * y) by nra. destruct K as [->| ->]; [rewrite Rabs_pos_eq|rewrite Rabs_left]; lra. }
    assert (On : forall q, In q [a; b; c; d] -> on_plane n (- bb) q) by (intros q Iq; unfold on_plane; rewrite Dn; rewrite (proj2 (P q Iq)); ring).
    split.
    - split; [exact U|]. split; [exact On|]. split; [|discriminate]. cbn [cube_side fst snd]. intros t [<-|[<-|[]]]; do 3 eexists; (split; [split; [reflexivity|split; reflexivity]|]).
      + pose proof (cross_big a b c k n U C1 Ka). lra.
      + pose proof (cross_big a c d k n U C2 Ka). lra.
    - cbn [cube_side fst]. apply (plane_flat _ n (- bb) a b c [d] U On eq_refl). cbn [last]. pose proof (cross_big d a b k n U C3 Ka). lra. }
  unfold cube_polygons in I. destruct I as [<-|[<-|[<-|[<-|[<-|[<-|[]]]]]]].
  - apply (G _ _ _ _ (V 0 0 1) ((vx hi - vx lo) * (vy hi - vy lo)) vz (vz lo) (vx hi - vx lo) (vy hi - vy lo) eq_refl Az); auto; try lra; [cbn; auto| |vunf; f_equal; ring|vunf; f_equal; ring|vunf; f_equal; ring].
    intros p [<-|[<-|[<-|[<-|[]]]]]; (split; [intros c [<-|[<-|[<-|[]]]]; cbn [vx vy vz]; auto|auto]).
  - apply (G _ _ _ _ (V 0 0 1) (- ((vx hi - vx lo) * (vy hi - vy lo))) vz (vz hi) (vx hi - vx lo) (vy hi - vy lo) eq_refl Az); auto; try lra; [cbn; auto| |vunf; f_equal; ring|vunf; f_equal; ring|vunf; f_equal; ring].
    intros p [<-|[<-|[<-|[<-|[]]]]]; (split; [intros c [<-|[<-|[<-|[]]]]; cbn [vx vy vz]; auto|auto]).
  - apply (G _ _ _ _ (V 1 0 0) ((vy hi - vy lo) * (vz hi - vz lo)) vx (vx lo) (vy hi - vy lo) (vz hi - vz lo) eq_refl Ax); auto; try lra; [cbn; auto| |vunf; f_equal; ring|vunf; f_equal; ring|vunf; f_equal; ring].
    intros p [<-|[<-|[<-|[<-|[]]]]]; (split; [intros c [<-|[<-|[<-|[]]]]; cbn [vx vy vz]; auto|auto]).
  - apply (G _ _ _ _ (V 1 0 0) ((vy hi - vy lo) * (vz hi - vz lo)) vx (vx hi) (vy hi - vy lo) (vz hi - vz lo) eq_refl Ax); auto; try lra; [cbn; auto| |vunf; f_equal; ring|vunf; f_equal; ring|vunf; f_equal; ring].
    intros p [<-|[<-|[<-|[<-|[]]]]]; (split; [intros c [<-|[<-|[<-|[]]]]; cbn [vx vy vz]; auto|auto]).
  - apply (G _ _ _ _ (V 0 1 0) (- ((vx hi - vx lo) * (vz hi - vz lo))) vy (vy lo) (vx hi - vx lo) (vz hi - vz lo) eq_refl Ay); auto; try lra; [cbn; auto| |vunf; f_equal; ring|vunf; f_equal; ring|vunf; f_equal; ring].
    intros p [<-|[<-|[<-|[<-|[]]]]]; (split; [intros c [<-|[<-|[<-|[]]]]; cbn [vx vy vz]; auto|auto]).
  - apply (G _ _ _ _ (V 0 1 0) (- ((vx hi - vx lo) * (vz hi - vz lo))) vy (vy hi) (vx hi - vx lo) (vz hi - vz lo) eq_refl Ay); auto; try lra; [cbn; auto| |vunf; f_equal; ring|vunf; f_equal; ring|vunf; f_equal; ring].
    intros p [<-|[<-|[<-|[<-|[]]]]]; (split; [intros c [<-|[<-|[<-|[]]]]; cbn [vx vy vz]; auto|auto]).
Qed.
Lemma in_cube_iff lo hi p : in_cube (1 / 1000) lo hi p = true <-> about_in_cube lo hi p.
Proof.
  unfold in_cube, about_in_cube. rewrite !andb_true_iff, !Rleb_true. split.
  - intros (((((A1 & A2) & A3) & A4) & A5) & A6) c [<-|[<-|[<-|[]]]]; auto.
  - intros H. pose proof (H vx ltac:(cbn; auto)). pose proof (H vy ltac:(cbn; auto)). pose proof (H vz ltac:(cbn; auto)). tauto.
Qed.
Lemma existsb_in lo hi pts : existsb (in_cube (1 / 1000) lo hi) pts = true <-> exists p, In p pts /\ about_in_cube lo hi p.
Proof. rewrite existsb_exists. split; intros (p & I & H); exists p; (split; [auto|apply in_cube_iff; auto]). Qed.
(** What the test amounts to. *)
Lemma eps10 : 0 < 1 / 10000000000. Proof. lra. Qed.
Lemma cube_test f n d lo hi : planed f n d -> proper_cube lo hi -> exists r, is_polygon_crossing_cube (fst f) (snd f) lo hi = Ok r /\
  (r = true <-> (exists p, In p (fst f) /\ about_in_cube lo hi p) \/
    (exists u w l, mesh_edge f u w /\ In l (cube_polygons lo hi) /\ is_segment_crossing_polygon u w l [(0, 1, 2); (0, 2, 3)]%nat (1 / 10000000000) = Ok true) \/
    (exists u w, In (u, w) (cube_edges lo hi) /\ is_segment_crossing_polygon u w (fst f) (snd f) (1 / 10000000000) = Ok true)).
Proof.
  intros P C. unfold is_polygon_crossing_cube. destruct (existsb (in_cube (1 / 1000) lo hi) (fst f)) eqn:Ex.
  - apply existsb_in in Ex. exists true. split; auto. split; auto.
  - assert (Nx : ~ exists p, In p (fst f) /\ about_in_cube lo hi p) by (intros H; apply existsb_in in H; congruence).
    set (g := fun e : vec * vec => anyM (fun face0 => is_segment_crossing_polygon (fst e) (snd e) face0 [(0, 1, 2); (0, 2, 3)]%nat (1 / 10000000000)) (cube_polygons lo hi)).
    assert (Tg : forall e, exists b, g e = Ok b /\ (b = true <-> exists l, In l (cube_polygons lo hi) /\ is_segment_crossing_polygon (fst e) (snd e) l [(0, 1, 2); (0, 2, 3)]%nat (1 / 10000000000) = Ok true)).
    { intros e. apply anyM_iff. intros l Il. destruct (side_planed lo hi l C Il) as (c & b & n' & _ & _ & _ & Pl & _). exact (segment_total (cube_side l) n' (- b) (fst e) (snd e) _ Pl eps10). }
    match goal with |- context [anyM ?h (snd f)] => destruct (anyM_iff h (snd f)) as (b1 & E1 & H1) end.
    { intros t It. destruct (proj1 P) as (_ & _ & G & _). destruct (G t It) as (p1 & p2 & p3 & Tv & _). rewrite (proj2 (tri_pts_spec _ _ (p1, p2, p3)) Tv). cbn [rbind]. apply anyM_total. intros e _. destruct (Tg e) as (b & Eb & _). eauto. }
    rewrite E1. cbn [rbind]. destruct b1.
    + exists true. split; auto. split; auto. intros _. right. left. destruct (proj1 H1 eq_refl) as (t & It & Et). destruct (proj1 P) as (_ & _ & G & _). destruct (G t It) as (p1 & p2 & p3 & Tv & _). rewrite (proj2 (tri_pts_spec _ _ (p1, p2, p3)) Tv) in Et. cbn [rbind] in Et.
      apply anyM_true in Et. destruct Et as ((u, w) & Ie & Ee). change (g (u, w) = Ok true) in Ee. destruct (Tg (u, w)) as (b & Eb & Hb). rewrite Eb in Ee. apply Ok_inj in Ee. destruct (proj1 Hb Ee) as (l & Il & El). exists u, w, l. split; [exists t, p1, p2, p3; auto|auto].
    + destruct (anyM_iff (fun e => is_segment_crossing_polygon (fst e) (snd e) (fst f) (snd f) (1 / 10000000000)) (cube_edges lo hi)) as (b2 & E2 & H2). { intros e _. exact (segment_total f n d _ _ _ P eps10). }
      rewrite E2. exists b2. split; auto. rewrite H2. split.
      * intros ((u, w) & Ie & Ee). right. right. exists u, w. auto.
      * intros [X|[(u & w & l & (t & p1 & p2 & p3 & It & Tv & Iu) & Il & El)|(u & w & I & E)]]; [tauto| |exists (u, w); auto].
        exfalso. assert (X : false = true); [|discriminate]. apply H1. exists t. split; auto. rewrite (proj2 (tri_pts_spec _ _ (p1, p2, p3)) Tv). cbn [rbind]. apply anyM_found; [intros e _; destruct (Tg e) as (b & Eb & _); eauto|].
        exists (u, w). split; auto. change (g (u, w) = Ok true). destruct (Tg (u, w)) as (b & Eb & Hb). rewrite Eb. f_equal. apply Hb. eauto.
Qed.
Lemma along_coord c a b t : In c [vx; vy; vz] -> c (along a b t) = c a + t * (c b - c a).
Proof. unfold along. intros [<-|[<-|[<-|[]]]]; vunf; ring. Qed.
Lemma between_low c a b t m : In c [vx; vy; vz] -> 0 <= t <= 1 -> m < c a -> m < c b -> m < c (along a b t).
Proof. intros I T A B. rewrite along_coord by auto. replace (c a + t * (c b - c a)) with ((1 - t) * c a + t * c b) by ring. destruct (Rle_dec t (1 / 2)); nra. Qed.
Lemma between_high c a b t m : In c [vx; vy; vz] -> 0 <= t <= 1 -> c a < m -> c b < m -> c (along a b t) < m.
Proof. intros I T A B. rewrite along_coord by auto. replace (c a + t * (c b - c a)) with ((1 - t) * c a + t * c b) by ring. destruct (Rle_dec t (1 / 2)); nra. Qed.
Lemma cube_apart f n d lo hi : planed f n d -> proper_cube lo hi -> apart (fst f) lo hi -> is_polygon_crossing_cube (fst f) (snd f) lo hi = Ok false.
Proof.
  intros P C (c & Ic & A). destruct (cube_test f n d lo hi P C) as ([|] & E & H); auto. exfalso. pose proof (C c Ic) as Lc.
  assert (Cn : forall p, corner lo hi p -> c lo <= c p <= c hi) by (intros p Cp; destruct (Cp c Ic) as [->| ->]; lra).
  destruct (proj1 H eq_refl) as [(p & I & Ap)|[(u & w & l & Me & Il & El)|(u & w & Ie & Ee)]].
  - specialize (Ap c Ic). destruct A as [A|A]; specialize (A p I); lra.
  - destruct (side_planed lo hi l C Il) as (c' & b & n' & _ & _ & _ & Pl & Cl).
    assert (Iu : In u (fst f) /\ In w (fst f)). { destruct Me as (((i, j), k) & p1 & p2 & p3 & _ & (T1 & T2 & T3) & Ie). apply nth_error_In in T1, T2, T3. destruct Ie as [Ie|[Ie|[Ie|[]]]]; injection Ie as <- <-; auto. }
    destruct Iu as (Iu & Iw). change l with (fst (cube_side l)) in El. change [(0, 1, 2); (0, 2, 3)]%nat with (snd (cube_side l)) in El.
    rewrite (segment_misses (cube_side l) n' (- b) u w _ Pl eps10) in El; [discriminate|]. intros t T _. left. exists c. split; auto. cbn [cube_side fst]. destruct A as [A|A]; [left|right]; intros v Iv; pose proof (Cn v (proj1 (Cl v Iv))).
    + pose proof (between_low c u w t (c hi + 1 / 100) Ic T (A u Iu) (A w Iw)). lra.
    + pose proof (between_high c u w t (c lo - 1 / 100) Ic T (A u Iu) (A w Iw)). lra.
  - destruct (cube_edges_only lo hi u w) as (Cu & Cw & _); auto. { intros c0 I0. specialize (C c0 I0). lra. }
    rewrite (segment_misses f n d u w _ P eps10) in Ee; [discriminate|]. intros t T _. left. exists c. split; auto. pose proof (Cn u Cu). pose proof (Cn w Cw). destruct A as [A|A]; [right|left]; intros v Iv; specialize (A v Iv).
    + apply (between_high c u w t _ Ic T); lra.
    + apply (between_low c u w t _ Ic T); lra.
Qed.
Lemma cube_corner f n d lo hi p : planed f n d -> proper_cube lo hi -> In p (fst f) -> about_in_cube lo hi p -> is_polygon_crossing_cube (fst f) (snd f) lo hi = Ok true.
Proof. intros P C I A. destruct (cube_test f n d lo hi P C) as (r & E & H). rewrite E. f_equal. apply H. left. eauto. Qed.
Lemma cube_pierces f n d lo hi u w t : planed f n d -> proper_cube lo hi -> corner lo hi u -> corner lo hi w -> one_apart u w -> 0 <= t <= 1 -> on_plane n d (along u w t) -> touches f (along u w t) -> 1 / 10000000000 <= Rabs (dot n (vsub w u)) -> is_polygon_crossing_cube (fst f) (snd f) lo hi = Ok true.
Proof.
  intros P C Cu Cw O T On Tc L. destruct (cube_test f n d lo hi P C) as (r & E & H). rewrite E. f_equal. apply H. right. right.
  pose proof (segment_hits f n d u w _ t P eps10 L T On Tc) as S. destruct (cube_edges_spec lo hi u w) as [I|I]; auto; [intros c Ic; specialize (C c Ic); lra|exists u, w; auto|]. exists w, u. split; auto. rewrite (segment_reverse f n d u w _ P eps10). auto.
Qed.
Lemma cube_enters f n d lo hi c l u w t : planed f n d -> proper_cube lo hi -> mesh_edge f u w -> In l (cube_polygons lo hi) -> In c [vx; vy; vz] -> (forall p q, In p l -> In q l -> c p = c q) -> 0 <= t <= 1 -> touches (cube_side l) (along u w t) -> 1 / 10000000000 <= Rabs (c w - c u) -> is_polygon_crossing_cube (fst f) (snd f) lo hi = Ok true.
Proof.
  intros P C Me Il Ic Sm T Tc L. destruct (cube_test f n d lo hi P C) as (r & E & H). rewrite E. f_equal. apply H. right. left. exists u, w, l. split; auto. split; auto.
  destruct (side_planed lo hi l C Il) as (c' & b & n' & Ic' & Hb & (U & Dn) & Pl & Cl).
  assert (Ec : c' = c).
  { (* the side is flat in one coordinate only *)
    assert (D3 : forall a, In a [vx; vy; vz] -> a lo < a hi) by (intros a Ia; specialize (C a Ia); lra). pose proof (D3 vx ltac:(cbn; auto)). pose proof (D3 vy ltac:(cbn; auto)). pose proof (D3 vz ltac:(cbn; auto)).
    unfold cube_polygons in Il. assert (N : forall a, In a [vx; vy; vz] -> (exists p q, In p l /\ In q l /\ a p <> a q) \/ (forall a', In a' [vx; vy; vz] -> a' <> a -> exists p q, In p l /\ In q l /\ a' p <> a' q)).
    { destruct Il as [<-|[<-|[<-|[<-|[<-|[<-|[]]]]]]]; intros a [<-|[<-|[<-|[]]]];
        first [left; do 2 eexists; split; [left; reflexivity|]; split; [right; left; reflexivity|]; cbn [vx vy vz]; lra
              |left; do 2 eexists; split; [left; reflexivity|]; split; [right; right; left; reflexivity|]; cbn [vx vy vz]; lra
              |right; intros a' [<-|[<-|[<-|[]]]] Na; first [congruence|do 2 eexists; split; [left; reflexivity|]; split; [right; right; left; reflexivity|]; cbn [vx vy vz]; lra]]. }
    destruct (N c Ic) as [(p & q & Ip & Iq & X)|N']; [exfalso; apply X; auto|].
    assert (Dec : c' = c \/ c' <> c) by (clear - Ic Ic'; destruct Ic as [<-|[<-|[<-|[]]]], Ic' as [<-|[<-|[<-|[]]]]; first [left; reflexivity|right; intros X; apply (f_equal (fun h => h (V 1 2 3))) in X; cbn [vx vy vz] in X; lra]). destruct Dec as [|Nc]; auto. destruct (N' c' Ic' Nc) as (p & q & Ip & Iq & X). exfalso. apply X. rewrite (proj2 (Cl p Ip)), (proj2 (Cl q Iq)). auto. }
  subst c'. assert (Dw : dot n' (vsub w u) = c w - c u) by (rewrite Dn; destruct Ic as [<-|[<-|[<-|[]]]]; vunf; ring).
  change l with (fst (cube_side l)). change [(0, 1, 2); (0, 2, 3)]%nat with (snd (cube_side l)). apply (segment_hits (cube_side l) n' (- b) u w _ t Pl eps10); auto; [rewrite Dw; auto|].
  apply mesh_on_plane with (f := cube_side l); [apply (proj1 Pl)|]. apply (touches_in_mesh _ n' (- b)); [apply Pl|auto].
Qed.
(** The centre of a tetrahedron. *)
Lemma centroid_spec p0 p1 p2 p3 g : tetrahedron_centroid p0 p1 p2 p3 = g <-> vadd (vadd (vsub p0 g) (vsub p1 g)) (vadd (vsub p2 g) (vsub p3 g)) = vzero.
Proof.
  unfold tetrahedron_centroid, vdiv. destruct p0 as [a0 b0 c0], p1 as [a1 b1 c1], p2 as [a2 b2 c2], p3 as [a3 b3 c3], g as [ga gb gc]. unfold vadd, vsub, vzero. cbn [vx vy vz]. split.
  - intros E. injection E as <- <- <-. f_equal; field.
  - intros E. injection E as E1 E2 E3. f_equal; lra.
Qed.
