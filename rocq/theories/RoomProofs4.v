(** Walls made of one triangle: a point taken for near, and a ray reflected. *)
From Coq Require Import Reals ZArith List Bool Arith Lia Lra Permutation.
From Verif Require Import Prelude VecModel VecProofs SimModel SimSpec SimProofs SimProofs2 SimProofs3 SimProofs4 VoxModel VoxSpec VoxProofs GeomModel GeomSpec GeomProofs1 GeomProofs2 GeomProofs3 GeomProofs4 GeomProofs5 TriModel TriSpec PolyModel PolySpec PolyProofs1 PolyProofs2 CrossSpec CrossProofs1 InsideSpec InsideProofs1 InsideProofs3 RoomSpec RoomProofs1 RoomProofs2 RoomProofs3.
Import ListNotations.
Local Open Scope R_scope.

Lemma tri_wall a b c n d k : unit n -> cross (vsub b a) (vsub c a) = smul k n -> 1 / 1000 < k -> dot n a + d = 0 -> sound_wall ([a; b; c], [(2, 0, 1)]%nat) n d.
Proof.
  intros U Cr K D. assert (P : forall v, dot (cross (vsub b a) (vsub c a)) v = 0 -> dot n v = 0). { intros v H. rewrite Cr in H. replace (dot (smul k n) v) with (k * dot n v) in H by (vunf; ring). apply Rmult_integral in H. destruct H; [lra|auto]. }
  assert (Q : forall q, dot (cross (vsub b a) (vsub c a)) (vsub q a) = 0 -> on_plane n d q). { intros q H. apply P in H. replace (dot n (vsub q a)) with (dot n q - dot n a) in H by (vunf; ring). unfold on_plane. lra. }
  assert (Ar : forall x y z, cross (vsub y x) (vsub z x) = cross (vsub b a) (vsub c a) -> 2 * true_area x y z = k) by (intros x y z E; unfold true_area; rewrite E, Cr, norm_smul, (unit_norm n U), Rabs_pos_eq; lra).
  assert (Cc : cross (vsub a c) (vsub b c) = cross (vsub b a) (vsub c a)) by (dvec a; dvec b; dvec c; vunf; f_equal; ring).
  assert (Nz : forall x y z, cross (vsub y x) (vsub z x) = cross (vsub b a) (vsub c a) -> x <> y).
  { intros x y z E ->. specialize (Ar y y z E). unfold true_area in Ar. replace (cross (vsub y y) (vsub z y)) with vzero in Ar by (dvec y; dvec z; vunf; f_equal; ring). unfold norm in Ar. replace (dot vzero vzero) with 0 in Ar by (vunf; ring). rewrite sqrt_0 in Ar. lra. }
  split; [|split; [|split]].
  - split; [exact U|]. split; [cbn [fst]; intros q [<-|[<-|[<-|[]]]]; apply Q; dvec a; dvec b; dvec c; vunf; ring|]. split; [|split].
    + cbn [snd fst]. intros t [<-|[]]. exists c, a, b. split; [split; [reflexivity|split; reflexivity]|]. rewrite Cc, Cr, dot_smul_r. rewrite U. lra.
    + intros i j I. left. revert I. cbn. tauto.
    + intros e. cbn. tauto.
  - cbn [fst snd]. intros t [<-|[]]. do 3 eexists. split; [split; [reflexivity|split; reflexivity]|]. rewrite (Ar c a b Cc). lra.
  - intros e. cbn [fst]. intros [<-|[<-|[<-|[]]]]; cbn [fst snd]; [apply (Nz a b c eq_refl)|apply (Nz b c a)|apply (Nz c a b Cc)]. dvec a; dvec b; dvec c; vunf; f_equal; ring.
  - exists a, b, c, []. split; [reflexivity|]. cbn [fst last]. rewrite (Ar c a b Cc). lra.
Qed.
Lemma wall_normal f n d : sound_wall f n d -> exists m, first_normal_is (fst f) m.
Proof.
  intros S. destruct (wall_plane f n d S) as (e & _ & C). destruct S as (_ & _ & _ & a & b & c & r & E & _). unfold plane_coefficients in C. rewrite E in C. cbn [first_three rbind] in C.
  destruct (normal (last (a :: b :: c :: r) a) a b) as [m|] eqn:Nm; [|discriminate]. exists m, a, b, (c :: r). rewrite E. auto.
Qed.

(** A triangle far from the origin and a point 9/1000 beside it. *)
Definition far_wall : face := ([V 10000 0 0; V 10001 0 0; V 10000 1 0], [(2, 0, 1)]%nat).
Definition beside : vec := V (10001 + 9 / 1000) 0 0.
Lemma far_sound : sound_wall far_wall (V 0 0 1) 0.
Proof. apply (tri_wall _ _ _ _ _ 1); [unfold unit; vunf; ring|vunf; f_equal; ring|lra|vunf; ring]. Qed.
Lemma far_accepted : is_point_inside_ortho beside (fst far_wall) (snd far_wall) = Ok true.
Proof.
  rewrite (ortho_raised _ _ _ _ far_sound). assert (Er : fst (raised far_wall (V 0 0 1) 0 beside) = fst far_wall) by (unfold raised, far_wall, beside; cbn [fst map]; vunf; repeat f_equal; ring).
  rewrite Er. unfold is_point_inside. destruct (inside_bbox_spec beside (fst far_wall) (1 / 100)) as (bb & -> & B); [discriminate|]. assert (bb = true) as ->.
  { apply B. intros co [<-|[<-|[<-|[]]]]; (split; [exists (V 10000 0 0)|exists (V 10001 0 0)]); (split; [simpl; auto|]); unfold beside; cbn [vx vy vz]; lra. }
  cbn [rbind negb]. rewrite (flat_coplanar far_wall (V 0 0 1) 0 beside GEOM_ATOL (wall_flat _ _ _ far_sound)); [|unfold GEOM_ATOL; lra|unfold on_plane, beside; vunf; ring].
  cbn [rbind negb far_wall fst snd inside_loop tri_pts nth_error]. unfold tri_pts. cbn [nth_error rbind]. unfold is_point_inside_triangle.
  destruct (inside_bbox_spec beside [V 10000 1 0; V 10000 0 0; V 10001 0 0] (1 / 100)) as (bb & E & B'); [discriminate|]. assert (bb = true) as ->.
  { apply B'. intros co [<-|[<-|[<-|[]]]]; (split; [exists (V 10000 0 0)|exists (V 10001 0 0)]); (split; [simpl; auto|]); unfold beside; cbn [vx vy vz]; lra. }
  rewrite E. cbn [rbind negb]. replace (allclose beside (V 10001 0 0) RTOL GEOM_ATOL) with true; [rewrite !orb_true_r; reflexivity|].
  symmetry. unfold allclose, isclose, beside, RTOL, GEOM_ATOL. cbn [vx vy vz]. rewrite !andb_true_iff. repeat split; apply Rleb_true; unfold Rabs; repeat destruct (Rcase_abs _); lra.
Qed.
Lemma norm_comp (w : vec) k : 0 <= k -> (k <= vx w \/ k <= vy w \/ k <= vz w) -> k <= norm w.
Proof. intros K H. unfold norm. rewrite <- (sqrt_square k K). apply sqrt_le_1_alt. dvec w. vunf. cbn [vx vy vz] in H. destruct H as [H|[H|H]]; nra. Qed.
Lemma dist_sym_ p q : dist p q = dist q p.
Proof. unfold dist, norm. f_equal. dvec p; dvec q; vunf; ring. Qed.
Lemma far_beside q : in_mesh far_wall q -> 9 / 1000 <= dist beside q.
Proof.
  intros (t & a & b & c & [<-|[]] & (A & B & C) & (x & y & z & X & Y & Z & S & ->)). cbn in A, B, C. injection A as <-. injection B as <-. injection C as <-.
  rewrite dist_sym_. unfold dist. apply norm_comp; [lra|]. left. unfold bary, beside. vunf. lra.
Qed.
Lemma far_refuted : exists f n d m p, sound_wall f n d /\ first_normal_is (fst f) m /\ distance_point_to_polygon p (fst f) (snd f) m = Ok 0 /\ forall q, in_mesh f q -> 9 / 1000 <= dist p q.
Proof.
  destruct (wall_normal _ _ _ far_sound) as (m & Fn). exists far_wall, (V 0 0 1), 0, m, beside. split; [exact far_sound|]. split; auto. split; [|exact far_beside].
  destruct (distance_total _ _ _ m beside far_sound Fn) as (r & E). rewrite E. f_equal. destruct (distance_cases _ _ _ m beside r far_sound Fn E) as [(_ & (q & Q & Eq) & M)|(O & _)]; [|rewrite far_accepted in O; discriminate].
  assert (r <= 0). { specialize (M beside). replace (dist beside beside) with 0 in M; [apply M; unfold on_plane, beside; vunf; ring|]. unfold dist, norm. replace (dot _ _) with 0 by (unfold beside; vunf; ring). rewrite sqrt_0. auto. }
  assert (0 <= r) by (rewrite <- Eq; unfold dist, norm; apply sqrt_pos). lra.
Qed.

(** A floor and a ray falling on it. *)
Definition floor_tri : face := ([V 0 0 0; V 4 0 0; V 0 4 0], [(2, 0, 1)]%nat).
Lemma floor_sound : sound_wall floor_tri (V 0 0 1) 0.
Proof. apply (tri_wall _ _ _ _ _ 16); [unfold unit; vunf; ring|vunf; f_equal; ring|lra|vunf; ring]. Qed.
Lemma floor_within : touches floor_tri (V 1 1 0).
Proof.
  left. exists (2, 0, 1)%nat, (V 0 4 0), (V 0 0 0), (V 4 0 0). split; [simpl; auto|]. split; [split; [reflexivity|split; reflexivity]|]. split.
  - exists (1 / 4), (1 / 2), (1 / 4). unfold bary. repeat (split; [lra|]). vunf. f_equal; lra.
  - split; [|split]; apply off_edge_sq; vunf; lra.
Qed.
Lemma floor_beyond : clear_foot floor_tri (V 0 0 1) 0 (V 9 9 3).
Proof. right. left. exists vx. split; [simpl; auto|]. left. unfold raised, floor_tri. cbn [fst map]. intros v [<-|[<-|[<-|[]]]]; vunf; lra. Qed.
Lemma foot_down z : foot (V 0 0 1) 0 (V 1 1 z) = V 1 1 0.
Proof. unfold foot. vunf. f_equal; ring. Qed.
Lemma floor_distance m z : 0 <= z -> first_normal_is (fst floor_tri) m -> distance_point_to_polygon (V 1 1 z) (fst floor_tri) (snd floor_tri) m = Ok z.
Proof.
  intros Z Fn. destruct (distance_total _ _ _ m (V 1 1 z) floor_sound Fn) as (r & E). rewrite E. f_equal.
  destruct (distance_cases _ _ _ m (V 1 1 z) r floor_sound Fn E) as [(_ & (q & Q & Eq) & M)|(O & _)].
  - assert (r <= z). { replace z with (dist (V 1 1 z) (V 1 1 0)); [apply M; unfold on_plane; vunf; ring|]. unfold dist, norm. replace (dot _ _) with (z * z) by (vunf; ring). apply sqrt_square; auto. }
    assert (z <= r); [|lra]. rewrite <- Eq, dist_sym_. unfold dist. apply norm_comp; auto. right. right. unfold on_plane in Q. revert Q. dvec q. vunf. lra.
  - rewrite (ortho_true _ _ _ _ floor_sound) in O; [discriminate|]. rewrite foot_down. exact floor_within.
Qed.

Lemma iter5 sc x : Nat.iter 5 (micro sc) x = micro sc (micro sc (micro sc (micro sc (micro sc x)))).
Proof. reflexivity. Qed.
Lemma micro_done sc r : micro sc (Done, r) = (Done, r).
Proof. reflexivity. Qed.
Lemma micro_start sc p v dp en : 0 <= eps sc -> eps sc < en -> outside sc p = false -> micro sc (Start, mkRay p v dp en) = (Loop (target sc p v), mkRay p v dp en).
Proof. intros E0 E O. cbn [micro r_en r_pos r_vel r_dpos]. rewrite (proj2 (Rleb_false en (eps sc))) by lra. rewrite O, andb_false_r. auto. Qed.
Lemma micro_fly sc p v dp en t : eps sc < en -> (t = None \/ exists k, t = Some k /\ rdist sc < pdist sc p k) -> micro sc (Loop t, mkRay p v dp en) = (Done, mkRay (vadd p dp) v dp en).
Proof.
  intros E T. cbn [micro r_en r_pos r_vel r_dpos]. destruct T as [->|(k & -> & L)]; cbn [dist_lt dist_gt]; rewrite (proj2 (Rltb_true (eps sc) en)) by lra; auto.
  unfold rdist in L. unfold reflection_dist. rewrite (proj2 (Rltb_false (pdist sc p k) (speed sc * dt sc * (101 / 100)))) by lra. rewrite (proj2 (Rltb_true (speed sc * dt sc * (101 / 100)) (pdist sc p k))) by lra. reflexivity.
Qed.
Lemma step_fly sc p v dp en : 0 <= eps sc -> eps sc < en -> outside sc p = false -> (target sc p v = None \/ exists k, target sc p v = Some k /\ rdist sc < pdist sc p k) ->
  step_ray sc 5 (mkRay p v dp en) = Ok (mkRay (vadd p dp) v dp en).
Proof. intros E0 E O T. unfold step_ray. rewrite iter5, micro_start, micro_fly, !micro_done; auto. Qed.
Lemma step_bounce sc p v dp en k : 0 <= eps sc -> eps sc < en -> outside sc p = false -> target sc p v = Some k -> pdist sc p k < rdist sc -> eps sc < en - surf sc k -> target sc p (mirror (pnormal sc k) v) = None ->
  step_ray sc 5 (mkRay p v dp en) = Ok (mkRay (vadd p (smul (dt sc) (mirror (pnormal sc k) v))) (mirror (pnormal sc k) v) (smul (dt sc) (mirror (pnormal sc k) v)) (en - surf sc k)).
Proof.
  intros E0 E O T L E' T'. unfold step_ray. rewrite iter5, micro_start by auto. rewrite T.
  replace (micro sc (Loop (Some k), mkRay p v dp en)) with (Loop (@None nat), mkRay p (mirror (pnormal sc k) v) (smul (dt sc) (mirror (pnormal sc k) v)) (en - surf sc k)); [rewrite micro_fly, !micro_done by auto; reflexivity|].
  symmetry. cbn [micro r_en r_pos r_vel r_dpos dist_lt]. rewrite (proj2 (Rltb_true (eps sc) en)) by lra. unfold rdist in L. unfold reflection_dist. rewrite (proj2 (Rltb_true (pdist sc p k) (speed sc * dt sc * (101 / 100)))) by lra. cbn [andb].
  rewrite (proj2 (Rleb_false (en - surf sc k) (eps sc))) by lra. unfold reflect. cbn [r_en r_pos r_vel r_dpos]. change (vsub v (smul (2 * dot (pnormal sc k) v) (pnormal sc k))) with (mirror (pnormal sc k) v). rewrite T'. reflexivity.
Qed.

Definition quiet : scene := mkScene (fun _ _ => None) (fun _ _ => 0) (fun _ => vzero) (fun _ => 1 / 10) vzero (V 4 4 4) [] 1 (1 / 1000000) (1 / 4) 1.
Definition falling : buffers := mkBuf [[V 1 1 (1 / 2)]; [V 1 1 (1 / 4)]; [V 1 1 (1 / 2)]] [[1]; [1]; [9 / 10]] [[]; []; []].
Lemma floor_room : exists grid sc, room [floor_tri] [] (fun l => l) vzero (V 4 4 4) 1 (1 / 1000) grid sc /\ 0 < dt sc /\ 0 < speed sc * dt sc <= 1 /\ 0 <= eps sc /\
  (forall v, In v [V 0 0 (-1)] -> norm v = speed sc) /\ simulation_loop sc 5 2 [V 1 1 (1 / 2)] [V 0 0 (-1)] [1] [] = Ok falling.
Proof.
  assert (Bx : forall f, In f [floor_tri] -> fst f <> [] /\ forall p, In p (fst f) -> in_box vzero (V 4 4 4) p).
  { intros f [<-|[]]. split; [discriminate|]. cbn [floor_tri fst]. intros p [<-|[<-|[<-|[]]]]; unfold in_box, vzero; cbn [vx vy vz]; lra. }
  destruct (grid_complete vzero (V 4 4 4) (map fst [floor_tri]) 1 (1 / 1000)) as (grid & Gr & _); [lra|lra| |].
  { intros pts I. apply in_map_iff in I. destruct I as (f & <- & I). auto. }
  destruct (scene_exists [floor_tri] [] (fun l => l) 1 grid quiet) as (sc & Sc & Esf & Eb1 & Eb2 & Eab & _ & Eep & Edt & Esp); [tauto|intros f [<-|[]]; do 2 eexists; exact floor_sound|].
  assert (Rm : room [floor_tri] [] (fun l => l) vzero (V 4 4 4) 1 (1 / 1000) grid sc) by (split; [tauto|]; split; [lra|]; split; [lra|]; split; [exact Bx|]; split; [exact Gr|exact Sc]).
  cbn [quiet surf bbmin bbmax absorbers eps dt speed] in *. exists grid, sc. split; [exact Rm|]. rewrite Edt, Esp, Eep. split; [lra|]. split; [lra|]. split; [lra|]. split; [intros v [<-|[]]; unfold norm; replace (dot _ _) with 1 by (vunf; ring); apply sqrt_1|].
  destruct Sc as (Sn & hit & Hh & Ht). destruct (Sn 0%nat floor_tri eq_refl) as (Fn & Dp). assert (Pd : forall z, 0 <= z -> pdist sc (V 1 1 z) 0 = z). { intros z Z. specialize (Dp (V 1 1 z)). rewrite (floor_distance _ z Z Fn) in Dp. apply Ok_inj in Dp. auto. }
  assert (Hd : forall z, 0 <= z -> hit (V 1 1 z) (V 0 0 (-1)) 0%nat = true).
  { intros z Z. assert (X : is_point_inside_projection (V 1 1 z) (V 0 0 (-1)) (fst floor_tri) (snd floor_tri) true (1 / 1000) = Ok true); [|rewrite (Hh _ _ 0%nat floor_tri eq_refl) in X; apply Ok_inj in X; auto].
    rewrite (hit_ahead floor_tri (V 0 0 1) 0 _ _ z floor_sound Z); [|unfold on_plane; vunf; ring|vunf; unfold Rabs; destruct (Rcase_abs _); lra].
    replace (vadd (V 1 1 z) (smul z (V 0 0 (-1)))) with (V 1 1 0) by (vunf; f_equal; ring). apply (flat_accepted _ (V 0 0 1) 0); [exact (wall_flat _ _ _ floor_sound)|lra|unfold on_plane; vunf; ring|exact floor_within]. }
  assert (Hu : forall z, 0 < z -> hit (V 1 1 z) (V 0 0 1) 0%nat = false).
  { intros z Z. assert (X : is_point_inside_projection (V 1 1 z) (V 0 0 1) (fst floor_tri) (snd floor_tri) true (1 / 1000) = Ok false); [|rewrite (Hh _ _ 0%nat floor_tri eq_refl) in X; apply Ok_inj in X; auto].
    destruct (wall_plane _ _ _ floor_sound) as (e & He & C). destruct (projection_spec (V 1 1 z) (V 0 0 1) (fst floor_tri) (snd floor_tri) true (1 / 1000) _ _ false C) as (s & _ & Un & I); [lra|destruct He as [->| ->]; vunf; unfold Rabs; destruct (Rcase_abs _); lra|]. apply I.
    rewrite <- (Un (- z)); [|destruct He as [->| ->]; unfold on_plane; vunf; ring]. rewrite (proj2 (Rltb_true (- z) 0)) by lra. reflexivity. }
  assert (Td : forall z, 0 <= z <= 1 -> target sc (V 1 1 z) (V 0 0 (-1)) = Some 0%nat).
  { intros z Z. destruct (no_wall_missed hit (pdist sc) (fun l => l) vzero (V 4 4 4) (map fst [floor_tri]) 1 (1 / 1000) grid [] (V 1 1 z) (V 0 0 (-1)) 0 (fst floor_tri) (V 1 1 0)) as (b & Eb & _); auto; try lra; try tauto.
    - intros pts I. apply in_map_iff in I. destruct I as (f & <- & I). auto.
    - apply mesh_in_hull. apply (touches_in_mesh _ (V 0 0 1) 0); [exact (wall_flat _ _ _ floor_sound)|exact floor_within].
    - unfold norm. replace (dot _ _) with (z * z) by (vunf; ring). rewrite sqrt_square; lra.
    - apply Hd; lra.
    - rewrite Ht in Eb. apply Ok_inj in Eb. rewrite Eb. destruct (target_wall _ _ _ _ _ _ _ _ _ Rm _ _ _ Eb) as (f & N). destruct b as [|[|b]]; [auto|discriminate|discriminate]. }
  assert (Tu : forall z, 0 < z -> target sc (V 1 1 z) (V 0 0 1) = None).
  { intros z Z. destruct (target sc (V 1 1 z) (V 0 0 1)) as [b|] eqn:Eb; auto. exfalso. destruct (target_wall _ _ _ _ _ _ _ _ _ Rm _ _ _ Eb) as (f & N). assert (b = 0)%nat as -> by (destruct b as [|[|b]]; [auto|discriminate|discriminate]).
    destruct (sim_target_spec hit (pdist sc) (fun l => l) 1 grid [] (V 1 1 z) (V 0 0 1)) as (t & Et & X); [tauto|]. rewrite Ht, Eb in Et. apply Ok_inj in Et. subst t. destruct X as ((_ & _ & X) & _). rewrite Hu in X by auto. discriminate. }
  assert (Mi : mirror (pnormal sc 0) (V 0 0 (-1)) = V 0 0 1).
  { destruct (first_normal_plane _ _ _ _ floor_sound Fn) as (e & He & Em & _). rewrite Em. unfold mirror. destruct He as [->| ->]; vunf; f_equal; ring. }
  assert (Ou : forall z, 0 <= z <= 1 -> outside sc (V 1 1 z) = false).
  { intros z Z. unfold outside. rewrite Eb1, Eb2, Eep. unfold vzero. cbn [vx vy vz]. rewrite !orb_false_iff. repeat split; apply Rltb_false; lra. }
  assert (St : forall r r', step_ray sc 5 r = Ok r' -> sim_step sc 5 (mkSim [r] []) = Ok (mkSim [r'] [])).
  { intros r r' E. unfold sim_step. cbn [s_rays s_hits map absorb]. rewrite Eab. cbn [check_absorbers]. destruct (Rleb (r_en r) (eps sc)); cbn [mapM rbind]; rewrite E; reflexivity. }
  rewrite loop_trace. unfold init_rays. cbn [combine map trace]. rewrite Edt. rewrite (St _ (mkRay (V 1 1 (1 / 4)) (V 0 0 (-1)) (smul (1 / 4) (V 0 0 (-1))) 1)).
  - cbn [rbind]. rewrite (St _ (mkRay (V 1 1 (1 / 2)) (V 0 0 1) (smul (1 / 4) (V 0 0 1)) (9 / 10))); [reflexivity|].
    rewrite (step_bounce sc _ _ _ _ 0); rewrite ?Eep, ?Esf, ?Mi, ?Edt; try lra; [|apply Ou; lra|apply Td; lra|unfold rdist; rewrite Edt, Esp, Pd; lra|apply Tu; lra].
    f_equal. f_equal; [vunf; f_equal; lra|lra].
  - rewrite step_fly; rewrite ?Eep; try lra; [f_equal; f_equal; vunf; f_equal; lra|apply Ou; lra|right; exists 0%nat; split; [apply Td; lra|unfold rdist; rewrite Edt, Esp, Pd; lra]].
Qed.

(** A ray passes through an interior point that is rejected. *)
Definition sieve : face := ([tri_b; tri_c; tri_a], [(2, 0, 1)]%nat).
Lemma sieve_sound : sound_wall sieve (V 0 0 1) 0.
Proof. apply (tri_wall _ _ _ _ _ 2); unfold tri_a, tri_b, tri_c; [unfold unit; vunf; ring|vunf; f_equal; ring|lra|vunf; ring]. Qed.
Lemma sieve_rejects : is_point_inside pt_in (fst sieve) (snd sieve) true (1 / 1000) = Ok false.
Proof.
  unfold is_point_inside. destruct (inside_bbox_spec pt_in (fst sieve) (1 / 100)) as (bb & -> & B); [discriminate|]. destruct bb; [|reflexivity]. cbn [rbind negb].
  rewrite (flat_coplanar sieve (V 0 0 1) 0 pt_in (1 / 1000) (wall_flat _ _ _ sieve_sound)); [|lra|unfold on_plane, pt_in; vunf; ring]. cbn [rbind negb sieve fst snd inside_loop]. unfold tri_pts. cbn [nth_error rbind]. rewrite pt_in_rejected. reflexivity.
Qed.
Definition above : vec := V (- (1 / 1000000)) (1 / 2000000) (1 / 8).
Definition below : vec := V (- (1 / 1000000)) (1 / 2000000) (- (1 / 8)).
Definition still : scene := mkScene (fun _ _ => None) (fun _ _ => 0) (fun _ => vzero) (fun _ => 1 / 10) (V (-1) (-1) (-1)) (V 1 1 1) [] 1 (1 / 1000000) (1 / 4) 1.
Lemma sieve_leaks : exists grid sc b, sound_wall sieve (V 0 0 1) 0 /\ room [sieve] [] (fun l => l) (V (-1) (-1) (-1)) (V 1 1 1) 1 (1 / 1000) grid sc /\ 0 < dt sc /\ 0 < speed sc * dt sc <= 1 /\ 0 <= eps sc /\
  norm (V 0 0 (-1)) = speed sc /\ simulation_loop sc 5 1 [above] [V 0 0 (-1)] [1] [] = Ok b /\ b_pos b = [[above]; [below]] /\ strictly_inside tri_a tri_b tri_c (vadd above (smul (1 / 2) (vsub below above))).
Proof.
  assert (Bx : forall f, In f [sieve] -> fst f <> [] /\ forall p, In p (fst f) -> in_box (V (-1) (-1) (-1)) (V 1 1 1) p).
  { intros f [<-|[]]. split; [discriminate|]. cbn [sieve fst]. unfold tri_a, tri_b, tri_c. intros p [<-|[<-|[<-|[]]]]; unfold in_box; cbn [vx vy vz]; lra. }
  destruct (grid_complete (V (-1) (-1) (-1)) (V 1 1 1) (map fst [sieve]) 1 (1 / 1000)) as (grid & Gr & _); [lra|lra| |].
  { intros pts I. apply in_map_iff in I. destruct I as (f & <- & I). auto. }
  destruct (scene_exists [sieve] [] (fun l => l) 1 grid still) as (sc & Sc & Esf & Eb1 & Eb2 & Eab & _ & Eep & Edt & Esp); [tauto|intros f [<-|[]]; do 2 eexists; exact sieve_sound|].
  assert (Rm : room [sieve] [] (fun l => l) (V (-1) (-1) (-1)) (V 1 1 1) 1 (1 / 1000) grid sc) by (split; [tauto|]; split; [lra|]; split; [lra|]; split; [exact Bx|]; split; [exact Gr|exact Sc]).
  cbn [still surf bbmin bbmax absorbers eps dt speed] in *.
  assert (Tn : target sc above (V 0 0 (-1)) = None).
  { destruct Sc as (Sn & hit & Hh & Ht). destruct (target sc above (V 0 0 (-1))) as [b|] eqn:Eb; auto. exfalso. destruct (target_wall _ _ _ _ _ _ _ _ _ Rm _ _ _ Eb) as (f & N). assert (b = 0)%nat as -> by (destruct b as [|[|b]]; [auto|discriminate|discriminate]).
    destruct (sim_target_spec hit (pdist sc) (fun l => l) 1 grid [] above (V 0 0 (-1))) as (t & Et & X); [tauto|]. rewrite Ht, Eb in Et. apply Ok_inj in Et. subst t. destruct X as ((_ & _ & X) & _).
    assert (Y : is_point_inside_projection above (V 0 0 (-1)) (fst sieve) (snd sieve) true (1 / 1000) = Ok false); [|rewrite (Hh _ _ 0%nat sieve eq_refl) in Y; apply Ok_inj in Y; congruence].
    rewrite (hit_ahead sieve (V 0 0 1) 0 _ _ (1 / 8) sieve_sound); [|lra|unfold on_plane, above; vunf; lra|vunf; unfold Rabs; destruct (Rcase_abs _); lra].
    replace (vadd above (smul (1 / 8) (V 0 0 (-1)))) with pt_in by (unfold above, pt_in; vunf; f_equal; lra). exact sieve_rejects. }
  exists grid, sc, (mkBuf [[above]; [below]] [[1]; [1]] [[]; []]). split; [exact sieve_sound|]. split; [exact Rm|]. rewrite Edt, Esp, Eep. split; [lra|]. split; [lra|]. split; [lra|]. split; [unfold norm; replace (dot _ _) with 1 by (vunf; ring); apply sqrt_1|]. split.
  - rewrite loop_trace. unfold init_rays. cbn [combine map trace]. rewrite Edt. unfold sim_step. cbn [s_rays s_hits map absorb]. rewrite Eab. cbn [check_absorbers r_en]. rewrite (proj2 (Rleb_false 1 (eps sc))) by lra. cbn [mapM rbind].
    rewrite step_fly; rewrite ?Eep; try lra; [|unfold outside; rewrite Eb1, Eb2, Eep; unfold above; cbn [vx vy vz]; rewrite !orb_false_iff; repeat split; apply Rltb_false; lra|auto].
    cbn [rbind map s_rays s_hits r_pos r_en]. replace (vadd above (smul (1 / 4) (V 0 0 (-1)))) with below by (unfold above, below; vunf; f_equal; lra). reflexivity.
  - split; [reflexivity|]. replace (vadd above (smul (1 / 2) (vsub below above))) with pt_in by (unfold above, below, pt_in; vunf; f_equal; lra). exact pt_in_inside.
Qed.
Lemma interior_crossed : exists f n d grid sc b p p', sound_wall f n d /\ room [f] [] (fun l => l) (V (-1) (-1) (-1)) (V 1 1 1) 1 (1 / 1000) grid sc /\
  0 < dt sc /\ 0 < speed sc * dt sc <= 1 /\ 0 <= eps sc /\ norm (V 0 0 (-1)) = speed sc /\
  simulation_loop sc 5 1 [p] [V 0 0 (-1)] [1] [] = Ok b /\ b_pos b = [[p]; [p']] /\
  exists x y z, fst f = [y; z; x] /\ strictly_inside x y z (vadd p (smul (1 / 2) (vsub p' p))).
Proof.
  destruct sieve_leaks as (grid & sc & b & H1 & H2 & H3 & H4 & H5 & H6 & H7 & H8 & H9). exists sieve, (V 0 0 1), 0, grid, sc, b, above, below. do 8 (split; [assumption|]). exists tri_a, tri_b, tri_c. auto.
Qed.
