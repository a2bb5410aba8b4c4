(** Proofs: a ray that starts on a wall stays there and loses its energy. *)
From Coq Require Import Reals ZArith List Bool Arith Lia Lra.
From Verif Require Import Prelude VecModel VecProofs SimModel SimSpec SimProofs SimProofs2 SimProofs3 SimProofs4 VoxModel VoxSpec VoxProofs GeomModel GeomSpec GeomProofs1 GeomProofs2 GeomProofs4 PolyModel PolySpec PolyProofs1 CrossSpec InsideSpec RoomSpec RoomProofs1 RoomProofs2 RoomProofs3 RoomProofs4.
Import ListNotations.
Local Open Scope R_scope.

(** A ray that always has a near target does not move. *)
Section Stuck.
Context (sc : scene) (p : vec) (Ep : 0 <= eps sc).
Context (St : forall v, exists k, target sc p v = Some k /\ pdist sc p k < rdist sc).
Lemma stuck_outcome r r' : outcome sc r r' -> r_pos r = p -> eps sc < r_en r -> r_pos r' = p /\ r_en r' = 0.
Proof.
  intros O P E. destruct O as [D ->|_ L ->|ps _ _ B _ _ Ed Tg Epos|ps k _ _ B _ _ Ed Tg Pd Epos|ps k _ _ B Tg Pd _ _ Ed En Epos].
  - lra.
  - cbn [r_pos r_en with_energy]. auto.
  - exfalso. rewrite P in Tg. destruct (St (r_vel r')) as (k & Tk & Dk). destruct Tg as [Tg|(k' & Tg & Dk')]; [congruence|]. rewrite Tk in Tg. injection Tg as <-. lra.
  - exfalso. rewrite P in Tg, Pd. destruct (St (r_vel r')) as (k' & Tk & Dk). rewrite Tk in Tg. injection Tg as <-. lra.
  - rewrite Epos. auto.
Qed.
Lemma stuck_dead r r' : outcome sc r r' -> r_en r = 0 -> r' = r.
Proof. intros O E. destruct O; auto; lra. Qed.
Lemma stuck_step s1 s2 k r : steps_to sc s1 s2 -> nth_error (s_rays s1) k = Some r -> r_pos r = p -> (eps sc < r_en r \/ r_en r = 0) -> forall r', nth_error (s_rays s2) k = Some r' -> r_pos r' = p /\ r_en r' = 0.
Proof.
  intros ((rs & A & O) & _) N P E r' N'. destruct (forall2_nth _ _ _ _ _ O N') as (r1 & N1 & O1). destruct (forall2_nth _ _ _ _ _ A N1) as (r0 & Nr & A1). rewrite N in Nr. injection Nr as <-.
  destruct A1 as [(_ & _ & ->)|(_ & ->)].
  - rewrite (stuck_dead _ _ O1) by reflexivity. cbn [r_pos r_en with_energy]. auto.
  - destruct E as [E|E]; [eapply stuck_outcome; eauto|]. rewrite (stuck_dead _ _ O1 E). auto.
Qed.
Lemma stuck_run s0 sts k r : run_of sc s0 sts -> nth_error (s_rays s0) k = Some r -> r_pos r = p -> (eps sc < r_en r) ->
  forall i st r', nth_error sts i = Some st -> nth_error (s_rays st) k = Some r' -> r_pos r' = p /\ (i = 0%nat \/ r_en r' = 0) /\ (eps sc < r_en r' \/ r_en r' = 0).
Proof.
  intros (H0 & H) N P E. induction i as [|i IH]; intros st r' Ni Nr.
  - rewrite H0 in Ni. injection Ni as <-. rewrite N in Nr. injection Nr as <-. auto.
  - destruct (nth_error sts i) as [st'|] eqn:Es; [|apply nth_error_None in Es; assert (X : nth_error sts (S i) <> None) by congruence; apply nth_error_Some in X; lia].
    pose proof (H i st' st Es Ni) as ((rs & A & O) & _). destruct (forall2_nth _ _ _ _ _ O Nr) as (r1 & N1 & _). destruct (forall2_nth _ _ _ _ _ A N1) as (r0 & Nr0 & _).
    destruct (IH st' r0 eq_refl Nr0) as (P0 & _ & E0). destruct (stuck_step st' st k r0 (H i st' st Es Ni) Nr0 P0 E0 r' Nr) as (X & Y). auto.
Qed.
Lemma stuck_simulation fuel num pos vel en hits b k e : length vel = length pos -> length en = length pos -> length hits = length (absorbers sc) ->
  simulation_loop sc fuel num pos vel en hits = Ok b -> nth_error pos k = Some p -> nth_error en k = Some e -> eps sc < e ->
  (forall i q, cell (b_pos b) i k q -> q = p) /\ (forall i x, cell (b_en b) (S i) k x -> x = 0).
Proof.
  intros Lv Le Lh E Np Ne Ge. destruct (loop_history sc Ep fuel num pos vel en hits b Lv Le Lh E) as (s0 & sts & (I1 & I2 & I3 & I4 & I5) & _ & Rn & Ebp & Ebe & _).
  rewrite <- I1, nth_error_map in Np. destruct (nth_error (s_rays s0) k) as [r|] eqn:Er; [|discriminate]. injection Np as Np. rewrite <- I3, nth_error_map, Er in Ne. injection Ne as Ne.
  assert (G : forall i st r', nth_error sts i = Some st -> nth_error (s_rays st) k = Some r' -> r_pos r' = p /\ (i = 0%nat \/ r_en r' = 0) /\ (eps sc < r_en r' \/ r_en r' = 0)) by (apply (stuck_run s0 sts k r Rn Er Np); lra).
  split.
  - intros i q (row & Nr & Nk). rewrite Ebp, nth_error_map in Nr. destruct (nth_error sts i) as [st|] eqn:Es; [|discriminate]. injection Nr as <-. rewrite nth_error_map in Nk. destruct (nth_error (s_rays st) k) as [r'|] eqn:Er'; [|discriminate]. injection Nk as <-. apply (G i st r' Es Er').
  - intros i q (row & Nr & Nk). rewrite Ebe, nth_error_map in Nr. destruct (nth_error sts (S i)) as [st|] eqn:Es; [|discriminate]. injection Nr as <-. rewrite nth_error_map in Nk. destruct (nth_error (s_rays st) k) as [r'|] eqn:Er'; [|discriminate]. injection Nk as <-. destruct (G (S i) st r' Es Er') as (_ & [X|X] & _); [discriminate|exact X].
Qed.
Lemma stuck_forever r : r_pos r = p -> eps sc < r_en r -> ~ left_box sc p -> (forall k, surf sc k = 0) -> forall fuel, step_ray sc fuel r = Err OutOfFuel.
Proof.
  intros P E L Z. apply (step_forever sc); auto; rewrite P; auto. intros ps v _. destruct (St v) as (k & T & D). eauto.
Qed.
End Stuck.

Section On.
Context (polys : list face) (transparent : list nat) (order_of : list nat -> list nat) (mn mx : vec) (s e : R) (grid : dict (Z * Z * Z) (list nat)) (sc : scene).
Context (Rm : room polys transparent order_of mn mx s e grid sc).
Lemma on_foot n d p : on_plane n d p -> foot n d p = p.
Proof. unfold on_plane, foot. intros ->. dvec p; dvec n; vunf; f_equal; ring. Qed.
Lemma on_wall_target pn f n d p v : nth_error polys pn = Some f -> sound_wall f n d -> ~ In pn transparent -> touches f p -> exists k, target sc p v = Some k /\ pdist sc p k <= 0.
Proof.
  intros N S NT T. pose proof Rm as (O & S0 & E0 & B & G & Dp & hit & Hh & Ht). pose proof (wall_flat _ _ _ S) as Fl. pose proof (touches_in_mesh f n d p Fl T) as M.
  assert (Pq : on_plane n d p) by (eapply mesh_on_plane; eauto; apply Fl).
  assert (Ac : is_point_inside p (fst f) (snd f) true (1 / 1000) = Ok true) by (apply (flat_accepted f n d); auto; lra).
  assert (Hit : hit p v pn = true).
  { assert (X : is_point_inside_projection p v (fst f) (snd f) true (1 / 1000) = Ok true); [|rewrite (Hh p v pn f N) in X; apply Ok_inj in X; auto].
    assert (Z0 : vadd p (smul 0 v) = p) by (dvec p; dvec v; vunf; f_equal; ring).
    destruct (Rlt_dec (Rabs (dot n v)) (1 / 1000)) as [L|L].
    - destruct (wall_plane f n d S) as (e0 & He & C). rewrite (projection_parallel _ _ _ _ _ _ _ _ C); auto.
      replace (dot (smul e0 n) v) with (e0 * dot n v) by (dvec n; dvec v; vunf; ring). rewrite Rabs_mult. replace (Rabs e0) with 1 by (destruct He as [->| ->]; [rewrite Rabs_R1|rewrite Rabs_left]; lra). lra.
    - rewrite (hit_ahead f n d p v 0 S); rewrite ?Z0; auto; lra. }
  destruct (no_wall_missed hit (pdist sc) order_of mn mx (map fst polys) s e grid transparent p v pn (fst f) p O S0 E0 (boxed _ _ _ _ _ _ _ _ _ Rm) G) as (k & Ek & Lk); auto.
  { exact (map_nth_error fst pn polys N). } { apply mesh_in_hull; auto. } { replace (vsub p p) with vzero by (dvec p; vunf; f_equal; ring). unfold norm. replace (dot vzero vzero) with 0 by (vunf; ring). rewrite sqrt_0. lra. }
  rewrite Ht in Ek. apply Ok_inj in Ek. exists k. split; auto. apply Rle_trans with (pdist sc p pn); auto. destruct (Dp pn f N) as (Fn & Ed).
  replace 0 with (dist p p) by (unfold dist; replace (vsub p p) with vzero by (dvec p; vunf; f_equal; ring); unfold norm; replace (dot vzero vzero) with 0 by (vunf; ring); apply sqrt_0).
  apply (distance_upper f n d (pnormal sc pn) p (pdist sc p pn) p S Fn (Ed p)); auto. intros _. apply (ortho_true f n d); auto. rewrite on_foot; auto.
Qed.
Lemma on_wall_stuck pn f n d p : nth_error polys pn = Some f -> sound_wall f n d -> ~ In pn transparent -> touches f p -> 0 < speed sc * dt sc -> forall v, exists k, target sc p v = Some k /\ pdist sc p k < rdist sc.
Proof. intros N S NT T L v. destruct (on_wall_target pn f n d p v N S NT T) as (k & Tk & Dk). exists k. split; auto. unfold rdist. lra. Qed.
End On.
