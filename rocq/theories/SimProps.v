(** Properties C30 - C37: the ray simulation. *)
From Coq Require Import Reals List Bool Arith Lra Lia.
From Verif Require Import Prelude MeshModel VecModel VecProofs SimModel SimSpec SimProofs SimProofs2 SimProofs3 SimProofs4 SimDemo.
Import ListNotations.
Local Open Scope R_scope.

(** C30: energies never grow and are never negative. *)
Theorem C30_energy_monotone sc fuel n pos vel en hits b :
  0 <= eps sc -> length vel = length pos -> length en = length pos -> length hits = length (absorbers sc) ->
  simulation_loop sc fuel n pos vel en hits = Ok b ->
  (forall k, 0 <= surf sc k) -> (forall e, In e en -> 0 <= e) ->
  forall i j k ei ej, (i <= j)%nat -> cell (b_en b) i k ei -> cell (b_en b) j k ej ->
    0 <= ej <= ei /\ forall e0, nth_error en k = Some e0 -> ei <= e0.
Proof. exact (fun Eps Lv Le Lh E => energy_monotone sc Eps fuel n pos vel en hits b Lv Le Lh E). Qed.
Print Assumptions C30_energy_monotone.

Example C30_example : simulation_loop demo 5 4 [V 8 5 5] [V 1 0 0] [1] [0] = Ok demo_buffers /\ (forall k, 0 <= surf demo k) /\ 0 <= eps demo.
Proof. split; [apply demo_run|]. split; intros; simpl; lra. Qed.

(** C31: a step conserves energy: what the rays lose goes to the absorbers or
    is a loss at surfaces or by leaving. *)
Theorem C31_conservation sc fuel s s' :
  0 <= eps sc -> length (s_hits s) = length (absorbers sc) -> sim_step sc fuel s = Ok s' ->
  exists rs losses, Forall2 (absorbed sc) (s_rays s) rs /\ length rs = length (s_rays s') /\
    Forall2 (fun p x => loss sc (fst p) (snd p) x) (combine rs (s_rays s')) losses /\
    Rsum (map r_en (s_rays s)) = Rsum (map r_en (s_rays s')) + Rsum (s_hits s') + Rsum losses.
Proof. exact (step_conservation sc fuel s s'). Qed.
Print Assumptions C31_conservation.

(** Each hit is the sum of the energies of the rays for which the absorber is
    the first one in reach. *)
Theorem C31_hits sc fuel s s' :
  0 <= eps sc -> length (s_hits s) = length (absorbers sc) -> sim_step sc fuel s = Ok s' ->
  length (s_hits s') = length (absorbers sc) /\
  forall sn, (sn < length (absorbers sc))%nat ->
    exists xs, Forall2 (credit sc sn) (s_rays s) xs /\ nth_error (s_hits s') sn = Some (Rsum xs).
Proof. exact (fun Eps L E => let H := step_rays sc Eps fuel s s' L E in conj (proj1 H) (proj2 (proj2 H))). Qed.
Print Assumptions C31_hits.

(** Over a run, the absorbers never receive more than the rays had. *)
Theorem C31_budget sc fuel n pos vel en hits b :
  0 <= eps sc -> (forall k, 0 <= surf sc k) -> (forall e, In e en -> 0 <= e) ->
  length vel = length pos -> length en = length pos -> length hits = length (absorbers sc) ->
  simulation_loop sc fuel n pos vel en hits = Ok b ->
  Rsum (last (b_en b) []) + Rsum (map Rsum (tl (b_hit b))) <= Rsum en.
Proof. exact (run_budget sc fuel n pos vel en hits b). Qed.
Print Assumptions C31_budget.

Example C31_example : sim_step demo 5 (mkSim [at_x 7 (-1) (9 / 10)] [0]) = Ok (mkSim [at_x 7 (-1) 0] [9 / 10]).
Proof. apply demo_step4. Qed.

(** C32: a ray without energy never changes again ... *)
Theorem C32_dead_rays_stay sc fuel n pos vel en hits b :
  0 <= eps sc -> length vel = length pos -> length en = length pos -> length hits = length (absorbers sc) ->
  simulation_loop sc fuel n pos vel en hits = Ok b ->
  forall i j k e, (i <= j)%nat -> cell (b_en b) i k e -> e <= eps sc -> (j <= n)%nat ->
    cell (b_en b) j k e /\ (forall p, cell (b_pos b) i k p <-> cell (b_pos b) j k p).
Proof. exact (fun Eps Lv Le Lh E => dead_rays_stay sc Eps fuel n pos vel en hits b Lv Le Lh E). Qed.
Print Assumptions C32_dead_rays_stay.

(** ... and a ray outside the bounding box stays there and has no energy after
    the next step. *)
Theorem C32_left_rays_die sc fuel n pos vel en hits b :
  0 <= eps sc -> length vel = length pos -> length en = length pos -> length hits = length (absorbers sc) ->
  simulation_loop sc fuel n pos vel en hits = Ok b ->
  forall i k p e, cell (b_pos b) i k p -> cell (b_en b) i k e -> left_box sc p -> (i < n)%nat ->
    cell (b_pos b) (S i) k p /\ cell (b_en b) (S i) k (if Rlt_dec (eps sc) e then 0 else e).
Proof. exact (fun Eps Lv Le Lh E => left_rays_die sc Eps fuel n pos vel en hits b Lv Le Lh E). Qed.
Print Assumptions C32_left_rays_die.

Example C32_example :
  cell (b_en demo_buffers) 4 0 0 /\ 0 <= eps demo /\
  sim_step demo 5 (mkSim [at_x 11 1 1] [0]) = Ok (mkSim [at_x 11 1 0] [0]) /\ left_box demo (V 11 5 5).
Proof.
  split; [exists [0]; auto|]. split; [simpl; lra|]. split; [run_step|]. unfold left_box. simpl. lra.
Qed.

(** C33: constant speed. *)
Theorem C33_constant_speed sc fuel n pos vel en hits b :
  0 <= eps sc -> length vel = length pos -> length en = length pos -> length hits = length (absorbers sc) ->
  simulation_loop sc fuel n pos vel en hits = Ok b ->
  (forall k, dot (pnormal sc k) (pnormal sc k) = 1) ->
  exists vs : nat -> nat -> vec,
    (forall k, (k < length pos)%nat -> nth_error vel k = Some (vs O k)) /\
    (forall i k, (i <= n)%nat -> (k < length pos)%nat -> norm (vs i k) = norm (vs O k)) /\
    forall i k p p' e', cell (b_pos b) i k p -> cell (b_pos b) (S i) k p' -> cell (b_en b) (S i) k e' ->
      (p' = vadd p (smul (dt sc) (vs (S i) k)) /\ eps sc < e') \/
      (p' = p /\ (eps sc < e' -> exists t, target sc p (vs (S i) k) = Some t /\ pdist sc p t = rdist sc)).
Proof. exact (fun Eps Lv Le Lh E => constant_speed sc Eps fuel n pos vel en hits b Lv Le Lh E). Qed.
Print Assumptions C33_constant_speed.

(** What a step does with each ray, completely. *)
Theorem C33_step_outcome sc fuel r r' : 0 <= eps sc -> step_ray sc fuel r = Ok r' -> outcome sc r r'.
Proof. exact (fun Eps => step_outcome sc Eps fuel r r'). Qed.
Print Assumptions C33_step_outcome.

Example C33_example :
  (forall k, dot (pnormal demo k) (pnormal demo k) = 1) /\
  sim_step demo 5 (mkSim [at_x 9 1 1] [0]) = Ok (mkSim [at_x 8 (-1) (9 / 10)] [0]).
Proof. split; [intros [|k]; unfold dot; simpl; lra|]. apply demo_step2. Qed.

(** A ray at exactly the reflection distance does not move any more. *)
Example C33_stalled : step_ray demo 5 (at_x (899 / 100) 1 1) = Ok (at_x (899 / 100) 1 1).
Proof. unfold step_ray, at_x. crunch. peel. repeat (first [lra | progress f_equal]). Qed.

(** C34: with absorption the reflection loop ends ... *)
Theorem C34_terminates sc a n r :
  0 <= eps sc -> 0 < a -> (forall k, a <= surf sc k) -> r_en r <= eps sc + INR n * a ->
  exists r', forall fuel, (n + 2 <= fuel)%nat -> step_ray sc fuel r = Ok r'.
Proof. exact (step_terminates sc a n r). Qed.
Print Assumptions C34_terminates.

(** ... after fewer than n reflections ... *)
Theorem C34_number_of_reflections sc a n p v ps v' e :
  0 < a -> (forall k, a <= surf sc k) -> e <= eps sc + INR n * a ->
  bounces sc p v ps v' -> eps sc < e - total_surf sc ps -> (length ps < n)%nat.
Proof. exact (bounce_count sc a n p v ps v' e). Qed.
Print Assumptions C34_number_of_reflections.

(** ... and without it the loop runs forever if there is always a near target. *)
Theorem C34_zero_absorption_loops sc r :
  0 <= eps sc -> eps sc < r_en r -> ~ left_box sc (r_pos r) ->
  (forall ps v, bounces sc (r_pos r) (r_vel r) ps v ->
     exists k, target sc (r_pos r) v = Some k /\ pdist sc (r_pos r) k < rdist sc /\ surf sc k = 0) ->
  forall fuel, step_ray sc fuel r = Err OutOfFuel.
Proof. exact (step_forever sc r). Qed.
Print Assumptions C34_zero_absorption_loops.

Example C34_example : (forall k, 1 / 10 <= surf demo k) /\ r_en (at_x 9 1 1) <= eps demo + INR 10 * (1 / 10).
Proof. split; [intros; simpl; lra|]. simpl. lra. Qed.
Example C34_corridor : forall fuel, step_ray corridor fuel (mkRay (V (1 / 2) (1 / 2) (1 / 2)) (V 1 0 0) (V 1 0 0) 1) = Err OutOfFuel.
Proof.
  apply C34_zero_absorption_loops; [simpl; lra|simpl; lra|unfold left_box; simpl; lra|].
  intros ps v B. cbn [r_pos r_vel] in *. apply corridor_bounces in B. destruct B as [-> | ->].
  - exists 1%nat. unfold corridor, demo_target, rdist. cbn [target vx pdist surf speed dt r_pos]. rewrite (proj2 (Rltb_true 0 1)) by lra. repeat split; lra.
  - exists 0%nat. unfold corridor, demo_target, rdist. cbn [target vx pdist surf speed dt r_pos].
    rewrite (proj2 (Rltb_false 0 (-1))) by lra. rewrite (proj2 (Rltb_true (-1) 0)) by lra. repeat split; lra.
Qed.

(** C35: for every interleaving of the rays' small steps that finishes all
    rays, the result is that of processing them one after the other ... *)
Theorem C35_schedule_independent sc sched fuel rays rs :
  all_done (run_schedule sc sched (map (fun r => (Start, r)) rays)) -> mapM (step_ray sc fuel) rays = Ok rs ->
  map snd (run_schedule sc sched (map (fun r => (Start, r)) rays)) = rs.
Proof. exact (schedule_agree sc sched fuel rays rs). Qed.
Print Assumptions C35_schedule_independent.

(** ... a finishing interleaving implies that sequential processing finishes ... *)
Theorem C35_schedule_sound sc sched rays sts :
  run_schedule sc sched (map (fun r => (Start, r)) rays) = sts -> all_done sts ->
  forall fuel, (forall i, (count_occ Nat.eq_dec sched i <= fuel)%nat) -> mapM (step_ray sc fuel) rays = Ok (map snd sts).
Proof. exact (schedule_sound sc sched rays sts). Qed.
Print Assumptions C35_schedule_sound.

(** ... and conversely every interleaving that gives each ray enough steps
    finishes. *)
Theorem C35_schedule_complete sc sched fuel rays rs :
  mapM (step_ray sc fuel) rays = Ok rs -> (forall i, (i < length rays)%nat -> (fuel <= count_occ Nat.eq_dec sched i)%nat) ->
  all_done (run_schedule sc sched (map (fun r => (Start, r)) rays)).
Proof. exact (schedule_complete sc sched fuel rays rs). Qed.
Print Assumptions C35_schedule_complete.

Example C35_example : mapM (step_ray demo 3) [at_x 8 1 1; at_x 9 1 1] = Ok [at_x 9 1 1; at_x 8 (-1) (9 / 10)] /\
  all_done (run_schedule demo [0; 1; 1; 0; 1; 0]%nat (map (fun r => (Start, r)) [at_x 8 1 1; at_x 9 1 1])).
Proof.
  assert (E : mapM (step_ray demo 3) [at_x 8 1 1; at_x 9 1 1] = Ok [at_x 9 1 1; at_x 8 (-1) (9 / 10)]).
  { unfold step_ray, at_x. crunch. peel. repeat (first [lra | progress f_equal]). }
  split; auto. eapply schedule_complete; eauto. intros [|[|i]] L; simpl in *; lia.
Qed.

(** C36: batches give what a single run gives if every ray alive at a batch
    boundary moved in the last step of the batch ... *)
Theorem C36_batching sc fuel size n pos vel en hits b :
  0 <= eps sc -> dt sc <> 0 -> (1 <= size)%nat ->
  length vel = length pos -> length en = length pos -> length hits = length (absorbers sc) ->
  simulation_loop sc fuel (n * size) pos vel en hits = Ok b ->
  (forall j k p p' e', (1 <= j < n)%nat -> cell (b_pos b) (j * size - 1) k p -> cell (b_pos b) (j * size) k p' ->
     cell (b_en b) (j * size) k e' -> eps sc < e' -> p' <> p) ->
  exists bs, run_batches sc fuel size n pos vel en hits = Ok bs /\ length bs = n /\
    forall j B i, nth_error bs j = Some B -> (i <= size)%nat ->
      nth_error (b_pos B) i = nth_error (b_pos b) (j * size + i) /\ nth_error (b_en B) i = nth_error (b_en b) (j * size + i) /\
      nth_error (b_hit B) i = nth_error (b_hit b) (j * size + i).
Proof. exact (fun Eps Dt => batching sc Eps Dt fuel size n pos vel en hits b). Qed.
Print Assumptions C36_batching.

(** ... positions and hits agree even without that condition ... *)
Theorem C36_positions_always sc fuel size n pos vel en hits b bs :
  0 <= eps sc -> dt sc <> 0 -> (1 <= size)%nat ->
  length vel = length pos -> length en = length pos -> length hits = length (absorbers sc) ->
  simulation_loop sc fuel (n * size) pos vel en hits = Ok b -> run_batches sc fuel size n pos vel en hits = Ok bs ->
  forall j B i, nth_error bs j = Some B -> (i <= size)%nat ->
    nth_error (b_pos B) i = nth_error (b_pos b) (j * size + i) /\ nth_error (b_hit B) i = nth_error (b_hit b) (j * size + i).
Proof. exact (fun Eps Dt => batching_positions sc Eps Dt fuel size n pos vel en hits b bs). Qed.
Print Assumptions C36_positions_always.

(** ... and a ray that stayed gets velocity zero. *)
Theorem C36_stalled_velocity sc b n k p :
  length (b_pos b) = S (S n) -> cell (b_pos b) n k p -> cell (b_pos b) (S n) k p -> nth_error (next_velocity sc b) k = Some vzero.
Proof. exact (stalled_velocity sc b n k p). Qed.
Print Assumptions C36_stalled_velocity.

Example C36_example : exists bs, run_batches demo 5 2 2 [V 8 5 5] [V 1 0 0] [1] [0] = Ok bs /\ length bs = 2%nat.
Proof.
  destruct (C36_batching demo 5 2 2 [V 8 5 5] [V 1 0 0] [1] [0] demo_buffers) as (bs & E & L & _); eauto; try (simpl; lra); try apply demo_run.
  intros j k p p' e' Lj (r1 & E1 & F1) (r2 & E2 & F2) _ _. assert (j = 1)%nat as -> by lia. simpl in E1, E2. inversion E1; inversion E2; subst.
  destruct k as [|[|k]]; simpl in F1, F2; try discriminate. inversion F1; inversion F2; subst. intros X. inversion X. lra.
Qed.

(** C37: the buffers are the history of the run. *)
Theorem C37_buffers_history sc fuel n pos vel en hits b :
  0 <= eps sc -> length vel = length pos -> length en = length pos -> length hits = length (absorbers sc) ->
  simulation_loop sc fuel n pos vel en hits = Ok b ->
  exists s0 sts, initial sc pos vel en hits s0 /\ length sts = S n /\ run_of sc s0 sts /\
    b_pos b = map (fun s => map r_pos (s_rays s)) sts /\ b_en b = map (fun s => map r_en (s_rays s)) sts /\ b_hit b = map s_hits sts.
Proof. exact (fun Eps => loop_history sc Eps fuel n pos vel en hits b). Qed.
Print Assumptions C37_buffers_history.

Example C37_example : simulation_loop demo 5 4 [V 8 5 5] [V 1 0 0] [1] [0] = Ok demo_buffers.
Proof. apply demo_run. Qed.
