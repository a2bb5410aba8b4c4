(** Proofs about the simulation: conservation, termination, schedules,
    batches. *)
From Coq Require Import Reals List Bool Arith Lra Lia Psatz.
From Verif Require Import Prelude MeshModel VecModel VecProofs SimModel SimSpec SimProofs SimProofs2.
Import ListNotations.
Local Open Scope R_scope.

Section S.
  Context (sc : scene).

  (** Conservation. *)
  Lemma check_total abs : forall hits r hs r', check_absorbers sc abs hits r = (hs, r') -> Rsum hs + r_en r' = Rsum hits + r_en r.
  Proof.
    induction abs as [|a abs IH]; intros [|h hits] r hs r' E; cbn [check_absorbers] in E; try (inversion E; subst; lra).
    destruct (Rltb _ _).
    - destruct (check_absorbers sc abs hits (mkRay (r_pos r) (r_vel r) (r_dpos r) 0)) as (hs1, r1) eqn:E1. inversion E; subst.
      apply IH in E1. cbn [r_en] in E1. rewrite !Rsum_cons. lra.
    - destruct (check_absorbers sc abs hits r) as (hs1, r1) eqn:E1. inversion E; subst. apply IH in E1. rewrite !Rsum_cons. lra.
  Qed.
  Lemma absorb_total rays : forall hits rs hs, absorb sc rays hits = (rs, hs) ->
    Rsum hs + Rsum (map r_en rs) = Rsum hits + Rsum (map r_en rays).
  Proof.
    induction rays as [|r rays IH]; intros hits rs hs E; cbn [absorb] in E; [inversion E; subst; reflexivity|].
    destruct (Rleb (r_en r) (eps sc)).
    - destruct (absorb sc rays hits) as (rs1, hs1) eqn:E1. inversion E; subst. apply IH in E1. cbn [map]. rewrite !Rsum_cons. lra.
    - destruct (check_absorbers sc (absorbers sc) hits r) as (hits1, r1) eqn:Ec. destruct (absorb sc rays hits1) as (rs1, hs1) eqn:E1.
      inversion E; subst. apply IH in E1. apply check_total in Ec. cbn [map]. rewrite !Rsum_cons. lra.
  Qed.
  Lemma outcome_loss r r' : outcome sc r r' -> loss sc r r' (r_en r - r_en r').
  Proof.
    unfold loss. intros [? ->|? ? ->|ps ? ? ? Ee ? ? ? ?|ps k ? ? ? Ee ? ? ? ? ?|ps k ? ? ? ? ? ? ? ? Ee ?].
    - left. split; lra.
    - right. left. cbn [with_energy r_en]. split; auto. split; lra.
    - right. right. left. exists ps. split; auto. split; lra.
    - right. right. left. exists ps. split; auto. split; lra.
    - right. right. right. exists ps, k. rewrite Ee. repeat split; auto. lra.
  Qed.
  Lemma loss_sum rs rs' : Forall2 (outcome sc) rs rs' ->
    exists xs, Forall2 (fun p x => loss sc (fst p) (snd p) x) (combine rs rs') xs /\ Rsum (map r_en rs) = Rsum (map r_en rs') + Rsum xs.
  Proof.
    induction 1 as [|r r' rs rs' O F (xs & Fx & Ex)].
    - exists []. split; [constructor|]. simpl. lra.
    - exists ((r_en r - r_en r') :: xs). cbn [combine map]. split; [constructor; auto; apply outcome_loss; auto|]. rewrite !Rsum_cons. lra.
  Qed.

  Lemma zeros {A} (l : list A) : Rsum (map (fun _ => 0) l) = 0.
  Proof. induction l; simpl; [reflexivity|]. unfold Rsum in *. simpl. lra. Qed.

  Lemma step_conservation fuel s s' : 0 <= eps sc -> length (s_hits s) = length (absorbers sc) -> sim_step sc fuel s = Ok s' ->
    exists rs losses, Forall2 (absorbed sc) (s_rays s) rs /\ length rs = length (s_rays s') /\
      Forall2 (fun p x => loss sc (fst p) (snd p) x) (combine rs (s_rays s')) losses /\
      Rsum (map r_en (s_rays s)) = Rsum (map r_en (s_rays s')) + Rsum (s_hits s') + Rsum losses.
  Proof.
    intros Eps L E. unfold sim_step in E. destruct (absorb sc (s_rays s) (map (fun _ => 0) (s_hits s))) as (rs, hs) eqn:A.
    destruct (mapM (step_ray sc fuel) rs) as [rs2|] eqn:M; [|discriminate]. cbn [rbind] in E. inversion E; subst. cbn [s_hits s_rays].
    destruct (absorb_spec sc (s_rays s) (map (fun _ => 0) (s_hits s)) rs hs) as (L1 & F & C); [rewrite map_length; auto|auto|].
    assert (F2 : Forall2 (outcome sc) rs rs2).
    { apply mapM_forall in M. clear - M Eps. induction M; constructor; auto. eapply step_outcome; eauto. }
    destruct (loss_sum rs rs2 F2) as (xs & Fx & Ex). exists rs, xs. split; auto. split; [eapply forall2_length; eauto|]. split; auto.
    apply absorb_total in A. rewrite zeros in A. lra.
  Qed.

  (** Over a whole run. *)
  Lemma loss_nonneg r r' x : 0 <= eps sc -> (forall k, 0 <= surf sc k) -> 0 <= r_en r -> loss sc r r' x -> 0 <= x.
  Proof.
    intros Eps P N [(-> & _)|[(_ & -> & _)|[(ps & _ & -> & _)|(ps & k & _ & _ & -> & _)]]]; try lra. apply total_nonneg; auto.
  Qed.

  Lemma trace_budget fuel n : 0 <= eps sc -> (forall k, 0 <= surf sc k) -> forall s l,
    length (s_hits s) = length (absorbers sc) -> (forall r, In r (s_rays s) -> 0 <= r_en r) ->
    trace (sim_step sc fuel) n s = Ok l ->
    Rsum (map r_en (s_rays (last l s))) + Rsum (map (fun s => Rsum (s_hits s)) (tl l)) <= Rsum (map r_en (s_rays s)).
  Proof.
    intros Eps P. induction n as [|n IH]; intros s l L N T; cbn [trace] in T.
    - inversion T; subst. cbn [last tl map]. unfold Rsum at 2. simpl. lra.
    - destruct (sim_step sc fuel s) as [s'|] eqn:St; [|discriminate]. cbn [rbind] in T.
      destruct (trace (sim_step sc fuel) n s') as [l'|] eqn:T'; [|discriminate]. cbn [rbind] in T. inversion T; subst. clear T.
      destruct (step_conservation fuel s s' Eps L St) as (rs & xs & Fa & Lr & Fx & Ex).
      destruct (step_rays sc Eps fuel s s' L St) as (L' & (rs2 & Fa2 & Fo) & _).
      assert (N' : forall r, In r (s_rays s') -> 0 <= r_en r).
      { intros r I. apply In_nth_error in I. destruct I as (k & Ek). destruct (forall2_nth' _ _ _ Fo _ _ Ek) as (r1 & E1 & O).
        destruct (forall2_nth' _ _ _ Fa2 _ _ E1) as (r0 & E0 & A). eapply step_energy; eauto. apply N. eapply nth_error_In; eauto. }
      specialize (IH s' l' L' N' T'). destruct (trace_head _ _ _ _ T') as (t & -> & _).
      assert (X : 0 <= Rsum xs).
      { assert (Y : forall r, In r rs -> 0 <= r_en r).
        { intros r I. apply In_nth_error in I. destruct I as (k & Ek). destruct (forall2_nth' _ _ _ Fa _ _ Ek) as (r0 & E0 & A).
          assert (0 <= r_en r0) by (apply N; eapply nth_error_In; eauto). destruct A as [(_ & _ & ->)|(_ & ->)]; auto. cbn [with_energy r_en]. lra. }
        clear - Fx Y Eps P. revert Fx Y. generalize (s_rays s'). intros l Fx Y. remember (combine rs l) as c eqn:Ec. revert rs l Ec Y.
        induction Fx as [|p x c xs Lo Fx IH]; intros rs l Ec Y; [unfold Rsum; simpl; lra|].
        destruct rs as [|r rs], l as [|r' l]; try discriminate. simpl in Ec. inversion Ec; subst. rewrite Rsum_cons. cbn [fst snd] in Lo.
        assert (0 <= x) by (eapply loss_nonneg; eauto; apply Y; left; auto). assert (0 <= Rsum xs) by (eapply IH; eauto; intros; apply Y; right; auto). lra. }
      cbn [tl] in IH |- *. cbn [map]. rewrite Rsum_cons.
      replace (last (s :: s' :: t) s) with (last (s' :: t) s'); [lra|].
      change (last (s :: s' :: t) s) with (last (s' :: t) s). clear. revert s'. induction t as [|a t IH]; intros s'; [reflexivity|]. simpl in *. destruct t; auto.
  Qed.

  Lemma last_map {A B} (f : A -> B) l d : last (map f l) (f d) = f (last l d).
  Proof. induction l as [|a l IH]; auto. simpl in *. destruct l; auto. Qed.
  Lemma tl_map {A B} (f : A -> B) l : tl (map f l) = map f (tl l).
  Proof. destruct l; auto. Qed.

  Lemma run_budget fuel n pos vel en hits b : 0 <= eps sc -> (forall k, 0 <= surf sc k) -> (forall e, In e en -> 0 <= e) ->
    length vel = length pos -> length en = length pos -> length hits = length (absorbers sc) ->
    simulation_loop sc fuel n pos vel en hits = Ok b ->
    Rsum (last (b_en b) []) + Rsum (map Rsum (tl (b_hit b))) <= Rsum en.
  Proof.
    intros Eps P N Lv Le Lh E. rewrite loop_trace in E. set (s := mkSim (init_rays sc pos vel en) hits) in *.
    destruct (init_spec sc pos vel en hits Lv Le) as (_ & _ & I3 & _).
    destruct (trace (sim_step sc fuel) n s) as [l|] eqn:T; [|discriminate]. cbn [rbind] in E. inversion E; subst. unfold proj. cbn [b_en b_hit].
    pose proof (trace_budget fuel n Eps P s l Lh) as B. rewrite tl_map, map_map.
    destruct (trace_head _ _ _ _ T) as (t & -> & _).
    replace (last (map (fun s1 : simstate => map r_en (s_rays s1)) (s :: t)) []) with (map r_en (s_rays (last (s :: t) s))).
    - rewrite <- I3. apply B; auto. intros r I. apply N. rewrite <- I3. apply in_map. auto.
    - rewrite <- (last_map (fun s1 : simstate => map r_en (s_rays s1))). clear. cbn [map]. revert s. 
      generalize (map (fun s1 : simstate => map r_en (s_rays s1)) t). intros l s. generalize (map r_en (s_rays s)). clear. intros x.
      generalize x at 1 3. generalize (@nil R). induction l as [|a l IH]; intros d y; auto. 
      change (last (y :: a :: l) x) with (last (a :: l) x). change (last (y :: a :: l) d) with (last (a :: l) d). apply IH.
  Qed.

  (** Termination. *)
  Lemma iter_succ_r {A} (f : A -> A) n x : Nat.iter (S n) f x = Nat.iter n f (f x).
  Proof. induction n; [reflexivity|]. change (f (Nat.iter (S n) f x) = f (Nat.iter n f (f x))). f_equal. exact IHn. Qed.
  Lemma iter_done n r : Nat.iter n (micro sc) (Done, r) = (Done, r).
  Proof. induction n; simpl; auto. rewrite IHn. reflexivity. Qed.
  Lemma iter_add n m (x : rstate) : Nat.iter (n + m) (micro sc) x = Nat.iter m (micro sc) (Nat.iter n (micro sc) x).
  Proof. induction m; [rewrite Nat.add_0_r; reflexivity|]. rewrite Nat.add_succ_r. simpl. rewrite IHm. auto. Qed.
  Lemma step_more fuel fuel' r r' : (fuel <= fuel')%nat -> step_ray sc fuel r = Ok r' -> step_ray sc fuel' r = Ok r'.
  Proof.
    unfold step_ray. intros L. replace fuel' with (fuel + (fuel' - fuel))%nat by lia. rewrite iter_add.
    destruct (Nat.iter fuel (micro sc) (Start, r)) as ([|t|], x); try discriminate. rewrite iter_done. auto.
  Qed.

  Lemma loop_terminates a : 0 < a -> (forall k, a <= surf sc k) -> forall n t r, r_en r <= eps sc + INR n * a ->
    exists r', Nat.iter (S n) (micro sc) (Loop t, r) = (Done, r').
  Proof.
    intros A P. induction n as [|n IH]; intros t r H; rewrite iter_succ_r.
    - simpl in H. assert (X : Rltb (eps sc) (r_en r) = false) by (apply Rltb_false; lra).
      change (exists r', micro sc (Loop t, r) = (Done, r')). unfold micro. destruct t as [k|]; rewrite ?X, ?andb_false_r; cbn [andb]; eauto.
    - unfold micro at 2. destruct t as [k|].
      + destruct (_ && _)%bool; [|destruct (_ && _)%bool; rewrite iter_done; eauto].
        destruct (Rleb _ _) eqn:E; [rewrite iter_done; eauto|]. apply IH. cbn [reflect r_en]. specialize (P k). rewrite S_INR in H. lra.
      + destruct (_ && _)%bool; rewrite iter_done; eauto.
  Qed.
  Lemma step_terminates a n r : 0 <= eps sc -> 0 < a -> (forall k, a <= surf sc k) -> r_en r <= eps sc + INR n * a ->
    exists r', forall fuel, (n + 2 <= fuel)%nat -> step_ray sc fuel r = Ok r'.
  Proof.
    intros Eps A P H. assert (X : exists r', step_ray sc (n + 2) r = Ok r').
    { unfold step_ray. replace (n + 2)%nat with (S (S n)) by lia. rewrite iter_succ_r. unfold micro at 2.
      destruct (Rleb (r_en r) (eps sc)) eqn:E; [rewrite iter_done; eauto|]. rbool.
      match goal with |- context [Nat.iter (S n) (micro sc) (Loop ?t, ?x)] => destruct (loop_terminates a A P n t x) as (r' & Er) end.
      - cbn [r_en]. assert (0 <= INR n * a) by (apply Rmult_le_pos; [apply pos_INR|lra]). destruct (_ && _)%bool; lra.
      - rewrite Er. eauto. }
    destruct X as (r' & Er). exists r'. intros fuel L. eapply step_more; eauto.
  Qed.
  Lemma bounce_count a n p v ps v' e : 0 < a -> (forall k, a <= surf sc k) -> e <= eps sc + INR n * a ->
    bounces sc p v ps v' -> eps sc < e - total_surf sc ps -> (length ps < n)%nat.
  Proof.
    intros A P H B E. assert (X : INR (length ps) * a <= total_surf sc ps).
    { clear - A P. unfold total_surf. induction ps as [|k ps IH]; [simpl; lra|]. cbn [length map]. rewrite S_INR, Rsum_cons. specialize (P k). lra. }
    apply INR_lt. apply Rmult_lt_reg_r with a; lra.
  Qed.

  Lemma loop_forever p v en dp : eps sc < en ->
    (forall ps v', bounces sc p v ps v' -> exists k, target sc p v' = Some k /\ pdist sc p k < rdist sc /\ surf sc k = 0) ->
    forall n, exists t v' dp' ps, Nat.iter n (micro sc) (Loop (target sc p v), mkRay p v dp en) = (Loop (Some t), mkRay p v' dp' en) /\
      target sc p v' = Some t /\ bounces sc p v ps v'.
  Proof.
    intros A H. induction n as [|n (t & v' & dp' & ps & IH & Et & Bo)].
    - destruct (H [] v) as (k & Ek & _); [constructor|]. simpl. rewrite Ek. exists k, v, dp, []. repeat split; auto. constructor.
    - simpl. rewrite IH. destruct (H ps v' Bo) as (k & Ek & Dk & Sk). rewrite Et in Ek. inversion Ek; subst t.
      unfold micro. cbn [r_pos r_en dist_lt r_vel reflect]. rewrite (proj2 (Rltb_true (pdist sc p k) _)) by exact Dk. rewrite (proj2 (Rltb_true (eps sc) en)) by auto. cbn [andb].
      rewrite Sk. replace (en - 0) with en by ring. rewrite (proj2 (Rleb_false en (eps sc))) by lra.
      pose proof (bounces_snoc sc p v ps v' k Bo Et Dk) as Bo2. destruct (H _ _ Bo2) as (k2 & E2 & _). pose proof E2 as E3. unfold mirror in E3.
      match goal with |- context [(Loop (target sc p ?w), _)] => replace (target sc p w) with (Some k2) end. 
      exists k2. do 2 eexists. exists (ps ++ [k]). split; [reflexivity|]. split; auto.
  Qed.
  Lemma step_forever r : 0 <= eps sc -> eps sc < r_en r -> ~ left_box sc (r_pos r) ->
    (forall ps v, bounces sc (r_pos r) (r_vel r) ps v -> exists k, target sc (r_pos r) v = Some k /\ pdist sc (r_pos r) k < rdist sc /\ surf sc k = 0) ->
    forall fuel, step_ray sc fuel r = Err OutOfFuel.
  Proof.
    intros Eps A L H [|n]; [reflexivity|]. unfold step_ray. rewrite iter_succ_r. unfold micro at 2.
    rewrite (proj2 (Rleb_false (r_en r) (eps sc))) by lra. destruct (outside sc (r_pos r)) eqn:O.
    { exfalso. apply L. apply outside_true. auto. }
    rewrite andb_false_r. destruct (loop_forever (r_pos r) (r_vel r) (r_en r) (r_dpos r) A H n) as (t & v' & dp' & ps & -> & _). reflexivity.
  Qed.

  (** Schedules. *)
  Lemma schedule_nth sched : forall l i, nth_error (run_schedule sc sched l) i =
    option_map (Nat.iter (count_occ Nat.eq_dec sched i) (micro sc)) (nth_error l i).
  Proof.
    unfold run_schedule. induction sched as [|j sched IH]; intros l i; cbn [fold_left count_occ].
    - destruct (nth_error l i); auto.
    - rewrite IH. destruct (nth_error l j) as [s|] eqn:Ej.
      + rewrite nth_error_set_nth. destruct (Nat.eq_dec j i) as [->|Ne].
        * destruct (Nat.eq_dec i i) as [_|]; [|congruence]. destruct (lt_dec i (length l)) as [_|X]; [|exfalso; apply X, nth_error_Some; congruence].
          rewrite Ej. cbn [option_map]. rewrite <- iter_succ_r. reflexivity.
        * destruct (Nat.eq_dec i j); [congruence|]. auto.
      + destruct (Nat.eq_dec j i) as [->|Ne]; auto. rewrite Ej. reflexivity.
  Qed.

  Lemma mapM_of_forall {X Y} (f : X -> result Y) l l' : Forall2 (fun x y => f x = Ok y) l l' -> mapM f l = Ok l'.
  Proof. induction 1 as [|x y l l' E F IH]; simpl; auto. rewrite E, IH. reflexivity. Qed.

  Lemma step_agree f1 f2 r a b : step_ray sc f1 r = Ok a -> step_ray sc f2 r = Ok b -> a = b.
  Proof.
    intros H1 H2. destruct (Nat.le_ge_cases f1 f2) as [L|L].
    - pose proof (step_more _ _ _ _ L H1). congruence.
    - pose proof (step_more _ _ _ _ L H2). congruence.
  Qed.

  Lemma forall2_intro {A B} (R : A -> B -> Prop) l l' : length l = length l' ->
    (forall i a b, nth_error l i = Some a -> nth_error l' i = Some b -> R a b) -> Forall2 R l l'.
  Proof.
    revert l'. induction l as [|a l IH]; intros [|b l'] L H; try discriminate; constructor.
    - apply (H 0%nat); auto.
    - apply IH; auto. intros i. apply (H (S i)).
  Qed.
  Lemma schedule_length sched l : length (run_schedule sc sched l) = length l.
  Proof.
    revert l. unfold run_schedule. induction sched as [|j sched IH]; intros l; auto. cbn [fold_left]. rewrite IH.
    destruct (nth_error l j); auto. apply set_nth_length.
  Qed.

  Lemma schedule_sound sched rays sts : run_schedule sc sched (map (fun r => (Start, r)) rays) = sts -> all_done sts ->
    forall fuel, (forall i, (count_occ Nat.eq_dec sched i <= fuel)%nat) -> mapM (step_ray sc fuel) rays = Ok (map snd sts).
  Proof.
    intros Es D fuel L. apply mapM_of_forall. apply forall2_intro.
    - rewrite map_length, <- Es, schedule_length, map_length. auto.
    - unfold rstate in *. intros i r r' Er Er'. rewrite nth_error_map in Er'. destruct (nth_error sts i) as [s|] eqn:Ei; [|discriminate]. inversion Er'; subst.
      pose proof (D s (nth_error_In _ _ Ei)) as Ds. pose proof (schedule_nth sched (map (fun r => (Start, r)) rays) i) as Ei2. unfold rstate in Ei2. rewrite Ei2, nth_error_map, Er in Ei. cbn [option_map] in Ei. inversion Ei as [Ex].
      apply step_more with (count_occ Nat.eq_dec sched i); auto. unfold step_ray, rstate in *. destruct s as (ph, x). cbn [fst] in Ds. subst ph. match goal with |- (let (_, _) := ?y in _) = _ => assert (Ey : y = (Done, x)) by exact Ex; rewrite Ey end. reflexivity.
  Qed.
  Lemma count_le_length (l : list nat) i : (count_occ Nat.eq_dec l i <= length l)%nat.
  Proof. induction l as [|x l IH]; simpl; [lia|]. destruct (Nat.eq_dec x i); lia. Qed.
  Lemma schedule_agree sched fuel rays rs : all_done (run_schedule sc sched (map (fun r => (Start, r)) rays)) ->
    mapM (step_ray sc fuel) rays = Ok rs -> map snd (run_schedule sc sched (map (fun r => (Start, r)) rays)) = rs.
  Proof.
    intros D M. pose proof (schedule_sound sched rays _ eq_refl D (length sched) (count_le_length sched)) as M2.
    apply mapM_forall in M, M2. revert M2. generalize (map snd (run_schedule sc sched (map (fun r => (Start, r)) rays))).
    intros l F. clear D. revert l F. induction M as [|r r' rays rs H M IH]; intros l F; inversion F as [|a b la lb H2 F2]; subst; auto.
    f_equal; [eapply step_agree; eauto|]. apply IH. auto.
  Qed.
  Lemma schedule_complete sched fuel rays rs : mapM (step_ray sc fuel) rays = Ok rs ->
    (forall i, (i < length rays)%nat -> (fuel <= count_occ Nat.eq_dec sched i)%nat) ->
    all_done (run_schedule sc sched (map (fun r => (Start, r)) rays)).
  Proof.
    intros M C s I. apply In_nth_error in I. destruct I as (i & Ei). rewrite schedule_nth, nth_error_map in Ei.
    destruct (nth_error rays i) as [r|] eqn:Er; [|discriminate]. cbn [option_map] in Ei. inversion Ei; subst. clear Ei.
    apply mapM_forall in M. destruct (forall2_nth _ _ _ M _ _ Er) as (r' & _ & St).
    assert (L : (i < length rays)%nat) by (apply nth_error_Some; congruence).
    apply (step_more _ (count_occ Nat.eq_dec sched i)) in St; auto. unfold step_ray in St.
    destruct (Nat.iter _ _ _) as ([|t|], x); try discriminate. reflexivity.
  Qed.

  (** Batches. *)
  Definition req (r q : ray) : Prop := r_pos r = r_pos q /\ r_en r = r_en q /\ (eps sc < r_en r -> r = q).
  Definition srel (s q : simstate) : Prop := Forall2 req (s_rays s) (s_rays q) /\ s_hits s = s_hits q.
  Lemma req_refl r : req r r.
  Proof. repeat split; auto. Qed.

  Lemma absorb_req rays qs : Forall2 req rays qs -> forall hits rs hs, absorb sc rays hits = (rs, hs) ->
    exists qs', absorb sc qs hits = (qs', hs) /\ Forall2 req rs qs'.
  Proof.
    induction 1 as [|r q rays qs (P & En & Q) F IH]; intros hits rs hs E; cbn [absorb] in *; [inversion E; subst; eauto|].
    rewrite <- En. destruct (Rleb (r_en r) (eps sc)) eqn:D; rbool.
    - destruct (absorb sc rays hits) as (rs1, hs1) eqn:E1. inversion E; subst. destruct (IH _ _ _ E1) as (qs' & -> & F').
      eexists. split; eauto. constructor; auto. repeat split; auto.
    - rewrite <- (Q D). destruct (check_absorbers sc (absorbers sc) hits r) as (hits1, r1). destruct (absorb sc rays hits1) as (rs1, hs1) eqn:E1. inversion E; subst.
      destruct (IH _ _ _ E1) as (qs' & -> & F'). eexists. split; eauto. constructor; auto. apply req_refl.
  Qed.
  Lemma step_req fuel r q r' : req r q -> step_ray sc fuel r = Ok r' -> exists q', step_ray sc fuel q = Ok q' /\ req r' q'.
  Proof.
    intros (P & En & Q) E. destruct (Rle_dec (r_en r) (eps sc)) as [D|D].
    - destruct fuel as [|n]; [discriminate|]. unfold step_ray in *. rewrite iter_succ_r in *. unfold micro at 2 in E. unfold micro at 2.
      rewrite <- En. rewrite (proj2 (Rleb_true _ _) D) in *. rewrite iter_done in *. inversion E; subst. eexists. split; eauto. repeat split; auto.
    - rewrite <- (Q ltac:(lra)). exists r'. split; auto. apply req_refl.
  Qed.
  Lemma sim_req fuel s q s' : srel s q -> sim_step sc fuel s = Ok s' -> exists q', sim_step sc fuel q = Ok q' /\ srel s' q'.
  Proof.
    intros (F & Eh) E. unfold sim_step in *. rewrite <- Eh. destruct (absorb sc (s_rays s) _) as (rs, hs) eqn:A.
    destruct (absorb_req _ _ F _ _ _ A) as (qs & -> & F2). destruct (mapM (step_ray sc fuel) rs) as [rs2|] eqn:M; [|discriminate].
    cbn [rbind] in E. inversion E; subst. clear E. apply mapM_forall in M.
    assert (X : exists qs2, Forall2 (fun x y => step_ray sc fuel x = Ok y) qs qs2 /\ Forall2 req rs2 qs2).
    { clear - M F2. revert qs F2. induction M as [|r r' rs rs2 H M IH]; intros qs F2; inversion F2 as [|a b0 la lb Ha Hb]; subst; [exists []; split; constructor|].
      destruct (IH _ Hb) as (qs2 & X & Y). destruct (step_req _ _ _ _ Ha H) as (q' & Eq & R). exists (q' :: qs2). split; constructor; auto. }
    destruct X as (qs2 & X & Y). rewrite (mapM_of_forall _ _ _ X). cbn [rbind]. eexists. split; eauto. split; auto.
  Qed.
  Lemma trace_req fuel n : forall s q l, srel s q -> trace (sim_step sc fuel) n s = Ok l ->
    exists m, trace (sim_step sc fuel) n q = Ok m /\ Forall2 srel l m.
  Proof.
    induction n as [|n IH]; intros s q l R T; cbn [trace] in *; [inversion T; subst; eexists; split; eauto|].
    destruct (sim_step sc fuel s) as [s'|] eqn:E; [|discriminate]. cbn [rbind] in T. destruct (sim_req _ _ _ _ R E) as (q' & -> & R'). cbn [rbind].
    destruct (trace (sim_step sc fuel) n s') as [l'|] eqn:T'; [|discriminate]. cbn [rbind] in T. inversion T; subst.
    destruct (IH _ _ _ R' T') as (m & -> & F). cbn [rbind]. eexists. split; eauto.
  Qed.
  Lemma srel_proj l m : Forall2 srel l m -> proj l = proj m.
  Proof.
    intros F. unfold proj. f_equal; induction F as [|s q l m (Fr & Eh) F IH]; simpl; auto; f_equal; auto;
      clear - Fr; induction Fr as [|r q' rs qs (A & B & C) Fr IHr]; simpl; auto; f_equal; auto.
  Qed.

  Definition dinv (s : simstate) : Prop := Forall (fun r => r_dpos r = smul (dt sc) (r_vel r)) (s_rays s).
  Lemma outcome_dpos r r' : r_dpos r = smul (dt sc) (r_vel r) -> outcome sc r r' -> r_dpos r' = smul (dt sc) (r_vel r').
  Proof.
    intros X O. assert (Y : forall ps, bounces sc (r_pos r) (r_vel r) ps (r_vel r') -> r_dpos r' = match ps with [] => r_dpos r | _ => smul (dt sc) (r_vel r') end -> r_dpos r' = smul (dt sc) (r_vel r')).
    { intros [|q ps] Bo Ed; auto. rewrite Ed, X. f_equal. inversion Bo; auto. destruct ps; discriminate. }
    destruct O as [? ->|? ? ->|ps ? ? Bo ? ? ? ? ?|ps k0 ? ? Bo ? ? ? ? ? ?|ps k0 ? ? Bo ? ? ? ? ? ? ?]; auto; eapply Y; eauto.
  Qed.
  Lemma steps_dinv s s' : steps_to sc s s' -> dinv s -> dinv s'.
  Proof.
    intros ((rs & F1 & F2) & _) D. unfold dinv in *. assert (D1 : Forall (fun r => r_dpos r = smul (dt sc) (r_vel r)) rs).
    { clear - D F1. induction F1 as [|r r1 l l1 A F IH]; auto. inversion D; subst. constructor; auto. destruct A as [(_ & _ & ->)|(_ & ->)]; auto. }
    clear - D1 F2. induction F2 as [|r r1 l l1 A F IH]; auto. inversion D1; subst. constructor; auto. eapply outcome_dpos; eauto.
  Qed.
  Lemma run_dinv s0 l : run_of sc s0 l -> dinv s0 -> forall i s, nth_error l i = Some s -> dinv s.
  Proof.
    intros (R0 & St) D. induction i as [|i IH]; intros s Es; [congruence|].
    destruct (nth_error l i) as [s1|] eqn:E1; [|apply nth_error_None in E1; assert (nth_error l (S i) = None) by (apply nth_error_None; lia); congruence].
    apply (steps_dinv s1); [apply (St i); auto|apply IH; auto].
  Qed.
  Lemma run_move s0 l i k r r' : run_of sc s0 l -> ray_at l i k r -> ray_at l (S i) k r' -> eps sc < r_en r' -> r_pos r' <> r_pos r ->
    r_pos r' = vadd (r_pos r) (r_dpos r').
  Proof.
    intros Ru A A' En Ne. destruct (run_ray sc _ _ _ _ _ Ru A') as (r0 & r1 & A0 & Ab & O). pose proof (ray_at_fun _ _ _ _ _ A A0) as <-.
    assert (X : r_pos r1 = r_pos r) by (destruct Ab as [(_ & _ & ->)|(_ & ->)]; auto).
    destruct O as [? ->|? ? ->|ps ? ? Bo ? ? ? ? Ep|ps k0 ? ? Bo ? ? ? ? ? Ep|ps k0 ? ? Bo ? ? ? ? ? ? Ep]; try congruence.
    exfalso. apply Ne. cbn [with_energy r_pos]. auto.
  Qed.

  Lemma last_nth {A} (l : list A) d n : length l = S n -> nth_error l n = Some (last l d).
  Proof. revert n. induction l as [|a l IH]; intros n L; [discriminate|]. simpl in L. destruct l as [|b l]; [destruct n; [reflexivity|discriminate]|]. destruct n as [|n]; [discriminate|]. simpl nth_error. rewrite (IH n) by auto. reflexivity. Qed.
  Lemma row_proj {X} (f : simstate -> list X) l i s : nth_error l i = Some s -> row (map f l) i = f s.
  Proof. intros E. unfold row. apply nth_error_nth. rewrite nth_error_map, E. reflexivity. Qed.

  Lemma combine_next l1 l2 : length l1 = length l2 -> forall i p q, nth_error l1 i = Some p -> nth_error l2 i = Some q ->
    nth_error (map (fun pq => smul (/ dt sc) (vsub (fst pq) (snd pq))) (combine l1 l2)) i = Some (smul (/ dt sc) (vsub p q)).
  Proof.
    revert l2. induction l1 as [|a l1 IH]; intros [|b l2] L [|i] p q E F; try discriminate; simpl in *; [congruence|]. apply IH; auto.
  Qed.
  Lemma init_nth pos vel en : length vel = length pos -> length en = length pos -> forall i p v e,
    nth_error pos i = Some p -> nth_error vel i = Some v -> nth_error en i = Some e ->
    nth_error (init_rays sc pos vel en) i = Some (mkRay p v (smul (dt sc) v) e).
  Proof.
    unfold init_rays. revert vel en. induction pos as [|a pos IH]; intros [|v0 vel] [|e0 en] L1 L2 [|i] p v e E1 E2 E3; try discriminate; simpl in *; [congruence|].
    apply IH; auto.
  Qed.
  Lemma init_length pos vel en : length vel = length pos -> length en = length pos -> length (init_rays sc pos vel en) = length pos.
  Proof. intros A B. unfold init_rays. rewrite map_length, !combine_length. lia. Qed.

  Lemma next_velocity_length b : length (next_velocity sc b) = Nat.min (length (row (b_pos b) (length (b_pos b) - 1))) (length (row (b_pos b) (length (b_pos b) - 2))).
  Proof. unfold next_velocity. rewrite map_length, combine_length. auto. Qed.

  Lemma batches (Eps : 0 <= eps sc) (Dt : dt sc <> 0) fuel b n : (1 <= b)%nat -> forall s pos vel en hits l,
    length vel = length pos -> length en = length pos -> length hits = length (absorbers sc) ->
    srel s (mkSim (init_rays sc pos vel en) hits) -> dinv s -> trace (sim_step sc fuel) (n * b) s = Ok l ->
    (forall j k r r', (1 <= j < n)%nat -> ray_at l (j * b - 1) k r -> ray_at l (j * b) k r' -> eps sc < r_en r' -> r_pos r' <> r_pos r) ->
    exists bs, run_batches sc fuel b n pos vel en hits = Ok bs /\ length bs = n /\
      forall j B i, nth_error bs j = Some B -> (i <= b)%nat ->
        nth_error (b_pos B) i = nth_error (b_pos (proj l)) (j * b + i) /\ nth_error (b_en B) i = nth_error (b_en (proj l)) (j * b + i) /\
        nth_error (b_hit B) i = nth_error (b_hit (proj l)) (j * b + i).
  Proof.
    intros Hb. induction n as [|n IH]; intros s pos vel en hits l Lv Le Lh R D T Mv.
    - exists []. split; [reflexivity|]. split; [reflexivity|]. intros [|j]; discriminate.
    - cbn [Nat.mul] in T. rewrite trace_app in T. destruct (trace (sim_step sc fuel) b s) as [l1|] eqn:T1; [|discriminate]. cbn [rbind] in T.
      destruct (trace (sim_step sc fuel) (n * b) (last l1 s)) as [l2|] eqn:T2; [|discriminate]. cbn [rbind] in T. inversion T; subst l. clear T.
      destruct (trace_req fuel b _ _ _ R T1) as (m1 & Tm & Fm). pose proof (srel_proj _ _ Fm) as Pm.
      assert (Ll : length l1 = S b) by (destruct (trace_head _ _ _ _ T1) as (t & -> & Lt); simpl; lia).
      assert (Lhs : length (s_hits s) = length (absorbers sc)) by (destruct R as (_ & Rh); rewrite Rh; auto).
      assert (Ru : run_of sc s l1) by (eapply trace_run; eauto).
      pose proof (last_nth l1 s b Ll) as Elast. set (s1 := last l1 s) in *.
      destruct (nth_error l1 (b - 1)) as [s2|] eqn:Eprev; [|apply nth_error_None in Eprev; lia].
      assert (E0 : nth_error l1 0 = Some s) by apply Ru.
      assert (Lrs : forall i x, nth_error l1 i = Some x -> length (s_rays x) = length pos).
      { destruct Ru as (_ & St). induction i as [|i IHi]; intros x Ex.
        - rewrite E0 in Ex. inversion Ex; subst x. destruct R as (Rr & _). rewrite (forall2_length _ _ _ Rr). cbn [s_rays]. apply init_length; auto.
        - destruct (nth_error l1 i) as [y|] eqn:Ey; [|apply nth_error_None in Ey; assert (nth_error l1 (S i) = None) by (apply nth_error_None; lia); congruence].
          destruct (St _ _ _ Ey Ex) as ((rs & F1 & F2) & _). rewrite <- (IHi y eq_refl). rewrite (forall2_length _ _ _ F1), (forall2_length _ _ _ F2). auto. }
      assert (Lhx : forall i x, nth_error l1 i = Some x -> length (s_hits x) = length (absorbers sc)).
      { intros [|i] x Ex; [congruence|]. destruct (nth_error l1 i) as [y|] eqn:Ey; [|apply nth_error_None in Ey; assert (nth_error l1 (S i) = None) by (apply nth_error_None; lia); congruence].
        destruct Ru as (_ & St). destruct (St _ _ _ Ey Ex) as (_ & Z & _). auto. }
      pose proof (Lrs _ _ Elast) as L1. pose proof (Lrs _ _ Eprev) as L2. pose proof (Lhx _ _ Elast) as L3.
      set (B := proj l1) in *.
      assert (Ep1 : row (b_pos B) (length (b_pos B) - 1) = map r_pos (s_rays s1)).
      { unfold B, proj. cbn [b_pos]. rewrite map_length, Ll. apply (row_proj (fun s => map r_pos (s_rays s))). replace (S b - 1)%nat with b by lia. auto. }
      assert (Ep2 : row (b_pos B) (length (b_pos B) - 2) = map r_pos (s_rays s2)).
      { unfold B, proj. cbn [b_pos]. rewrite map_length, Ll. apply (row_proj (fun s => map r_pos (s_rays s))). replace (S b - 2)%nat with (b - 1)%nat by lia. auto. }
      assert (Ee1 : row (b_en B) (length (b_en B) - 1) = map r_en (s_rays s1)).
      { unfold B, proj. cbn [b_en]. rewrite map_length, Ll. apply (row_proj (fun s => map r_en (s_rays s))). replace (S b - 1)%nat with b by lia. auto. }
      assert (Eh1 : row (b_hit B) (length (b_hit B) - 1) = s_hits s1).
      { unfold B, proj. cbn [b_hit]. rewrite map_length, Ll. apply (row_proj s_hits). replace (S b - 1)%nat with b by lia. auto. }
      assert (Lnv : length (next_velocity sc B) = length pos).
      { rewrite next_velocity_length, Ep1, Ep2, !map_length. lia. }
      assert (R' : n = O \/ srel s1 (mkSim (init_rays sc (map r_pos (s_rays s1)) (next_velocity sc B) (map r_en (s_rays s1))) (s_hits s1))).
      { destruct n as [|n]; [left; auto|right]. split; [|reflexivity]. cbn [s_rays]. apply forall2_intro.
        - rewrite init_length; rewrite ?map_length; auto. lia.
        - intros k r q Er Eq. destruct (nth_error (s_rays s2) k) as [r0|] eqn:Er0; [|apply nth_error_None in Er0; assert (k < length (s_rays s1))%nat by (apply nth_error_Some; congruence); lia].
          assert (Ev : nth_error (next_velocity sc B) k = Some (smul (/ dt sc) (vsub (r_pos r) (r_pos r0)))).
          { unfold next_velocity. rewrite Ep1, Ep2. apply combine_next; rewrite ?map_length, ?nth_error_map, ?Er, ?Er0; auto; lia. }
          rewrite (init_nth _ _ _) with (p := r_pos r) (v := smul (/ dt sc) (vsub (r_pos r) (r_pos r0))) (e := r_en r) in Eq; rewrite ?map_length, ?nth_error_map, ?Er; auto; try lia.
          inversion Eq; subst q. split; [reflexivity|]. split; [reflexivity|]. intros Al.
          assert (Ne : r_pos r <> r_pos r0).
          { apply (Mv 1%nat k); auto; try lia.
            - exists s2. rewrite Nat.mul_1_l. rewrite nth_error_app1 by lia. auto.
            - exists s1. rewrite Nat.mul_1_l. rewrite nth_error_app1 by lia. auto. }
          assert (Pm' : r_pos r = vadd (r_pos r0) (r_dpos r)).
          { apply (run_move s l1 (b - 1) k r0 r); auto; [exists s2; auto|exists s1; replace (S (b - 1)) with b by lia; auto]. }
          assert (Dr : r_dpos r = smul (dt sc) (r_vel r)).
          { pose proof (run_dinv _ _ Ru D _ _ Elast) as Dx. unfold dinv in Dx. rewrite Forall_forall in Dx. apply Dx. eapply nth_error_In; eauto. }
          assert (Vr : smul (/ dt sc) (vsub (r_pos r) (r_pos r0)) = r_vel r).
          { rewrite Pm', Dr. destruct (r_pos r0) as (a1, a2, a3), (r_vel r) as (c1, c2, c3). unfold smul, vsub, vadd. cbn [vx vy vz]. f_equal; field; auto. }
          rewrite Vr, <- Dr. destruct r; reflexivity. }
      assert (E1 : simulation_loop sc fuel b pos vel en hits = Ok B).
      { rewrite loop_trace, Tm. cbn [rbind]. rewrite <- Pm. auto. }
      assert (X : exists bs, run_batches sc fuel b n (map r_pos (s_rays s1)) (next_velocity sc B) (map r_en (s_rays s1)) (s_hits s1) = Ok bs /\ length bs = n /\
        forall j B i, nth_error bs j = Some B -> (i <= b)%nat ->
        nth_error (b_pos B) i = nth_error (b_pos (proj l2)) (j * b + i) /\ nth_error (b_en B) i = nth_error (b_en (proj l2)) (j * b + i) /\
        nth_error (b_hit B) i = nth_error (b_hit (proj l2)) (j * b + i)).
      { destruct R' as [->|R']; [exists []; split; [reflexivity|split; [reflexivity|intros [|j]; discriminate]]|].
        apply (IH s1); rewrite ?map_length; auto; try lia.
        - apply (run_dinv _ _ Ru D _ _ Elast).
        - intros j k r r' Lj (x & Ex & Er) (y & Ey & Er') Al. apply (Mv (S j) k); auto; try lia.
          + exists x. split; auto. destruct (trace_head _ _ _ _ T2) as (t & -> & Lt). 
            assert (1 <= j * b)%nat by nia. replace (S j * b - 1)%nat with (b + (j * b - 1))%nat by lia. cbn [tl].
            destruct (j * b - 1)%nat as [|z] eqn:Ez.
            * rewrite Nat.add_0_r, nth_error_app1 by lia. rewrite Elast. auto.
            * rewrite nth_error_app2 by lia. rewrite Ll. replace (b + S z - S b)%nat with z by lia. auto.
          + exists y. split; auto. destruct (trace_head _ _ _ _ T2) as (t & -> & Lt). cbn [tl].
            assert (1 <= j * b)%nat by nia. rewrite nth_error_app2 by lia. rewrite Ll. replace (S j * b - S b)%nat with (j * b - 1)%nat by lia.
            destruct (j * b)%nat as [|z]; [lia|]. simpl in Ey. rewrite Nat.sub_succ, Nat.sub_0_r. auto. }
      destruct X as (bs & Ebs & Lbs & Hbs). exists (B :: bs). split.
      { cbn [run_batches]. rewrite E1. cbn [rbind]. rewrite Ep1, Ee1, Eh1, Ebs. reflexivity. }
      split; [simpl; lia|]. destruct (trace_head _ _ _ _ T2) as (t & -> & Lt). cbn [tl].
      assert (Sh : forall (Y : Type) (f : simstate -> Y) j i, (i <= b)%nat ->
        nth_error (map f (s1 :: t)) (j * b + i) = nth_error (map f (l1 ++ t)) (S j * b + i)).
      { intros Y f j i Li. rewrite !nth_error_map. f_equal. destruct (j * b + i)%nat as [|z] eqn:Ez.
        - replace (S j * b + i)%nat with b by lia. rewrite nth_error_app1 by lia. rewrite Elast. reflexivity.
        - replace (S j * b + i)%nat with (b + S z)%nat by lia. rewrite nth_error_app2 by lia. rewrite Ll. replace (b + S z - S b)%nat with z by lia. reflexivity. }
      intros [|j] B' i EB Li.
      + simpl in EB. inversion EB; subst B'. unfold B, proj. cbn [b_pos b_en b_hit]. rewrite !nth_error_map. cbn [Nat.mul Nat.add]. rewrite nth_error_app1 by lia. auto.
      + simpl in EB. destruct (Hbs j B' i EB Li) as (H1 & H2 & H3). rewrite H1, H2, H3. unfold proj. cbn [b_pos b_en b_hit].
        rewrite <- !Sh by auto. auto.
  Qed.

  Lemma batching (Eps : 0 <= eps sc) (Dt : dt sc <> 0) fuel size n pos vel en hits b : (1 <= size)%nat ->
    length vel = length pos -> length en = length pos -> length hits = length (absorbers sc) ->
    simulation_loop sc fuel (n * size) pos vel en hits = Ok b ->
    (forall j k p p' e', (1 <= j < n)%nat -> cell (b_pos b) (j * size - 1) k p -> cell (b_pos b) (j * size) k p' -> cell (b_en b) (j * size) k e' ->
       eps sc < e' -> p' <> p) ->
    exists bs, run_batches sc fuel size n pos vel en hits = Ok bs /\ length bs = n /\
      forall j B i, nth_error bs j = Some B -> (i <= size)%nat ->
        nth_error (b_pos B) i = nth_error (b_pos b) (j * size + i) /\ nth_error (b_en B) i = nth_error (b_en b) (j * size + i) /\
        nth_error (b_hit B) i = nth_error (b_hit b) (j * size + i).
  Proof.
    intros Hs Lv Le Lh E Mv. rewrite loop_trace in E. destruct (trace _ _ _) as [l|] eqn:T; [|discriminate]. cbn [rbind] in E. inversion E; subst b.
    destruct (init_spec sc pos vel en hits Lv Le) as (_ & _ & _ & _ & D).
    apply (batches Eps Dt fuel size n Hs (mkSim (init_rays sc pos vel en) hits)); auto.
    - split; auto. generalize (init_rays sc pos vel en). intros rs. cbn [s_rays]. induction rs; constructor; auto. apply req_refl.
    - intros j k r r' Lj A A' Al. apply (Mv j k) with (e' := r_en r'); auto; unfold proj; cbn [b_pos b_en].
      + apply cell_pos. eauto.
      + apply cell_pos. eauto.
      + apply cell_en. eauto.
  Qed.

  Lemma stalled_velocity b n k p : length (b_pos b) = S (S n) -> cell (b_pos b) n k p -> cell (b_pos b) (S n) k p ->
    nth_error (next_velocity sc b) k = Some vzero.
  Proof.
    intros L (r1 & E1 & F1) (r2 & E2 & F2). unfold next_velocity, row. rewrite L. replace (S (S n) - 1)%nat with (S n) by lia. replace (S (S n) - 2)%nat with n by lia.
    rewrite (nth_error_nth _ _ _ E1), (nth_error_nth _ _ _ E2). 
    assert (X : forall l1 l2 i p, nth_error l1 i = Some p -> nth_error l2 i = Some p ->
      nth_error (map (fun pq => smul (/ dt sc) (vsub (fst pq) (snd pq))) (combine l1 l2)) i = Some vzero).
    { clear. induction l1 as [|a l1 IH]; intros [|c l2] [|i] p E F; try discriminate; simpl in *; [|eauto]. inversion E; inversion F; subst. f_equal. destruct p as (a1, a2, a3). unfold smul, vsub, vzero. cbn [vx vy vz]. f_equal; ring. }
    eapply X; eauto.
  Qed.
End S.
