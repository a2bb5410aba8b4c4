(** Proofs about the simulation: histories and buffers. *)
From Coq Require Import Reals List Bool Arith Lra Lia Psatz.
From Verif Require Import Prelude MeshModel VecModel VecProofs SimModel SimSpec SimProofs.
Import ListNotations.
Local Open Scope R_scope.

Section Trace.
  Context {S0 : Type} (step : S0 -> result S0).
  Fixpoint trace (n : nat) (s : S0) : result (list S0) :=
    match n with
    | O => Ok [s]
    | S n' => do s' <- step s; do l <- trace n' s'; Ok (s :: l)
    end.

  Lemma trace_head n s l : trace n s = Ok l -> exists t, l = s :: t /\ length t = n.
  Proof.
    revert s l. induction n as [|n IH]; intros s l E; cbn [trace] in E; [inversion E; eexists; split; eauto|].
    destruct (step s) as [s'|]; [|discriminate]. cbn [rbind] in E. destruct (trace n s') as [l'|] eqn:T; [|discriminate].
    cbn [rbind] in E. inversion E; subst. destruct (IH _ _ T) as (t & -> & L). eexists. split; eauto. simpl. lia.
  Qed.
  Lemma trace_step n s l : trace n s = Ok l -> forall i a b, nth_error l i = Some a -> nth_error l (S i) = Some b -> step a = Ok b.
  Proof.
    revert s l. induction n as [|n IH]; intros s l E i a b Ea Eb; cbn [trace] in E.
    - inversion E; subst. destruct i; simpl in Eb; [discriminate|]. destruct i; discriminate.
    - destruct (step s) as [s'|] eqn:Es; [|discriminate]. cbn [rbind] in E. destruct (trace n s') as [l'|] eqn:T; [|discriminate].
      cbn [rbind] in E. inversion E; subst. destruct i as [|i].
      + simpl in Ea, Eb. inversion Ea; subst. destruct (trace_head _ _ _ T) as (t & -> & _). simpl in Eb. inversion Eb; subst. auto.
      + simpl in Ea, Eb. eapply IH; eauto.
  Qed.
  Lemma trace_app n m s : trace (n + m) s = do l <- trace n s; do r <- trace m (last l s); Ok (l ++ tl r).
  Proof.
    revert s. induction n as [|n IH]; intros s; cbn [trace Nat.add rbind last].
    - destruct (trace m s) as [r|] eqn:T; auto. destruct (trace_head _ _ _ T) as (t & -> & _). reflexivity.
    - destruct (step s) as [s'|]; auto. cbn [rbind]. rewrite IH. destruct (trace n s') as [l|] eqn:T; auto. cbn [rbind].
      destruct (trace_head _ _ _ T) as (t & -> & _). replace (last (s :: s' :: t) s) with (last (s' :: t) s').
      + destruct (trace m (last (s' :: t) s')); auto.
      + change (last (s :: s' :: t) s) with (last (s' :: t) s). clear. revert s'. induction t as [|a t IH]; intros s'; [reflexivity|].
        simpl in *. destruct t; auto.
  Qed.
End Trace.

Section S.
  Context (sc : scene).
  Definition proj (sts : list simstate) : buffers :=
    mkBuf (map (fun s => map r_pos (s_rays s)) sts) (map (fun s => map r_en (s_rays s)) sts) (map s_hits sts).

  Lemma set_nth_next {A} (P : list A) x y m : set_nth (P ++ repeat x (S m)) (length P) y = (P ++ [y]) ++ repeat x m.
  Proof. induction P as [|p P IH]; simpl; auto. f_equal. apply IH. Qed.

  Lemma loop_spec fuel n : forall i st A B C x y z, length A = S i -> length B = S i -> length C = S i ->
    foldM (fun (sb : simstate * buffers) k => let (st, b) := sb in do st' <- sim_step sc fuel st; Ok (st', write_buf b (k + 1) st'))
      (seq i n) (st, mkBuf (A ++ repeat x n) (B ++ repeat y n) (C ++ repeat z n)) =
    do l <- trace (sim_step sc fuel) n st;
    Ok (last l st, mkBuf (A ++ map (fun s => map r_pos (s_rays s)) (tl l)) (B ++ map (fun s => map r_en (s_rays s)) (tl l)) (C ++ map s_hits (tl l))).
  Proof.
    induction n as [|n IH]; intros i st A B C x y z LA LB LC.
    - cbn [seq foldM trace rbind repeat map tl last]. reflexivity.
    - cbn [seq foldM trace]. destruct (sim_step sc fuel st) as [st'|]; [|reflexivity]. cbn [rbind].
      unfold write_buf. cbn [b_pos b_en b_hit]. rewrite Nat.add_1_r.
      assert (X : forall (T : Type) (P : list T) x y m, length P = S i -> set_nth (P ++ repeat x (S m)) (S i) y = (P ++ [y]) ++ repeat x m).
      { intros T P x0 y0 m <-. apply set_nth_next. }
      rewrite !X by auto. clear X.
      rewrite IH by (rewrite app_length; simpl; lia).
      destruct (trace (sim_step sc fuel) n st') as [l|] eqn:T; [|reflexivity]. cbn [rbind].
      destruct (trace_head _ _ _ _ T) as (t & -> & _). cbn [tl map]. rewrite <- !app_assoc. cbn [app]. f_equal. f_equal.
      change (last (st :: st' :: t) st) with (last (st' :: t) st). clear. revert st'. induction t as [|a t IH]; intros s'; [reflexivity|].
      simpl in *. destruct t; auto.
  Qed.

  Lemma loop_trace fuel n pos vel en hits :
    simulation_loop sc fuel n pos vel en hits =
    do l <- trace (sim_step sc fuel) n (mkSim (init_rays sc pos vel en) hits); Ok (proj l).
  Proof.
    unfold simulation_loop. set (st := mkSim (init_rays sc pos vel en) hits).
    unfold new_buf, write_buf. cbn [b_pos b_en b_hit]. rewrite !Nat.add_1_r. cbn [repeat set_nth].
    change (map r_pos (s_rays st) :: repeat (repeat vzero (length pos)) n) with ([map r_pos (s_rays st)] ++ repeat (repeat vzero (length pos)) n).
    change (map r_en (s_rays st) :: repeat (repeat 1 (length pos)) n) with ([map r_en (s_rays st)] ++ repeat (repeat 1 (length pos)) n).
    change (s_hits st :: repeat (repeat 0 (length (absorbers sc))) n) with ([s_hits st] ++ repeat (repeat 0 (length (absorbers sc))) n).
    rewrite (loop_spec fuel n 0) by reflexivity.
    destruct (trace (sim_step sc fuel) n st) as [l|] eqn:T; [|reflexivity]. cbn [rbind snd].
    destruct (trace_head _ _ _ _ T) as (t & -> & _). reflexivity.
  Qed.

  Lemma init_spec pos vel en hits : length vel = length pos -> length en = length pos ->
    initial sc pos vel en hits (mkSim (init_rays sc pos vel en) hits).
  Proof.
    intros Lv Le. unfold initial, init_rays. cbn [s_rays s_hits]. rewrite !map_map.
    revert vel en Lv Le. induction pos as [|p pos IH]; intros [|v vel] [|e en] Lv Le; try discriminate; cbn [combine map].
    - repeat split; auto.
    - simpl in Lv, Le. destruct (IH vel en) as (A & B & C & _ & D); try lia.
      cbn [r_pos r_vel r_en]. rewrite A, B, C. repeat split; auto.
  Qed.

  Context (Eps : 0 <= eps sc).

  Lemma trace_run fuel n s l : length (s_hits s) = length (absorbers sc) -> trace (sim_step sc fuel) n s = Ok l -> run_of sc s l.
  Proof.
    intros L T. destruct (trace_head _ _ _ _ T) as (t & El & _). split; [rewrite El; reflexivity|].
    assert (H : forall i a, nth_error l i = Some a -> length (s_hits a) = length (absorbers sc)).
    { induction i as [|i IH]; intros a Ea; [rewrite El in Ea; simpl in Ea; inversion Ea; subst; auto|].
      destruct (nth_error l i) as [b|] eqn:Eb.
      - pose proof (trace_step _ _ _ _ T _ _ _ Eb Ea) as St. apply step_rays in St; auto. apply St.
      - apply nth_error_None in Eb. assert (nth_error l (S i) = None) by (apply nth_error_None; lia). congruence. }
    intros i a b Ea Eb. pose proof (trace_step _ _ _ _ T _ _ _ Ea Eb) as St. apply step_rays in St; eauto.
    destruct St as (X & Y & Z). split; auto.
  Qed.

  Lemma loop_history fuel n pos vel en hits b :
    length vel = length pos -> length en = length pos -> length hits = length (absorbers sc) ->
    simulation_loop sc fuel n pos vel en hits = Ok b ->
    exists s0 sts, initial sc pos vel en hits s0 /\ length sts = S n /\ run_of sc s0 sts /\
      b_pos b = map (fun s => map r_pos (s_rays s)) sts /\ b_en b = map (fun s => map r_en (s_rays s)) sts /\ b_hit b = map s_hits sts.
  Proof.
    intros Lv Le Lh E. rewrite loop_trace in E. destruct (trace (sim_step sc fuel) n _) as [l|] eqn:T; [|discriminate].
    cbn [rbind] in E. inversion E; subst. exists (mkSim (init_rays sc pos vel en) hits), l. split; [apply init_spec; auto|].
    split. { destruct (trace_head _ _ _ _ T) as (t & -> & L). simpl. lia. }
    split; [eapply trace_run; eauto|]. auto.
  Qed.

  Lemma forall2_length {A B} (R : A -> B -> Prop) l l' : Forall2 R l l' -> length l = length l'.
  Proof. induction 1; simpl; auto. Qed.

  (** Following one ray. *)
  Lemma forall2_nth {A B} (R : A -> B -> Prop) l l' : Forall2 R l l' -> forall i a, nth_error l i = Some a -> exists b, nth_error l' i = Some b /\ R a b.
  Proof. induction 1; intros [|i] a E; try discriminate; simpl in *; [inversion E; subst; eauto|eauto]. Qed.
  Lemma forall2_nth' {A B} (R : A -> B -> Prop) l l' : Forall2 R l l' -> forall i b, nth_error l' i = Some b -> exists a, nth_error l i = Some a /\ R a b.
  Proof. induction 1; intros [|i] a E; try discriminate; simpl in *; [inversion E; subst; eauto|eauto]. Qed.

  Lemma run_ray s0 sts i k r' : run_of sc s0 sts -> ray_at sts (S i) k r' -> exists r r1, ray_at sts i k r /\ absorbed sc r r1 /\ outcome sc r1 r'.
  Proof.
    intros (_ & St) (s' & Es & Er). destruct (nth_error sts i) as [s|] eqn:E.
    - destruct (St i s s' E Es) as ((rs & F1 & F2) & _).
      destruct (forall2_nth' _ _ _ F2 _ _ Er) as (r1 & E1 & O). destruct (forall2_nth' _ _ _ F1 _ _ E1) as (r & Er0 & A).
      exists r, r1. split; auto. exists s. auto.
    - apply nth_error_None in E. assert (nth_error sts (S i) = None) by (apply nth_error_None; lia). congruence.
  Qed.
  Lemma ray_at_fun sts i k r r' : ray_at sts i k r -> ray_at sts i k r' -> r = r'.
  Proof. intros (s & E & F) (s' & E' & F'). congruence. Qed.

  Lemma cell_pos sts i k p : cell (map (fun s => map r_pos (s_rays s)) sts) i k p <-> exists r, ray_at sts i k r /\ r_pos r = p.
  Proof.
    unfold cell, ray_at. split.
    - intros (row & E & F). rewrite nth_error_map in E. destruct (nth_error sts i) as [s|]; [|discriminate]. inversion E; subst.
      rewrite nth_error_map in F. destruct (nth_error (s_rays s) k) as [r|] eqn:G; [|discriminate]. inversion F; subst. exists r. split; eauto.
    - intros (r & (s & E & F) & <-). exists (map r_pos (s_rays s)). rewrite nth_error_map, E. split; auto. rewrite nth_error_map, F. auto.
  Qed.
  Lemma cell_en sts i k p : cell (map (fun s => map r_en (s_rays s)) sts) i k p <-> exists r, ray_at sts i k r /\ r_en r = p.
  Proof.
    unfold cell, ray_at. split.
    - intros (row & E & F). rewrite nth_error_map in E. destruct (nth_error sts i) as [s|]; [|discriminate]. inversion E; subst.
      rewrite nth_error_map in F. destruct (nth_error (s_rays s) k) as [r|] eqn:G; [|discriminate]. inversion F; subst. exists r. split; eauto.
    - intros (r & (s & E & F) & <-). exists (map r_en (s_rays s)). rewrite nth_error_map, E. split; auto. rewrite nth_error_map, F. auto.
  Qed.

  Lemma total_nonneg ps : (forall k, 0 <= surf sc k) -> 0 <= total_surf sc ps.
  Proof. intros P. unfold total_surf. induction ps as [|k ps IH]; simpl; [lra|]. specialize (P k). lra. Qed.

  Lemma step_energy r r1 r' : (forall k, 0 <= surf sc k) -> 0 <= r_en r -> absorbed sc r r1 -> outcome sc r1 r' -> 0 <= r_en r' <= r_en r.
  Proof.
    intros P H A O. assert (A' : 0 <= r_en r1 <= r_en r).
    { destruct A as [(_ & _ & ->)|(_ & ->)]; cbn [with_energy r_en]; lra. }
    destruct O as [? ->|? ? ->|ps ? ? ? Ee ? ? ? ?|ps k ? ? ? Ee ? ? ? ? ?|ps k ? ? ? ? ? ? ? ? Ee ?]; cbn [with_energy r_en]; try lra;
      pose proof (total_nonneg ps P); lra.
  Qed.

  (** A property of a ray kept by steps. *)
  Lemma run_later s0 sts (P : nat -> ray -> Prop) k i0 :
    run_of sc s0 sts -> (forall r, ray_at sts i0 k r -> P i0 r) ->
    (forall i r r1 r', (i0 <= i)%nat -> ray_at sts i k r -> P i r -> absorbed sc r r1 -> outcome sc r1 r' -> ray_at sts (S i) k r' -> P (S i) r') ->
    forall i r, (i0 <= i)%nat -> ray_at sts i k r -> P i r.
  Proof.
    intros Ru H0 HS i r Li. revert r. induction Li as [|i Li IH]; intros r A; auto.
    destruct (run_ray _ _ _ _ _ Ru A) as (r0 & r1 & A0 & Ab & O). apply (HS i r0 r1 r); auto.
  Qed.

  Lemma run_back s0 sts i j k r : run_of sc s0 sts -> (i <= j)%nat -> ray_at sts j k r -> exists r', ray_at sts i k r'.
  Proof.
    intros Ru L. revert r. induction L as [|j L IH]; intros r A; eauto.
    destruct (run_ray _ _ _ _ _ Ru A) as (r0 & r1 & A0 & _). eauto.
  Qed.

  Context (fuel n : nat) (pos vel : list vec) (en hits : list R) (b : buffers).
  Context (Lv : length vel = length pos) (Le : length en = length pos) (Lh : length hits = length (absorbers sc)).
  Context (E : simulation_loop sc fuel n pos vel en hits = Ok b).

  Lemma energy_monotone : (forall k, 0 <= surf sc k) -> (forall e, In e en -> 0 <= e) ->
    forall i j k ei ej, (i <= j)%nat -> cell (b_en b) i k ei -> cell (b_en b) j k ej -> 0 <= ej <= ei /\ forall e0, nth_error en k = Some e0 -> ei <= e0.
  Proof.
    intros P N. destruct (loop_history _ _ _ _ _ _ _ Lv Le Lh E) as (s0 & sts & (I1 & I2 & I3 & I4 & I5) & Ls & Ru & Bp & Be & Bh).
    assert (Z : forall k r, ray_at sts 0 k r -> nth_error en k = Some (r_en r)).
    { intros k r (s & Es & Er). destruct Ru as (R0 & _). rewrite R0 in Es. inversion Es; subst s. rewrite <- I3, nth_error_map, Er. auto. }
    assert (Q : forall k i r, ray_at sts i k r -> 0 <= r_en r).
    { intros k i r A. apply (run_later s0 sts (fun _ r => 0 <= r_en r) k 0 Ru) with (i := i); auto; try lia.
      - intros r0 A0. apply N. eapply nth_error_In. apply (Z k r0 A0).
      - intros i1 r0 r1 r' _ _ H Ab O _. eapply step_energy; eauto. }
    assert (M : forall i j k r r', (i <= j)%nat -> ray_at sts i k r -> ray_at sts j k r' -> r_en r' <= r_en r).
    { intros i j k r r' L A A'. apply (run_later s0 sts (fun _ x => r_en x <= r_en r) k i Ru) with (i := j); auto.
      - intros r0 A0. rewrite (ray_at_fun _ _ _ _ _ A A0). lra.
      - intros i1 r0 r1 r2 _ A1 H Ab O _. pose proof (step_energy r0 r1 r2 P (Q _ _ _ A1) Ab O). lra. }
    intros i j k ei ej L C1 C2. rewrite Be in C1, C2. apply cell_en in C1, C2. destruct C1 as (r & A & <-), C2 as (r' & A' & <-).
    split; [split; eauto|]. intros e0 E0. destruct (run_back _ _ 0 i k r Ru) as (r0 & A0); auto; try lia.
    pose proof (Z k r0 A0). replace e0 with (r_en r0) by congruence. eapply (M 0%nat i); eauto; lia.
  Qed.

  Lemma dead_rays_stay :
    forall i j k e, (i <= j)%nat -> cell (b_en b) i k e -> e <= eps sc -> (j <= n)%nat ->
      cell (b_en b) j k e /\ (forall p, cell (b_pos b) i k p <-> cell (b_pos b) j k p).
  Proof.
    destruct (loop_history _ _ _ _ _ _ _ Lv Le Lh E) as (s0 & sts & _ & Ls & Ru & Bp & Be & Bh).
    intros i j k e L C D Lj. rewrite Be, Bp in *. apply cell_en in C. destruct C as (r & A & <-).
    assert (X : ray_at sts j k r).
    { clear - L Lj Ls A D Ru. induction L as [|j L IH]; auto. specialize (IH ltac:(lia)).
      destruct IH as (s & Es & Er). destruct (nth_error sts (S j)) as [s'|] eqn:Es'; [|apply nth_error_None in Es'; lia].
      destruct Ru as (_ & St). destruct (St j s s' Es Es') as ((rs & F1 & F2) & _).
      destruct (forall2_nth _ _ _ F1 _ _ Er) as (r1 & E1 & Ab). destruct (forall2_nth _ _ _ F2 _ _ E1) as (r2 & E2 & O).
      assert (r1 = r) by (destruct Ab as [(? & _)|(_ & ->)]; [lra|auto]). subst r1.
      assert (r2 = r) by (destruct O; try lra; auto). subst. exists s'. auto. }
    split; [apply cell_en; exists r; auto|]. intros p. rewrite !cell_pos. split; intros (r' & A' & <-); exists r; split; auto.
    - rewrite (ray_at_fun _ _ _ _ _ A A'). auto.
    - rewrite (ray_at_fun _ _ _ _ _ X A'). auto.
  Qed.

  Lemma left_rays_die :
    forall i k p e, cell (b_pos b) i k p -> cell (b_en b) i k e -> left_box sc p -> (i < n)%nat -> cell (b_pos b) (S i) k p /\
      cell (b_en b) (S i) k (if Rlt_dec (eps sc) e then 0 else e).
  Proof.
    destruct (loop_history _ _ _ _ _ _ _ Lv Le Lh E) as (s0 & sts & _ & Ls & Ru & Bp & Be & Bh).
    intros i k p e C D Lb Li. rewrite Be, Bp in *. apply cell_en in D. apply cell_pos in C. destruct D as (r & A & <-), C as (r' & A' & <-).
    pose proof (ray_at_fun _ _ _ _ _ A A') as <-. clear A'.
    destruct A as (s & Es & Er). destruct (nth_error sts (S i)) as [s'|] eqn:Es'; [|apply nth_error_None in Es'; lia].
    destruct Ru as (_ & St). destruct (St i s s' Es Es') as ((rs & F1 & F2) & _).
    destruct (forall2_nth _ _ _ F1 _ _ Er) as (r1 & E1 & Ab). destruct (forall2_nth _ _ _ F2 _ _ E1) as (r2 & E2 & O).
    assert (X : r_pos r2 = r_pos r /\ r_en r2 = if Rlt_dec (eps sc) (r_en r) then 0 else r_en r).
    { destruct Ab as [(A1 & A2 & ->)|(A1 & ->)].
      - destruct (Rlt_dec (eps sc) (r_en r)); [|lra]. destruct O as [? ->|? ? ->| | |]; auto; cbn [with_energy r_en] in *; lra.
      - destruct O as [? ->|? ? ->| | |]; try tauto; split; auto; cbn [with_energy r_en]; destruct (Rlt_dec (eps sc) (r_en r)); auto; lra. }
    destruct X as (X1 & X2). split; [apply cell_pos|apply cell_en]; exists r2; split; auto; exists s'; auto.
  Qed.

  Lemma mirror_norm m v : dot m m = 1 -> dot (mirror m v) (mirror m v) = dot v v.
  Proof.
    intros H. unfold mirror. destruct m as (a, b0, c), v as (x, y, z). unfold dot, vsub, smul in *. cbn [vx vy vz] in *.
    replace ((x - 2 * (a * x + b0 * y + c * z) * a) * (x - 2 * (a * x + b0 * y + c * z) * a) +
      (y - 2 * (a * x + b0 * y + c * z) * b0) * (y - 2 * (a * x + b0 * y + c * z) * b0) +
      (z - 2 * (a * x + b0 * y + c * z) * c) * (z - 2 * (a * x + b0 * y + c * z) * c)) with
      (x*x+y*y+z*z + 4 * (a * x + b0 * y + c * z) * (a * x + b0 * y + c * z) * ((a*a+b0*b0+c*c) - 1)) by ring.
    rewrite H. ring.
  Qed.
  Lemma bounces_norm p v ps v' : (forall k, dot (pnormal sc k) (pnormal sc k) = 1) -> bounces sc p v ps v' -> dot v' v' = dot v v.
  Proof. intros U B. induction B; auto. rewrite mirror_norm; auto. Qed.

  Lemma constant_speed : (forall k, dot (pnormal sc k) (pnormal sc k) = 1) ->
    exists vs : nat -> nat -> vec,
      (forall k, (k < length pos)%nat -> nth_error vel k = Some (vs O k)) /\
      (forall i k, (i <= n)%nat -> (k < length pos)%nat -> norm (vs i k) = norm (vs O k)) /\
      forall i k p p' e', cell (b_pos b) i k p -> cell (b_pos b) (S i) k p' -> cell (b_en b) (S i) k e' ->
        (p' = vadd p (smul (dt sc) (vs (S i) k)) /\ eps sc < e') \/
        (p' = p /\ (eps sc < e' -> exists t, target sc p (vs (S i) k) = Some t /\ pdist sc p t = rdist sc)).
  Proof.
    intros U. destruct (loop_history _ _ _ _ _ _ _ Lv Le Lh E) as (s0 & sts & (I1 & I2 & I3 & I4 & I5) & Ls & Ru & Bp & Be & Bh).
    set (vs := fun i k => match nth_error sts i with Some s => match nth_error (s_rays s) k with Some r => r_vel r | None => vzero end | None => vzero end).
    assert (V : forall i k r, ray_at sts i k r -> vs i k = r_vel r).
    { intros i k r (s & Es & Er). unfold vs. rewrite Es, Er. auto. }
    assert (Len : forall i s, nth_error sts i = Some s -> length (s_rays s) = length pos).
    { destruct Ru as (R0 & St). induction i as [|i IH]; intros s Es.
      - rewrite R0 in Es. inversion Es; subst s. rewrite <- I1, map_length. auto.
      - destruct (nth_error sts i) as [s1|] eqn:E1; [|apply nth_error_None in E1; assert (nth_error sts (S i) = None) by (apply nth_error_None; lia); congruence].
        destruct (St _ _ _ E1 Es) as ((rs & F1 & F2) & _). rewrite <- (IH s1 eq_refl).
        pose proof (forall2_length _ _ _ F1). pose proof (forall2_length _ _ _ F2). lia. }
    assert (Ex : forall i k, (i <= n)%nat -> (k < length pos)%nat -> exists r, ray_at sts i k r).
    { intros i k Li Lk. destruct (nth_error sts i) as [s|] eqn:Es; [|apply nth_error_None in Es; lia].
      destruct (nth_error (s_rays s) k) as [r|] eqn:Er; [exists r, s; auto|]. apply nth_error_None in Er. rewrite (Len _ _ Es) in Er. lia. }
    assert (N : forall i k r r0, ray_at sts 0 k r0 -> ray_at sts i k r -> dot (r_vel r) (r_vel r) = dot (r_vel r0) (r_vel r0)).
    { intros i k r r0 A0 A. apply (run_later s0 sts (fun _ r => dot (r_vel r) (r_vel r) = dot (r_vel r0) (r_vel r0)) k 0 Ru) with (i := i); auto; try lia.
      - intros r1 A1. rewrite (ray_at_fun _ _ _ _ _ A0 A1). auto.
      - intros i1 r1 r2 r3 _ _ H Ab O _. assert (X : dot (r_vel r2) (r_vel r2) = dot (r_vel r1) (r_vel r1)).
        { destruct Ab as [(_ & _ & ->)|(_ & ->)]; auto. }
        destruct O as [? ->|? ? ->|ps ? ? Bo ? ? ? ? ?|ps k0 ? ? Bo ? ? ? ? ? ?|ps k0 ? ? Bo ? ? ? ? ? ? ?]; cbn [with_energy r_vel] in *; try congruence;
          rewrite (bounces_norm _ _ _ _ U Bo); congruence. }
    assert (D : forall i k r, ray_at sts i k r -> r_dpos r = smul (dt sc) (r_vel r)).
    { intros i k r A. apply (run_later s0 sts (fun _ r => r_dpos r = smul (dt sc) (r_vel r)) k 0 Ru) with (i := i); auto; try lia.
      - intros r1 (s & Es & Er). destruct Ru as (R0 & _). rewrite R0 in Es. inversion Es; subst s. eapply Forall_forall in I5; [eauto|]. eapply nth_error_In; eauto.
      - intros i1 r1 r2 r3 _ _ H Ab O _. assert (X : r_dpos r2 = smul (dt sc) (r_vel r2)).
        { destruct Ab as [(_ & _ & ->)|(_ & ->)]; auto. }
        assert (Y : forall ps, bounces sc (r_pos r2) (r_vel r2) ps (r_vel r3) -> r_dpos r3 = match ps with [] => r_dpos r2 | _ => smul (dt sc) (r_vel r3) end -> r_dpos r3 = smul (dt sc) (r_vel r3)).
        { intros [|q ps] Bo Ed; auto. rewrite Ed, X. f_equal. inversion Bo; auto. destruct ps; discriminate. }
        destruct O as [? ->|? ? ->|ps ? ? Bo ? ? ? ? ?|ps k0 ? ? Bo ? ? ? ? ? ?|ps k0 ? ? Bo ? ? ? ? ? ? ?]; auto; eapply Y; eauto. }
    exists vs. split; [|split].
    - intros k Lk. destruct (Ex 0%nat k) as (r & A); auto; try lia. rewrite (V _ _ _ A). destruct A as (s & Es & Er). destruct Ru as (R0 & _). rewrite R0 in Es. inversion Es; subst s.
      rewrite <- I2, nth_error_map, Er. auto.
    - intros i k Li Lk. destruct (Ex i k Li Lk) as (r & A). destruct (Ex 0%nat k) as (r0 & A0); auto; try lia. rewrite (V _ _ _ A), (V _ _ _ A0).
      unfold norm. rewrite (N _ _ _ _ A0 A). auto.
    - intros i k p p' e' C1 C2 C3. rewrite Bp in C1, C2. rewrite Be in C3. apply cell_pos in C1, C2. apply cell_en in C3.
      destruct C1 as (r & A & <-), C2 as (r' & A' & <-), C3 as (r2 & A2 & <-). rewrite <- (ray_at_fun _ _ _ _ _ A' A2) in *. clear A2 r2.
      rewrite (V _ _ _ A').
      destruct (run_ray _ _ _ _ _ Ru A') as (r0 & r1 & A0 & Ab & O). pose proof (ray_at_fun _ _ _ _ _ A A0) as <-. clear A0.
      assert (X : r_pos r1 = r_pos r) by (destruct Ab as [(_ & _ & ->)|(_ & ->)]; auto). rewrite <- X.
      destruct O as [? Er|? ? Er|ps ? ? Bo ? ? ? ? Ep|ps k0 ? ? Bo ? ? ? ? ? Ep|ps k0 ? ? Bo ? ? ? ? ? ? Ep].
      + right. rewrite Er in *. split; auto. intros; lra.
      + right. rewrite Er in *. split; auto. cbn [with_energy r_en]. intros; lra.
      + left. split; auto. rewrite Ep. f_equal. eapply D; eauto.
      + right. split; auto. intros _. eauto.
      + right. split; auto. intros; lra.
  Qed.
End S.
