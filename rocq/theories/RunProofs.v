(** Whole simulations: one step, one batch, all batches. *)
From Coq Require Import Reals Ascii String List Arith Bool ZArith Lia Lra.
From Verif Require Import Prelude VecModel SimModel SimSpec SimProofs SimProofs2 SimProofs3 SimProofs4 GeomModel GeomSpec VecProofs GeomProofs1 BufModel RunModel RunSpec.
Import ListNotations.
Local Open Scope R_scope.

Section Steps.
  Context (sc : scene) (Eps : 0 <= eps sc) (Dt : 0 < dt sc) (Sp : 0 <= speed sc) (Surf : forall k, 0 <= surf sc k).
  Context (Unit : forall p v k, target sc p v = Some k -> dot (pnormal sc k) (pnormal sc k) = 1).

  Lemma bounces_keep p v ps v' : bounces sc p v ps v' -> dot v' v' = dot v v.
  Proof. intros B. induction B; auto. rewrite mirror_norm; eauto. Qed.

  (** What is kept from step to step. *)
  Definition vel_ok (v : vec) : Prop := norm v = speed sc \/ v = vzero.
  Definition ray_ok (r : SimModel.ray) : Prop := r_dpos r = smul (dt sc) (r_vel r) /\ vel_ok (r_vel r) /\ 0 <= r_en r <= 1.
  Definition st_ok (s : simstate) : Prop := length (s_hits s) = length (absorbers sc) /\ Forall ray_ok (s_rays s).

  Lemma bounce_vel p v ps v' : bounces sc p v ps v' -> vel_ok v -> vel_ok v'.
  Proof.
    intros B [H | ->].
    - left. rewrite <- H. apply norm_dot_eq. eapply bounces_keep; eauto.
    - right. eapply bounces_zero; eauto.
  Qed.
  Lemma ray_step r r1 r' : ray_ok r -> absorbed sc r r1 -> outcome sc r1 r' ->
    ray_ok r' /\ r_en r' <= r_en r /\ (r_en r <= eps sc -> r' = r) /\ (r_pos r' = r_pos r \/ r_pos r' = vadd (r_pos r) (smul (dt sc) (r_vel r'))).
  Proof.
    intros (D & Vo & En) A O. pose proof (step_energy sc Eps r r1 r' Surf (proj1 En) A O) as Le.
    assert (X : r_pos r1 = r_pos r /\ r_vel r1 = r_vel r /\ r_dpos r1 = r_dpos r) by (destruct A as [(_ & _ & ->)|(_ & ->)]; auto).
    destruct X as (X1 & X2 & X3).
    assert (D' : r_dpos r' = smul (dt sc) (r_vel r')) by (eapply outcome_dpos; [|eauto]; congruence).
    split; [split; [auto|split; [|lra]]|split; [lra|split]].
    - destruct O as [? ->|? ? ->|ps ? ? Bo ? ? ? ? Ep|ps k0 ? ? Bo ? ? ? ? ? Ep|ps k0 ? ? Bo ? ? ? ? ? ? Ep]; cbn [with_energy r_vel] in *;
        try (rewrite X2; assumption); eapply bounce_vel; eauto; rewrite X2; auto.
    - intros L. assert (r1 = r) by (destruct A as [(? & _)|(_ & ->)]; [lra|auto]). subst r1. destruct O; auto; lra.
    - rewrite <- X1. destruct O as [? ->|? ? ->|ps ? ? Bo ? ? ? ? Ep|ps k0 ? ? Bo ? ? ? ? ? Ep|ps k0 ? ? Bo ? ? ? ? ? ? Ep]; auto.
      right. rewrite Ep, D'. auto.
  Qed.

  Lemma rsum_le l : forall l', Forall2 (fun x y : R => x <= y) l l' -> Rsum l <= Rsum l'.
  Proof. intros l' F. induction F; [apply Rle_refl|]. unfold Rsum in *. simpl. lra. Qed.

  Lemma step_ok fuel s s' : st_ok s -> sim_step sc fuel s = Ok s' ->
    st_ok s' /\ one_step sc (map r_pos (s_rays s)) (map r_pos (s_rays s')) (map r_en (s_rays s)) (map r_en (s_rays s')) (s_hits s').
  Proof.
    intros (Lh & Ro) E. destruct (step_rays sc Eps fuel s s' Lh E) as (Lh' & (rs & F1 & F2) & _).
    destruct (step_conservation sc fuel s s' Eps Lh E) as (rs2 & ls & Fa & Lr & Fx & Ex).
    assert (St : forall k r r', nth_error (s_rays s) k = Some r -> nth_error (s_rays s') k = Some r' ->
       ray_ok r' /\ r_en r' <= r_en r /\ (r_en r <= eps sc -> r' = r) /\ (r_pos r' = r_pos r \/ r_pos r' = vadd (r_pos r) (smul (dt sc) (r_vel r')))).
    { intros k r r' Er Er'. destruct (forall2_nth _ _ _ F1 _ _ Er) as (r1 & E1 & Ab). destruct (forall2_nth _ _ _ F2 _ _ E1) as (r2 & E2 & O).
      replace r' with r2 by congruence. apply (ray_step r r1 r2); auto. rewrite Forall_forall in Ro. apply Ro. eapply nth_error_In; eauto. }
    assert (Ln : length (s_rays s') = length (s_rays s)) by (pose proof (forall2_length _ _ _ F1); pose proof (forall2_length _ _ _ F2); lia).
    assert (Un : forall k r', nth_error (s_rays s') k = Some r' -> exists r, nth_error (s_rays s) k = Some r).
    { intros k r' Ek. destruct (nth_error (s_rays s) k) eqn:E0; eauto. apply nth_error_None in E0. rewrite <- Ln in E0. apply nth_error_None in E0. congruence. }
    split; [split; auto|].
    { apply Forall_forall. intros r' I. apply In_nth_error in I. destruct I as (k & Ek). destruct (Un _ _ Ek) as (r & Er). apply (St k r r'); auto. }
    unfold one_step. rewrite !map_length. split; [auto|]. split; [auto|]. split; [auto|]. split; [|split; [|split]].
    - intros k q q' Q Q'. rewrite nth_error_map in Q, Q'. destruct (nth_error (s_rays s) k) as [r|] eqn:Er; [|discriminate].
      destruct (nth_error (s_rays s') k) as [r'|] eqn:Er'; [|discriminate]. inversion Q; inversion Q'; subst.
      destruct (St k r r' Er Er') as ((_ & [Nv|Vz] & _) & _ & _ & [Mv|Mv]); auto; rewrite Mv.
      + right. replace (vsub _ _) with (smul (dt sc) (r_vel r')) by (destruct (r_pos r), (r_vel r'); unfold vadd, vsub, smul; simpl; f_equal; ring).
        rewrite norm_smul, Nv, Rabs_pos_eq by lra. ring.
      + left. rewrite Vz. destruct (r_pos r). unfold vadd, smul. simpl. f_equal; ring.
    - intros k q q' Q Q'. rewrite nth_error_map in Q, Q'. destruct (nth_error (s_rays s) k) as [r|] eqn:Er; [|discriminate].
      destruct (nth_error (s_rays s') k) as [r'|] eqn:Er'; [|discriminate]. inversion Q; inversion Q'; subst.
      destruct (St k r r' Er Er') as ((_ & _ & X) & Y & _). lra.
    - intros k x Q L. rewrite nth_error_map in Q. destruct (nth_error (s_rays s) k) as [r|] eqn:Er; [|discriminate]. inversion Q; subst.
      destruct (nth_error (s_rays s') k) as [r'|] eqn:Er'; [|apply nth_error_None in Er'; assert (k < length (s_rays s))%nat by (apply nth_error_Some; congruence); lia].
      destruct (St k r r' Er Er') as (_ & _ & X & _). rewrite !nth_error_map, Er', Er, (X L). auto.
    - assert (0 <= Rsum ls); [|lra].
      assert (Y : forall r, In r rs2 -> 0 <= r_en r).
      { intros r I. apply In_nth_error in I. destruct I as (k & Ek). destruct (forall2_nth' _ _ _ Fa _ _ Ek) as (r0 & E0 & A).
        rewrite Forall_forall in Ro. destruct (Ro r0 (nth_error_In _ _ E0)) as (_ & _ & ?). destruct A as [(_ & _ & ->)|(_ & ->)]; [cbn [with_energy r_en]; lra|lra]. }
      clear - Fx Y Eps Surf. revert Fx Y. generalize (s_rays s'). intros l Fx Y. remember (combine rs2 l) as c eqn:Ec. revert rs2 l Ec Y.
      induction Fx as [|p x c xs Lo Fx IH]; intros rs l Ec Y; [unfold Rsum; simpl; lra|].
      destruct rs as [|r rs], l as [|r' l]; try discriminate. simpl in Ec. inversion Ec; subst. rewrite (Rsum_cons x xs). cbn [fst snd] in Lo.
      assert (0 <= x) by (eapply loss_nonneg; eauto; apply Y; left; auto). assert (0 <= Rsum xs) by (eapply IH; eauto; intros; apply Y; right; auto). lra.
  Qed.

  Lemma trace_ok fuel n : forall s l, st_ok s -> trace (sim_step sc fuel) n s = Ok l ->
    length l = S n /\ (forall i a, nth_error l i = Some a -> st_ok a) /\
    forall i a b, nth_error l i = Some a -> nth_error l (S i) = Some b ->
      one_step sc (map r_pos (s_rays a)) (map r_pos (s_rays b)) (map r_en (s_rays a)) (map r_en (s_rays b)) (s_hits b).
  Proof.
    intros s l So T. destruct (trace_head _ _ _ _ T) as (t & El & Lt). pose proof (trace_step _ _ _ _ T) as St.
    assert (A : forall i a, nth_error l i = Some a -> st_ok a).
    { induction i as [|i IH]; intros a Ea; [rewrite El in Ea; simpl in Ea; inversion Ea; subst; auto|].
      destruct (nth_error l i) as [b|] eqn:Eb; [|apply nth_error_None in Eb; assert (nth_error l (S i) = None) by (apply nth_error_None; lia); congruence].
      eapply step_ok; [apply (IH b); auto|eapply St; eauto]. }
    split; [rewrite El; simpl; lia|]. split; auto. intros i a b Ea Eb. eapply step_ok; [eapply A; eauto|eapply St; eauto].
  Qed.

  (** Completing a step, a batch. *)
  Section Ends.
    Context (a : R) (n0 : nat) (A0 : 0 < a) (Sa : forall k, a <= surf sc k) (En0 : 1 <= eps sc + INR n0 * a).
    Context (fuel : nat) (Fu : (n0 + 2 <= fuel)%nat).

    Lemma step_ends s : st_ok s -> exists s', sim_step sc fuel s = Ok s'.
    Proof.
      intros (Lh & Ro). unfold sim_step. destruct (absorb sc (s_rays s) (map (fun _ => 0) (s_hits s))) as (rs, hs) eqn:Ab.
      destruct (absorb_spec sc (s_rays s) (map (fun _ => 0) (s_hits s)) rs hs) as (L1 & F & _); [rewrite map_length; auto|auto|].
      assert (X : exists rs', mapM (step_ray sc fuel) rs = Ok rs').
      { assert (Y : forall r, In r rs -> exists r', step_ray sc fuel r = Ok r').
        { intros r I. apply In_nth_error in I. destruct I as (k & Ek). destruct (forall2_nth' _ _ _ F _ _ Ek) as (r0 & E0 & A).
          rewrite Forall_forall in Ro. destruct (Ro r0 (nth_error_In _ _ E0)) as (_ & _ & ?).
          destruct (step_terminates sc a n0 r Eps A0 Sa) as (r' & Er'); [|exists r'; auto].
          destruct A as [(_ & _ & ->)|(_ & ->)]; cbn [with_energy r_en]; lra. }
        clear - Y. induction rs as [|r rs IH]; [exists []; auto|]. destruct (Y r) as (r' & Er'); [left; auto|]. destruct IH as (rs' & Ers); [intros; apply Y; right; auto|].
        exists (r' :: rs'). cbn [mapM]. rewrite Er'. cbn [rbind]. rewrite Ers. auto. }
      destruct X as (rs' & ->). cbn [rbind]. eauto.
    Qed.
    Lemma trace_ends n : forall s, st_ok s -> exists l, trace (sim_step sc fuel) n s = Ok l.
    Proof.
      induction n as [|n IH]; intros s So; cbn [trace]; [eauto|]. destruct (step_ends s So) as (s' & Es). rewrite Es. cbn [rbind].
      destruct (step_ok fuel s s' So Es) as (So' & _). destruct (IH s' So') as (l & ->). cbn [rbind]. eauto.
    Qed.
  End Ends.

  (** The arrays between batches. *)
  Definition arr_ok (pos vel : list vec) (en hits : list R) : Prop :=
    length vel = length pos /\ length en = length pos /\ length hits = length (absorbers sc) /\ Forall vel_ok vel /\ Forall (fun e => 0 <= e <= 1) en.

  Lemma arr_st pos vel en hits : arr_ok pos vel en hits -> st_ok (mkSim (init_rays sc pos vel en) hits).
  Proof.
    intros (Lv & Le & Lh & Fv & Fe). split; auto. cbn [s_rays]. unfold init_rays. apply Forall_forall. intros r I. apply in_map_iff in I.
    destruct I as (((p, v), e) & <- & I). split; auto. cbn [r_vel r_en]. rewrite Forall_forall in Fv, Fe.
    pose proof (in_combine_l _ _ _ _ I) as I1. pose proof (in_combine_r _ _ _ _ I) as I2. split; [apply Fv; eapply in_combine_r; eauto|apply Fe; auto].
  Qed.

  (** A batch: the arrays it gives. *)
  Definition rows_ok (n : nat) (b : buffers) : Prop :=
    length (b_pos b) = S n /\ length (b_en b) = S n /\ length (b_hit b) = S n /\
    forall i p p' e e' h', nth_error (b_pos b) i = Some p -> nth_error (b_pos b) (S i) = Some p' ->
      nth_error (b_en b) i = Some e -> nth_error (b_en b) (S i) = Some e' -> nth_error (b_hit b) (S i) = Some h' -> one_step sc p p' e e' h'.

  Lemma row_nth {X} (l : list (list X)) i : (i < length l)%nat -> nth_error l i = Some (row l i).
  Proof. intros L. unfold row. apply nth_error_nth'. auto. Qed.

  Lemma batch_ok fuel n pos vel en hits b : (1 <= n)%nat -> arr_ok pos vel en hits -> simulation_loop sc fuel n pos vel en hits = Ok b ->
    rows_ok n b /\ nth_error (b_pos b) 0 = Some pos /\ nth_error (b_en b) 0 = Some en /\ nth_error (b_hit b) 0 = Some hits /\
    (forall i p e h, nth_error (b_pos b) i = Some p -> nth_error (b_en b) i = Some e -> nth_error (b_hit b) i = Some h -> length p = length pos /\ length e = length pos /\ length h = length hits) /\
    arr_ok (row (b_pos b) n) (next_velocity sc b) (row (b_en b) n) (row (b_hit b) n) /\ length (row (b_pos b) n) = length pos.
  Proof.
    intros N1 Ao E. pose proof Ao as (Lv & Le & Lh & Fv & Fe). rewrite loop_trace in E. destruct (trace _ _ _) as [l|] eqn:T; [|discriminate]. cbn [rbind] in E. inversion E; subst b. clear E.
    destruct (trace_ok fuel n _ l (arr_st _ _ _ _ Ao) T) as (Ll & So & St).
    destruct (init_spec sc pos vel en hits Lv Le) as (I1 & I2 & I3 & I4 & _).
    assert (E0 : nth_error l 0 = Some (mkSim (init_rays sc pos vel en) hits)) by (destruct (trace_head _ _ _ _ T) as (t & -> & _); auto).
    assert (Ln : forall i a, nth_error l i = Some a -> length (s_rays a) = length pos).
    { induction i as [|i IH]; intros a Ea.
      - rewrite E0 in Ea. inversion Ea; subst a. pose proof (f_equal (@length _) I1) as X. rewrite map_length in X. exact X.
      - destruct (nth_error l i) as [a0|] eqn:Ei; [|apply nth_error_None in Ei; assert (nth_error l (S i) = None) by (apply nth_error_None; lia); congruence].
        destruct (St i a0 a Ei Ea) as (X & _). rewrite !map_length in X. rewrite X. apply IH; auto. }
    unfold proj. cbn [b_pos b_en b_hit].
    assert (Rk : rows_ok n (mkBuf (map (fun s => map r_pos (s_rays s)) l) (map (fun s => map r_en (s_rays s)) l) (map s_hits l))).
    { unfold rows_ok. cbn [b_pos b_en b_hit]. rewrite !map_length. do 3 (split; [auto|]). intros i p p' e e' h' H1 H2 H3 H4 H5. rewrite nth_error_map in H1, H2, H3, H4, H5.
      destruct (nth_error l i) as [a|] eqn:Ea; [|discriminate]. destruct (nth_error l (S i)) as [b|] eqn:Eb; [|discriminate]. cbn [option_map] in *.
      inversion H1; inversion H2; inversion H3; inversion H4; inversion H5; subst. eapply St; eauto. }
    split; [exact Rk|]. rewrite !nth_error_map, E0. cbn [option_map]. rewrite I1, I3. do 3 (split; [auto|]).
    split.
    { intros i p e h H1 H2 H3. rewrite nth_error_map in H1, H2, H3. destruct (nth_error l i) as [a|] eqn:Ea; [|discriminate]. cbn [option_map] in *. inversion H1; inversion H2; inversion H3; subst.
      rewrite !map_length, (Ln i a Ea). destruct (So i a Ea) as (X & _). rewrite X. auto. }
    destruct (nth_error l n) as [sn|] eqn:En; [|apply nth_error_None in En; lia].
    destruct (nth_error l (n - 1)) as [sm|] eqn:Em; [|apply nth_error_None in Em; lia].
    rewrite (row_proj (fun s => map r_pos (s_rays s)) l n sn En), (row_proj (fun s => map r_en (s_rays s)) l n sn En), (row_proj s_hits l n sn En). assert (Lp : length (map r_pos (s_rays sn)) = length pos) by (rewrite map_length; eauto).
    split; [|auto]. destruct (So n sn En) as (Hn & Rn). split; [|split; [|split; [|split]]].
    - rewrite next_velocity_length. cbn [b_pos]. rewrite map_length, Ll. replace (S n - 1)%nat with n by lia. replace (S n - 2)%nat with (n - 1)%nat by lia.
      rewrite (row_proj _ l n sn En), (row_proj _ l (n - 1) sm Em), !map_length, (Ln _ _ En), (Ln _ _ Em). lia.
    - rewrite !map_length. auto.
    - auto.
    - unfold next_velocity. cbn [b_pos]. rewrite map_length, Ll. replace (S n - 1)%nat with n by lia. replace (S n - 2)%nat with (n - 1)%nat by lia.
      rewrite (row_proj _ l n sn En), (row_proj _ l (n - 1) sm Em). apply Forall_forall. intros v I. apply in_map_iff in I. destruct I as ((q', q) & <- & I). cbn [fst snd].
      apply In_nth_error in I. destruct I as (k & Ek).
      assert (K : nth_error (map r_pos (s_rays sn)) k = Some q' /\ nth_error (map r_pos (s_rays sm)) k = Some q).
      { clear - Ek. revert k Ek. generalize (map r_pos (s_rays sm)). induction (map r_pos (s_rays sn)) as [|x xs IH]; intros [|y ys] [|k] Ek; try discriminate; simpl in *; [inversion Ek; auto|auto]. }
      destruct K as (K1 & K2). assert (Ex : nth_error l (S (n - 1)) = Some sn) by (replace (S (n - 1)) with n by lia; auto).
      destruct (St (n - 1)%nat sm sn Em Ex) as (_ & _ & _ & Mv & _). destruct (Mv k q q' K2 K1) as [-> | H].
      + right. destruct q. unfold smul, vsub, vzero. simpl. f_equal; ring.
      + left. rewrite norm_smul, H, Rabs_pos_eq by (left; apply Rinv_0_lt_compat; auto). field. lra.
    - apply Forall_forall. intros e I. apply in_map_iff in I. destruct I as (r & <- & I). rewrite Forall_forall in Rn. apply (Rn r I).
  Qed.

  (** All batches: the arrays, chained. *)
  Lemma batches_ok fuel size : (1 <= size)%nat -> forall n pos vel en hits bs, arr_ok pos vel en hits -> run_batches sc fuel size n pos vel en hits = Ok bs ->
    length bs = n /\
    (forall j B, nth_error bs j = Some B -> rows_ok size B /\
       forall i p e h, nth_error (b_pos B) i = Some p -> nth_error (b_en B) i = Some e -> nth_error (b_hit B) i = Some h -> length p = length pos /\ length e = length pos /\ length h = length hits) /\
    (forall B, nth_error bs 0 = Some B -> nth_error (b_pos B) 0 = Some pos /\ nth_error (b_en B) 0 = Some en /\ nth_error (b_hit B) 0 = Some hits) /\
    (forall j B B', nth_error bs j = Some B -> nth_error bs (S j) = Some B' ->
       nth_error (b_pos B) size = nth_error (b_pos B') 0 /\ nth_error (b_en B) size = nth_error (b_en B') 0 /\ nth_error (b_hit B) size = nth_error (b_hit B') 0).
  Proof.
    intros S1. induction n as [|n IH]; intros pos vel en hits bs Ao E; cbn [run_batches] in E.
    - inversion E; subst. split; auto. split; [intros [|j]; discriminate|]. split; [discriminate|intros [|j]; discriminate].
    - destruct (simulation_loop sc fuel size pos vel en hits) as [b|] eqn:El; [|discriminate]. cbn [rbind] in E.
      destruct (batch_ok fuel size pos vel en hits b S1 Ao El) as (Ro & P0 & E0 & H0 & Sh & Ao' & Lp).
      pose proof Ro as (L1 & L2 & L3 & _). rewrite L1, L2, L3 in E. cbn [Nat.sub] in E. rewrite !Nat.sub_0_r in E.
      destruct (run_batches sc fuel size n _ _ _ _) as [bs'|] eqn:Eb; [|discriminate]. cbn [rbind] in E. inversion E; subst bs. clear E.
      destruct (IH _ _ _ _ _ Ao' Eb) as (Ln & J1 & J2 & J3). split; [simpl; lia|]. split; [|split].
      + intros [|j] B Ej; cbn [nth_error] in Ej; [inversion Ej; subst B; auto|]. destruct (J1 j B Ej) as (R' & Sh'). split; auto.
        intros i p e h X1 X2 X3. destruct (Sh' i p e h X1 X2 X3) as (Y1 & Y2 & Y3). rewrite Y1, Y2, Y3, Lp.
        destruct Ao' as (_ & _ & Y & _). rewrite Y. destruct Ao as (_ & _ & -> & _). auto.
      + intros B Ej. cbn [nth_error] in Ej. inversion Ej; subst. auto.
      + intros [|j] B B' Ej Ej'.
        * change (nth_error (b :: bs') 0) with (Some b) in Ej. inversion Ej; subst B. change (nth_error (b :: bs') 1) with (nth_error bs' 0) in Ej'.
          destruct (J2 B' Ej') as (-> & -> & ->). rewrite !row_nth by lia. auto.
        * apply (J3 j); auto.
  Qed.

  Lemma loop_ends a n0 fuel : 0 < a -> (forall k, a <= surf sc k) -> 1 <= eps sc + INR n0 * a -> (n0 + 2 <= fuel)%nat ->
    forall n pos vel en hits, arr_ok pos vel en hits -> exists b, simulation_loop sc fuel n pos vel en hits = Ok b.
  Proof.
    intros A0 Sa En Fu n pos vel en hits Ao. rewrite loop_trace. destruct (trace_ends a n0 A0 Sa En fuel Fu n _ (arr_st _ _ _ _ Ao)) as (l & ->). cbn [rbind]. eauto.
  Qed.
  Lemma batches_end a n0 fuel : 0 < a -> (forall k, a <= surf sc k) -> 1 <= eps sc + INR n0 * a -> (n0 + 2 <= fuel)%nat ->
    forall size, (1 <= size)%nat -> forall n pos vel en hits, arr_ok pos vel en hits -> exists bs, run_batches sc fuel size n pos vel en hits = Ok bs.
  Proof.
    intros A0 Sa En Fu size S1. induction n as [|n IH]; intros pos vel en hits Ao; cbn [run_batches]; [eauto|].
    destruct (loop_ends a n0 fuel A0 Sa En Fu size pos vel en hits Ao) as (b & Eb). rewrite Eb. cbn [rbind].
    destruct (batch_ok fuel size pos vel en hits b S1 Ao Eb) as ((L1 & L2 & L3 & _) & _ & _ & _ & _ & Ao' & _).
    rewrite L1, L2, L3. cbn [Nat.sub]. rewrite !Nat.sub_0_r. destruct (IH _ _ _ _ Ao') as (bs & ->). cbn [rbind]. eauto.
  Qed.
End Steps.
