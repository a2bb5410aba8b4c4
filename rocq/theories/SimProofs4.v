(** Proofs about the simulation: batches never change positions or hits. *)
From Coq Require Import Reals List Bool Arith Lra Lia Psatz.
From Verif Require Import Prelude MeshModel VecModel VecProofs SimModel SimSpec SimProofs SimProofs2 SimProofs3.
Import ListNotations.
Local Open Scope R_scope.

Section S.
  Context (sc : scene) (Eps : 0 <= eps sc) (Dt : dt sc <> 0).

  Definition frozen (r : ray) : Prop :=
    eps sc < r_en r /\ (forall a, In a (absorbers sc) -> ~ dot (vsub (r_pos r) a) (vsub (r_pos r) a) < radius sc * radius sc) /\
    exists k, target sc (r_pos r) (r_vel r) = Some k /\ pdist sc (r_pos r) k = rdist sc /\ ~ left_box sc (r_pos r).
  Definition still (r q : ray) : Prop := frozen r /\ r_pos q = r_pos r /\ r_vel q = vzero /\ r_dpos q = vzero.
  Definition qrel (r q : ray) : Prop := req sc r q \/ still r q.

  Lemma check_none abs : forall hits r, (forall a, In a abs -> ~ dot (vsub (r_pos r) a) (vsub (r_pos r) a) < radius sc * radius sc) ->
    check_absorbers sc abs hits r = (hits, r).
  Proof.
    induction abs as [|a abs IH]; intros [|h hits] r N; cbn [check_absorbers]; auto.
    rewrite (proj2 (Rltb_false _ _)) by (specialize (N a (or_introl eq_refl)); lra). rewrite IH; auto. intros; apply N; right; auto.
  Qed.

  Lemma absorb_qrel rays qs : Forall2 qrel rays qs -> forall hits rs hs qs' hs', absorb sc rays hits = (rs, hs) -> absorb sc qs hits = (qs', hs') ->
    hs = hs' /\ Forall2 qrel rs qs'.
  Proof.
    induction 1 as [|r q rays qs Q F IH]; intros hits rs hs qs' hs' E1 E2; cbn [absorb] in *; [inversion E1; inversion E2; subst; auto|].
    destruct Q as [(P & En & Q)|(Fr & P & V & D)].
    - rewrite <- En in E2. destruct (Rleb (r_en r) (eps sc)) eqn:B; rbool.
      + destruct (absorb sc rays hits) as (rs1, hs1) eqn:A1, (absorb sc qs hits) as (qs1, hs2) eqn:A2. inversion E1; inversion E2; subst.
        destruct (IH _ _ _ _ _ A1 A2) as (-> & F2). split; auto. constructor; auto. left. repeat split; auto.
      + rewrite <- (Q B) in E2. destruct (check_absorbers sc (absorbers sc) hits r) as (hits1, r1).
        destruct (absorb sc rays hits1) as (rs1, hs1) eqn:A1, (absorb sc qs hits1) as (qs1, hs2) eqn:A2. inversion E1; inversion E2; subst.
        destruct (IH _ _ _ _ _ A1 A2) as (-> & F2). split; auto. constructor; auto. left. apply req_refl.
    - pose proof Fr as (Al & Na & _). rewrite (proj2 (Rleb_false _ _) Al) in E1. rewrite check_none in E1 by auto.
      destruct (absorb sc rays hits) as (rs1, hs1) eqn:A1. inversion E1; subst.
      destruct (Rleb (r_en q) (eps sc)).
      + destruct (absorb sc qs hits) as (qs1, hs2) eqn:A2. inversion E2; subst. destruct (IH _ _ _ _ _ A1 A2) as (-> & F2). split; auto. constructor; auto. right. repeat split; auto; apply Fr.
      + rewrite check_none in E2 by (rewrite P; auto). destruct (absorb sc qs hits) as (qs1, hs2) eqn:A2. inversion E2; subst.
        destruct (IH _ _ _ _ _ A1 A2) as (-> & F2). split; auto. constructor; auto. right. repeat split; auto; apply Fr.
  Qed.

  Lemma bounces_first p v ps v' : bounces sc p v ps v' -> ps = [] /\ v' = v \/ exists k, target sc p v = Some k /\ pdist sc p k < rdist sc.
  Proof. induction 1 as [|ps v1 k B IH T D]; auto. destruct IH as [(-> & ->)|X]; eauto. Qed.
  Lemma frozen_stays r r' : frozen r -> outcome sc r r' -> r' = r.
  Proof.
    intros (Al & _ & k & T & D & NL) O.
    assert (X : forall ps, bounces sc (r_pos r) (r_vel r) ps (r_vel r') -> ps = [] /\ r_vel r' = r_vel r).
    { intros ps B. apply bounces_first in B. destruct B as [B|(k' & T' & D')]; auto. rewrite T in T'. inversion T'; subst. lra. }
    destruct r as (p, v, d, e). destruct O as [? ->|? ? ->|ps ? ? Bo Ee ? Ed Et Ep|ps k0 ? ? Bo Ee ? Ed Et ? Ep|ps k0 ? ? Bo Et ? ? ? ? ? Ep]; auto; cbn [r_pos r_vel r_dpos r_en] in *.
    - lra || contradiction.
    - destruct (X _ Bo) as (-> & Ev). rewrite Ev in Et. destruct Et as [Et|(k' & Et & L)]; rewrite T in Et; [discriminate|]. inversion Et; subst. lra.
    - destruct (X _ Bo) as (-> & Ev). destruct r' as (p', v', d', e'). cbn [r_pos r_vel r_dpos r_en] in *. subst. f_equal. unfold total_surf. simpl. lra.
    - destruct (X _ Bo) as (-> & Ev). rewrite Ev, T in Et. inversion Et; subst. lra.
  Qed.
  Lemma bounces_zero p ps v' : bounces sc p vzero ps v' -> v' = vzero.
  Proof. intros B. induction B; auto. rewrite IHB. unfold mirror. apply vec_ext; simpl; unfold dot; simpl; ring. Qed.
  Lemma zero_stays q q' : r_vel q = vzero -> r_dpos q = vzero -> outcome sc q q' -> r_pos q' = r_pos q /\ r_vel q' = vzero /\ r_dpos q' = vzero.
  Proof.
    intros V D O. assert (X : forall ps, bounces sc (r_pos q) (r_vel q) ps (r_vel q') -> r_dpos q' = match ps with [] => r_dpos q | _ => smul (dt sc) (r_vel q') end ->
       r_vel q' = vzero /\ r_dpos q' = vzero).
    { intros ps B Ed. rewrite V in B. apply bounces_zero in B. split; auto. rewrite B in Ed. rewrite Ed. destruct ps; auto. vring. }
    destruct O as [? ->|? ? ->|ps ? ? Bo Ee ? Ed Et Ep|ps k0 ? ? Bo Ee ? Ed Et ? Ep|ps k0 ? ? Bo Et ? ? ? Ed ? Ep]; auto; destruct (X _ Bo Ed) as (X1 & X2); split; auto.
    rewrite Ep, X2. vring.
  Qed.

  Lemma step_qrel fuel r q r' q' : qrel r q -> step_ray sc fuel r = Ok r' -> step_ray sc fuel q = Ok q' -> qrel r' q'.
  Proof.
    intros [Q|(Fr & P & V & D)] E1 E2.
    - destruct (step_req sc fuel r q r' Q E1) as (q2 & E3 & R). left. congruence.
    - right. pose proof (frozen_stays r r' Fr (step_outcome sc Eps _ _ _ E1)) as ->.
      destruct (zero_stays q q' V D (step_outcome sc Eps _ _ _ E2)) as (A & B & C). split; auto. split; [congruence|auto].
  Qed.
  Definition sqrel (s q : simstate) : Prop := Forall2 qrel (s_rays s) (s_rays q) /\ s_hits s = s_hits q.
  Lemma sim_qrel fuel s q s' q' : sqrel s q -> sim_step sc fuel s = Ok s' -> sim_step sc fuel q = Ok q' -> sqrel s' q'.
  Proof.
    intros (F & Eh) E1 E2. unfold sim_step in *. rewrite <- Eh in E2.
    destruct (absorb sc (s_rays s) _) as (rs, hs) eqn:A1, (absorb sc (s_rays q) _) as (qs, hs2) eqn:A2.
    destruct (absorb_qrel _ _ F _ _ _ _ _ A1 A2) as (-> & F2).
    destruct (mapM (step_ray sc fuel) rs) as [rs'|] eqn:M1; [|discriminate]. destruct (mapM (step_ray sc fuel) qs) as [qs'|] eqn:M2; [|discriminate].
    cbn [rbind] in *. inversion E1; inversion E2; subst. split; auto. cbn [s_rays]. apply mapM_forall in M1, M2. clear - F2 M1 M2 Eps.
    revert rs' qs' M1 M2. induction F2; intros rs' qs' M1 M2; inversion M1; inversion M2; subst; constructor; eauto using step_qrel.
  Qed.
  Lemma trace_qrel fuel n : forall s q l m, sqrel s q -> trace (sim_step sc fuel) n s = Ok l -> trace (sim_step sc fuel) n q = Ok m -> Forall2 sqrel l m.
  Proof.
    induction n as [|n IH]; intros s q l m R T1 T2; cbn [trace] in *; [inversion T1; inversion T2; subst; auto|].
    destruct (sim_step sc fuel s) as [s'|] eqn:E1; [|discriminate]. destruct (sim_step sc fuel q) as [q'|] eqn:E2; [|discriminate]. cbn [rbind] in *.
    destruct (trace (sim_step sc fuel) n s') as [l'|] eqn:T1'; [|discriminate]. destruct (trace (sim_step sc fuel) n q') as [m'|] eqn:T2'; [|discriminate].
    cbn [rbind] in *. inversion T1; inversion T2; subst. constructor; eauto using sim_qrel.
  Qed.
  Lemma qrel_pos l m : Forall2 sqrel l m -> b_pos (proj l) = b_pos (proj m) /\ b_hit (proj l) = b_hit (proj m).
  Proof.
    intros F. unfold proj. cbn [b_pos b_hit]. split; induction F as [|s q l m (Fr & Eh) F IH]; simpl; auto; f_equal; auto.
    clear - Fr. induction Fr as [|r q' rs qs [(A & B & C)|(_ & A & _)] Fr IHr]; simpl; auto; f_equal; auto.
  Qed.

  (** At a boundary a ray either moved or is frozen (or has velocity zero). *)
  Lemma boundary r r1 r' : absorbed sc r r1 -> outcome sc r1 r' -> r_dpos r = smul (dt sc) (r_vel r) -> eps sc < r_en r' ->
    r_pos r' = vadd (r_pos r) (smul (dt sc) (r_vel r')) \/ (r_pos r' = r_pos r /\ frozen r').
  Proof.
    intros Ab O D Al. assert (X : r1 = r /\ (eps sc < r_en r -> forall sn, ~ within sc (r_pos r) sn)).
    { destruct Ab as [(A1 & A2 & ->)|(A1 & ->)].
      - exfalso. destruct O as [? ->|? ? ->|ps H1|ps k H1|ps k H1]; cbn [with_energy r_en] in *; lra.
      - split; auto. intros A sn W. apply A1. eauto. }
    destruct X as (-> & NW). pose proof (outcome_dpos sc r r' D O) as D'.
    destruct O as [? ->|? ? ->|ps ? ? Bo Ee ? Ed Et Ep|ps k0 H1 NL Bo Ee ? Ed Et Dk Ep|ps k0 ? ? Bo Et ? ? ? Ed ? Ep]; cbn [with_energy r_en] in *; try lra.
    - left. rewrite Ep. f_equal. auto.
    - right. split; auto. split; auto. rewrite Ep. split; [|eauto].
      intros a I W. apply In_nth_error in I. destruct I as (sn & En). apply (NW H1 sn). exists a. auto.
  Qed.

  Lemma zero_move r r1 r' : absorbed sc r r1 -> outcome sc r1 r' -> r_dpos r' = smul (dt sc) (r_vel r') -> r_vel r' = vzero -> r_pos r' = r_pos r.
  Proof.
    intros Ab O D V. assert (X : r_pos r1 = r_pos r) by (destruct Ab as [(_ & _ & ->)|(_ & ->)]; auto). rewrite <- X.
    destruct O as [? ->|? ? ->|ps ? ? Bo Ee ? Ed Et Ep|ps k0 H1 NL Bo Ee ? Ed Et Dk Ep|ps k0 ? ? Bo Et ? ? ? Ed ? Ep]; auto.
    rewrite Ep, D, V. vring.
  Qed.

  Lemma batch_positions fuel b n : (1 <= b)%nat -> forall s pos vel en hits l bs,
    length vel = length pos -> length en = length pos -> length hits = length (absorbers sc) ->
    sqrel s (mkSim (init_rays sc pos vel en) hits) -> dinv sc s -> trace (sim_step sc fuel) (n * b) s = Ok l ->
    run_batches sc fuel b n pos vel en hits = Ok bs ->
      forall j B i, nth_error bs j = Some B -> (i <= b)%nat ->
        nth_error (b_pos B) i = nth_error (b_pos (proj l)) (j * b + i) /\ nth_error (b_hit B) i = nth_error (b_hit (proj l)) (j * b + i).
  Proof.
    intros Hb. induction n as [|n IH]; intros s pos vel en hits l bs Lv Le Lh R D T Rb.
    - cbn [run_batches] in Rb. inversion Rb; subst. intros [|j]; discriminate.
    - cbn [Nat.mul] in T. rewrite trace_app in T. destruct (trace (sim_step sc fuel) b s) as [l1|] eqn:T1; [|discriminate]. cbn [rbind] in T.
      destruct (trace (sim_step sc fuel) (n * b) (last l1 s)) as [l2|] eqn:T2; [|discriminate]. cbn [rbind] in T. inversion T; subst l. clear T.
      cbn [run_batches] in Rb. rewrite loop_trace in Rb. destruct (trace (sim_step sc fuel) b (mkSim (init_rays sc pos vel en) hits)) as [m1|] eqn:Tm; [|discriminate].
      cbn [rbind] in Rb. set (B := proj m1) in *.
      pose proof (trace_qrel fuel b _ _ _ _ R T1 Tm) as Fm. destruct (qrel_pos _ _ Fm) as (Pp & Ph).
      assert (Ll : length l1 = S b) by (destruct (trace_head _ _ _ _ T1) as (t & -> & Lt); simpl; lia).
      assert (Lm : length m1 = S b) by (destruct (trace_head _ _ _ _ Tm) as (t & -> & Lt); simpl; lia).
      assert (Lhs : length (s_hits s) = length (absorbers sc)) by (destruct R as (_ & Rh); rewrite Rh; auto).
      assert (Ru : run_of sc s l1) by (eapply trace_run; eauto).
      pose proof (last_nth l1 s b Ll) as Elast. set (s1 := last l1 s) in *.
      destruct (nth_error l1 (b - 1)) as [s2|] eqn:Eprev; [|apply nth_error_None in Eprev; lia].
      destruct (nth_error m1 b) as [q1|] eqn:Eq1; [|apply nth_error_None in Eq1; lia].
      destruct (nth_error m1 (b - 1)) as [q2|] eqn:Eq2; [|apply nth_error_None in Eq2; lia].
      assert (R1 : sqrel s1 q1) by (destruct (forall2_nth _ _ _ Fm _ _ Elast) as (x & Ex & Rx); rewrite Eq1 in Ex; inversion Ex; subst; auto).
      assert (R2 : sqrel s2 q2) by (destruct (forall2_nth _ _ _ Fm _ _ Eprev) as (x & Ex & Rx); rewrite Eq2 in Ex; inversion Ex; subst; auto).
      assert (E0 : nth_error l1 0 = Some s) by apply Ru.
      assert (Lrs : forall i x, nth_error l1 i = Some x -> length (s_rays x) = length pos).
      { destruct Ru as (_ & St). induction i as [|i IHi]; intros x Ex.
        - rewrite E0 in Ex. inversion Ex; subst x. destruct R as (Rr & _). rewrite (forall2_length _ _ _ Rr). cbn [s_rays]. apply init_length; auto.
        - destruct (nth_error l1 i) as [y|] eqn:Ey; [|apply nth_error_None in Ey; assert (nth_error l1 (S i) = None) by (apply nth_error_None; lia); congruence].
          destruct (St _ _ _ Ey Ex) as ((rs & F1 & F2) & _). rewrite <- (IHi y eq_refl). rewrite (forall2_length _ _ _ F1), (forall2_length _ _ _ F2). auto. }
      assert (Lhx : length (s_hits s1) = length (absorbers sc)).
      { destruct Ru as (_ & St). assert (E1 : nth_error l1 (S (b - 1)) = Some s1) by (replace (S (b - 1)) with b by lia; auto).
        destruct (St _ _ _ Eprev E1) as (_ & Z & _). auto. }
      pose proof (Lrs _ _ Elast) as L1. pose proof (Lrs _ _ Eprev) as L2.
      assert (Lq1 : length (s_rays q1) = length pos) by (destruct R1 as (Z & _); rewrite <- (forall2_length _ _ _ Z); auto).
      assert (Lq2 : length (s_rays q2) = length pos) by (destruct R2 as (Z & _); rewrite <- (forall2_length _ _ _ Z); auto).
      assert (Hq1 : s_hits s1 = s_hits q1) by apply R1.
      assert (Ep1 : row (b_pos B) (length (b_pos B) - 1) = map r_pos (s_rays q1)).
      { unfold B, proj. cbn [b_pos]. rewrite map_length, Lm. apply (row_proj (fun s => map r_pos (s_rays s))). replace (S b - 1)%nat with b by lia. auto. }
      assert (Ep2 : row (b_pos B) (length (b_pos B) - 2) = map r_pos (s_rays q2)).
      { unfold B, proj. cbn [b_pos]. rewrite map_length, Lm. apply (row_proj (fun s => map r_pos (s_rays s))). replace (S b - 2)%nat with (b - 1)%nat by lia. auto. }
      assert (Ee1 : row (b_en B) (length (b_en B) - 1) = map r_en (s_rays q1)).
      { unfold B, proj. cbn [b_en]. rewrite map_length, Lm. apply (row_proj (fun s => map r_en (s_rays s))). replace (S b - 1)%nat with b by lia. auto. }
      assert (Eh1 : row (b_hit B) (length (b_hit B) - 1) = s_hits q1).
      { unfold B, proj. cbn [b_hit]. rewrite map_length, Lm. apply (row_proj s_hits). replace (S b - 1)%nat with b by lia. auto. }
      assert (Lnv : length (next_velocity sc B) = length pos).
      { rewrite next_velocity_length, Ep1, Ep2, !map_length. lia. }
      rewrite Ep1, Ee1, Eh1 in Rb.
      destruct (run_batches sc fuel b n (map r_pos (s_rays q1)) (next_velocity sc B) (map r_en (s_rays q1)) (s_hits q1)) as [bs2|] eqn:Rb2; [|discriminate].
      cbn [rbind] in Rb. inversion Rb; subst bs. clear Rb.
      assert (R' : sqrel s1 (mkSim (init_rays sc (map r_pos (s_rays q1)) (next_velocity sc B) (map r_en (s_rays q1))) (s_hits q1))).
      { split; [|auto]. cbn [s_rays]. apply forall2_intro.
        - rewrite init_length; rewrite ?map_length; auto. lia. lia.
        - intros k r z Er Ez. assert (Lk : (k < length pos)%nat) by (rewrite <- L1; apply nth_error_Some; congruence).
          destruct R1 as (R1 & _), R2 as (R2 & _). destruct (forall2_nth _ _ _ R1 _ _ Er) as (q & Eq & Q).
          destruct (nth_error (s_rays s2) k) as [r0|] eqn:Er0; [|apply nth_error_None in Er0; lia].
          destruct (forall2_nth _ _ _ R2 _ _ Er0) as (q0 & Eq0 & Q0).
          assert (Pq : r_pos q = r_pos r) by (destruct Q as [(Z & _)|(_ & Z & _)]; auto).
          assert (Pq0 : r_pos q0 = r_pos r0) by (destruct Q0 as [(Z & _)|(_ & Z & _)]; auto).
          assert (Ev : nth_error (next_velocity sc B) k = Some (smul (/ dt sc) (vsub (r_pos r) (r_pos r0)))).
          { unfold next_velocity. rewrite Ep1, Ep2, <- Pq, <- Pq0. apply combine_next; rewrite ?map_length, ?nth_error_map, ?Eq, ?Eq0; auto; lia. }
          rewrite (init_nth sc _ _ _) with (p := r_pos r) (v := smul (/ dt sc) (vsub (r_pos r) (r_pos r0))) (e := r_en q) in Ez; rewrite ?map_length, ?nth_error_map, ?Eq; cbn [option_map]; rewrite ?Pq; auto; try lia.
          inversion Ez; subst z. clear Ez.
          assert (A2 : ray_at l1 (b - 1) k r0) by (exists s2; auto).
          assert (A1 : ray_at l1 (S (b - 1)) k r) by (exists s1; replace (S (b - 1)) with b by lia; auto).
          destruct (run_ray sc _ _ _ _ _ Ru A1) as (r0' & r1 & A0 & Ab & O). pose proof (ray_at_fun _ _ _ _ _ A2 A0) as <-. clear A0.
          assert (D0 : r_dpos r0 = smul (dt sc) (r_vel r0)).
          { pose proof (run_dinv sc _ _ Ru D _ _ Eprev) as Dx. unfold dinv in Dx. rewrite Forall_forall in Dx. apply Dx. eapply nth_error_In; eauto. }
          assert (Dr : r_dpos r = smul (dt sc) (r_vel r)).
          { pose proof (run_dinv sc _ _ Ru D _ _ Elast) as Dx. unfold dinv in Dx. rewrite Forall_forall in Dx. apply Dx. eapply nth_error_In; eauto. }
          destruct Q as [(_ & Enq & _)|(Fr & _ & Vq & _)].
          + rewrite <- Enq. destruct (Rlt_dec (eps sc) (r_en r)) as [Al|De].
            * destruct (boundary r0 r1 r Ab O D0 Al) as [Pm|(Pm & Fr)].
              -- assert (Vr : smul (/ dt sc) (vsub (r_pos r) (r_pos r0)) = r_vel r).
                 { rewrite Pm. destruct (r_pos r0) as (a1, a2, a3), (r_vel r) as (c1, c2, c3). unfold smul, vsub, vadd. cbn [vx vy vz]. f_equal; field; auto. }
                 rewrite Vr, <- Dr. left. destruct r; apply req_refl.
              -- right. split; auto. cbn [r_pos r_vel r_dpos]. rewrite Pm. split; auto. split; [|]; vring.
            * left. repeat split; auto. cbn [r_en]. lra.
          + right. split; auto. cbn [r_pos r_vel r_dpos]. split; auto.
            assert (A2q : ray_at m1 (b - 1) k q0) by (exists q2; auto).
            assert (A1q : ray_at m1 (S (b - 1)) k q) by (exists q1; replace (S (b - 1)) with b by lia; auto).
            assert (Ruq : run_of sc (mkSim (init_rays sc pos vel en) hits) m1) by (eapply trace_run; eauto).
            destruct (run_ray sc _ _ _ _ _ Ruq A1q) as (q0' & qq & A0q & Abq & Oq). pose proof (ray_at_fun _ _ _ _ _ A2q A0q) as <-.
            assert (Dq : r_dpos q = smul (dt sc) (r_vel q)).
            { destruct (init_spec sc pos vel en hits Lv Le) as (_ & _ & _ & _ & D1).
              pose proof (run_dinv sc _ _ Ruq D1 _ _ Eq1) as Dx. unfold dinv in Dx. rewrite Forall_forall in Dx. apply Dx. eapply nth_error_In; eauto. }
            assert (Hp : r_pos r = r_pos r0).
            { rewrite <- Pq, <- Pq0. apply (zero_move q0 qq q); auto. }
            rewrite Hp. split; vring. }
      destruct (trace_head _ _ _ _ T2) as (t & -> & Lt). cbn [tl].
      assert (Sh : forall (Y : Type) (f : simstate -> Y) j i, (i <= b)%nat ->
        nth_error (map f (s1 :: t)) (j * b + i) = nth_error (map f (l1 ++ t)) (S j * b + i)).
      { intros Y f j i Li. rewrite !nth_error_map. f_equal. destruct (j * b + i)%nat as [|z] eqn:Ez.
        - replace (S j * b + i)%nat with b by lia. rewrite nth_error_app1 by lia. rewrite Elast. reflexivity.
        - replace (S j * b + i)%nat with (b + S z)%nat by lia. rewrite nth_error_app2 by lia. rewrite Ll. replace (b + S z - S b)%nat with z by lia. reflexivity. }
      intros [|j] B' i EB Li.
      + simpl in EB. inversion EB; subst B'. unfold B. rewrite <- Pp, <- Ph. unfold proj. cbn [b_pos b_hit]. rewrite !nth_error_map. cbn [Nat.mul Nat.add]. rewrite nth_error_app1 by lia. auto.
      + simpl in EB. assert (X : nth_error (b_pos B') i = nth_error (b_pos (proj (s1 :: t))) (j * b + i) /\ nth_error (b_hit B') i = nth_error (b_hit (proj (s1 :: t))) (j * b + i)).
        { refine (IH s1 _ _ _ _ _ _ _ _ _ R' _ T2 Rb2 j B' i EB Li); rewrite ?map_length; auto; try congruence. apply (run_dinv sc _ _ Ru D _ _ Elast). }
        destruct X as (H1 & H2).
        rewrite H1, H2. unfold proj. cbn [b_pos b_hit]. rewrite <- !Sh by auto. auto.
  Qed.

  Lemma batching_positions fuel size n pos vel en hits b bs : (1 <= size)%nat ->
    length vel = length pos -> length en = length pos -> length hits = length (absorbers sc) ->
    simulation_loop sc fuel (n * size) pos vel en hits = Ok b -> run_batches sc fuel size n pos vel en hits = Ok bs ->
      forall j B i, nth_error bs j = Some B -> (i <= size)%nat ->
        nth_error (b_pos B) i = nth_error (b_pos b) (j * size + i) /\ nth_error (b_hit B) i = nth_error (b_hit b) (j * size + i).
  Proof.
    intros Hs Lv Le Lh E Rb. rewrite loop_trace in E. destruct (trace _ _ _) as [l|] eqn:T; [|discriminate]. cbn [rbind] in E. inversion E; subst b.
    destruct (init_spec sc pos vel en hits Lv Le) as (_ & _ & _ & _ & D).
    apply (batch_positions fuel size n Hs (mkSim (init_rays sc pos vel en) hits) pos vel en hits); auto.
    split; auto. generalize (init_rays sc pos vel en). intros rs. cbn [s_rays]. induction rs; constructor; auto. left. apply req_refl.
  Qed.
End S.
