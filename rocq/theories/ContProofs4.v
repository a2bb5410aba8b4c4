(** SolidMesh. *)
From Coq Require Import Ascii String Reals List Bool Arith Lia Lra.
From Verif Require Import Prelude VecModel VecProofs GeomModel TriModel TriProofs MshModel MshSpec MshProofs MshProofs6 MshProofs7 MshProofs8
  ContModel ContSpec ContProofs ContProofs2.
Import ListNotations.
Local Open Scope R_scope.

Lemma isclose_spec a b : isclose a b GEOM_RTOL ATOL8 = true <-> close_volume a b.
Proof. unfold isclose, close_volume, GEOM_RTOL, ATOL8. apply Rleb_true. Qed.
Lemma isclose_false a b : isclose a b GEOM_RTOL ATOL8 = false <-> ~ close_volume a b.
Proof. rewrite <- isclose_spec. destruct (isclose a b GEOM_RTOL ATOL8); split; intros; congruence. Qed.
Lemma minus_one b : 0 <= b -> ~ close_volume (-1) b.
Proof. intros H C. unfold close_volume in C. rewrite (Rabs_right b) in C by lra. rewrite Rabs_left in C by lra. lra. Qed.

Lemma f2_len {X Y} (Q : X -> Y -> Prop) a b : Forall2 Q a b -> length a = length b.
Proof. induction 1; cbn [length]; congruence. Qed.

Section T.
  Context {T : Type} (sname : T -> str) (svolume : T -> R) (tetra : T -> nat -> dict str (list vec) -> result (list vec * list element)).
  Let attempt := attempt tetra.
  Let missed := missed svolume tetra.

  Lemma missed_S bv s k : missed bv s (S k) <-> missed bv s k /\ exists vs els v, attempt bv s k vs els v /\ ~ close_volume v (svolume s).
  Proof.
    unfold missed, ContSpec.missed. split.
    - intros H. split; [intros j L; apply H; lia|]. apply H. lia.
    - intros (A & B) j L. destruct (Nat.eq_dec j k) as [->|]; [exact B|]. apply A. lia.
  Qed.

  Lemma try_spec fuel : forall k s bv mv vs els r, ~ close_volume mv (svolume s) -> missed bv s k ->
    try_mesh svolume tetra fuel k s bv (mv, vs, els) = r ->
    match r with
    | Ok p => exists j v, (j < k + fuel)%nat /\ attempt bv s j (fst p) (snd p) v /\ close_volume v (svolume s) /\ missed bv s j
    | Err e => (e = MeshError /\ missed bv s (k + fuel)) \/
        exists j, (j < k + fuel)%nat /\ missed bv s j /\
          (tetra s j bv = Err e \/ exists vs els, tetra s j bv = Ok (vs, els) /\ e = IndexError /\ exists el, In el els /\ forall l, ~ corners4 vs el l)
    end.
  Proof.
    induction fuel as [|fuel IH]; intros k s bv mv vs els r NC M E.
    - cbn [try_mesh] in E. rewrite (proj2 (isclose_false _ _) NC) in E. subst r. left. split; [reflexivity|]. rewrite Nat.add_0_r. exact M.
    - cbn [try_mesh] in E. rewrite (proj2 (isclose_false _ _) NC) in E.
      destruct (tetra s k bv) as [[vs' els']|e] eqn:TE.
      2:{ cbn [rbind] in E. subst r. right. exists k. split; [lia|]. auto. }
      cbn [rbind fst snd] in E. destruct (total_volume vs' els') as [v|e] eqn:TV.
      2:{ cbn [rbind] in E. subst r. right. exists k. split; [lia|]. split; [exact M|]. right. exists vs', els'. split; [exact TE|].
          unfold total_volume in TV. destruct (mapM (element_volume vs') els') as [l|e'] eqn:MM; [discriminate|]. cbn [rbind] in TV. injection TV as ->.
          clear - MM. revert MM. induction els' as [|el els' IH]; cbn [mapM]; [discriminate|].
          destruct (element_volume vs' el) as [v|e0] eqn:EV; cbn [rbind].
          - destruct (mapM (element_volume vs') els') as [l'|e1]; cbn [rbind]; [discriminate|]. intros E. injection E as ->.
            destruct (IH eq_refl) as (A & x & I & N). split; [exact A|]. exists x. split; [right; exact I|exact N].
          - intros E. injection E as ->. assert (NV : forall l, ~ corners4 vs' el l).
            { intros l C. destruct (volume_total vs' el (ex_intro _ l C)) as (v & V). congruence. }
            split; [|exists el; split; [left; reflexivity|exact NV]].
            unfold element_volume in EV. destruct (MshProofs4.four_err vs' el) as [(l & F)|F].
            + exfalso. apply (NV l). apply MshProofs4.four_spec. exact F.
            + rewrite F in EV. cbn [rbind] in EV. congruence. }
      cbn [rbind] in E. apply total_spec in TV. destruct TV as (l & FV & SV).
      assert (AT : attempt bv s k vs' els' v) by (split; [exact TE|eauto]).
      destruct (isclose v (svolume s) GEOM_RTOL ATOL8) eqn:IC.
      + destruct fuel; cbn [try_mesh] in E; rewrite IC in E; subst r; (exists k, v; split; [lia|]; split; [exact AT|]; split; [apply isclose_spec; exact IC|exact M]).
      + apply isclose_false in IC. replace (k + S fuel)%nat with (S k + fuel)%nat by lia. eapply IH; [exact IC| |exact E].
        apply missed_S. split; [exact M|]. exists vs', els', v. auto.
  Qed.

  Lemma try_ok s bv p : 0 <= svolume s -> try_mesh svolume tetra SOLID_MESH_MAX_TRIES 0 s bv (-1, [], []) = Ok p -> accepted svolume tetra bv s p.
  Proof.
    intros H E. apply (try_spec SOLID_MESH_MAX_TRIES 0) in E; [exact E|apply minus_one; exact H|]. intros j L. lia.
  Qed.

  (** How meshing one solid can fail. *)
  Definition gives_up (bv : dict str (list vec)) (s : T) (e : pyerr) : Prop :=
    (e = MeshError /\ missed bv s 10) \/
    exists j, (j < 10)%nat /\ missed bv s j /\
      (tetra s j bv = Err e \/ exists vs els, tetra s j bv = Ok (vs, els) /\ e = IndexError /\ exists el, In el els /\ forall l, ~ corners4 vs el l).
  Lemma try_err s bv e : 0 <= svolume s -> try_mesh svolume tetra SOLID_MESH_MAX_TRIES 0 s bv (-1, [], []) = Err e -> gives_up bv s e.
  Proof.
    intros H E. apply (try_spec SOLID_MESH_MAX_TRIES 0) in E; [exact E|apply minus_one; exact H|]. intros j L. lia.
  Qed.

  (** The loop over the solids. *)
  Lemma sm_loop_spec bv d0 : (forall s, 0 <= svolume s) -> forall rest pre ps, Forall2 (accepted svolume tetra bv) pre ps ->
    forall d e, sm_loop sname svolume tetra bv rest (assemble d0 (map sname pre) ps) = (d, e) ->
    exists done ps', Forall2 (accepted svolume tetra bv) done ps' /\ d = assemble d0 (map sname done) ps' /\
      match e with
      | None => done = pre ++ rest
      | Some x => exists s rest', pre ++ rest = done ++ s :: rest' /\ (gives_up bv s x \/ exists p, accepted svolume tetra bv s p /\ rectangular (snd p) = false /\ x = ValueError)
      end.
  Proof.
    intros HV. induction rest as [|s rest IH]; intros pre ps F d e; cbn [sm_loop].
    - intros E. injection E as <- <-. exists pre, ps. rewrite app_nil_r. auto.
    - destruct (try_mesh svolume tetra SOLID_MESH_MAX_TRIES 0 s bv (-1, [], [])) as [[vs els]|x] eqn:TM.
      2:{ intros E. injection E as <- <-. exists pre, ps. split; [exact F|]. split; [reflexivity|]. exists s, rest. split; [reflexivity|]. left. apply try_err; auto. }
      apply try_ok in TM; [|apply HV].
      rewrite assemble_snoc by (rewrite map_length; exact (f2_len _ _ _ F)).
      destruct (rectangular els) eqn:RC.
      2:{ intros E. injection E as <- <-. exists pre, ps. split; [exact F|]. split; [reflexivity|]. exists s, rest. split; [reflexivity|]. right. exists (vs, els). auto. }
      intros E. replace (map sname pre ++ [sname s]) with (map sname (pre ++ [s])) in E by (rewrite map_app; reflexivity).
      apply IH in E; [|apply Forall2_app; auto]. destruct E as (done & ps' & A & B & C). exists done, ps'. split; [exact A|]. split; [exact B|].
      rewrite <- app_assoc in C. exact C.
  Qed.

  (** The volumes of the parts. *)
  Lemma points_stands vs' e' vs e : stands vs' e' vs e -> (forall x, In x e -> nth_error vs x <> None) -> points_of vs' e' = points_of vs e.
  Proof.
    unfold stands, points_of. induction 1 as [|x' x e' e A F IH]; intros H; [reflexivity|]. cbn [map]. f_equal; [|apply IH; intros y I; apply H; right; exact I].
    specialize (H x (or_introl eq_refl)). destruct (nth_error vs x) as [p|]; [|congruence]. apply A. reflexivity.
  Qed.
  Lemma stands_volume vs' e' vs e v : stands vs' e' vs e -> has_volume vs e v -> has_volume vs' e' v.
  Proof.
    intros S (p & q & s & t & (a & b & c & d & r & p' & q' & s' & t' & -> & E & A & B & C & D) & ->). injection E as <- <- <- <-.
    inversion S as [|a' ? e1 ? HA S1]; subst. inversion S1 as [|b' ? e2 ? HB S2]; subst. inversion S2 as [|c' ? e3 ? HC S3]; subst. inversion S3 as [|d' ? e4 ? HD S4]; subst.
    exists p, q, s, t. split; [|reflexivity]. exists a', b', c', d', e4, p, q, s, t. auto 8.
  Qed.
  Lemma shifted_volumes a : forall ps c ls, Forall2 (fun p l => Forall2 (has_volume (fst p)) (snd p) l) ps ls ->
    Forall2 (has_volume (a ++ concat (map fst ps) ++ c)) (shifted (length a) ps) (concat ls).
  Proof.
    intros ps. revert a. induction ps as [|p ps IH]; intros a c ls F; inversion F; subst; cbn [shifted map concat]; [constructor|].
    apply Forall2_app.
    - rewrite <- app_assoc. clear - H1. induction H1 as [|e v es l V F IH]; cbn [map]; constructor; [|exact IH].
      eapply stands_volume; [apply stands_shift|exact V].
    - rewrite <- app_length. rewrite <- app_assoc, app_assoc. apply IH. assumption.
  Qed.
  Lemma accepted_volumes bv ss ps : Forall2 (accepted svolume tetra bv) ss ps ->
    exists ls, Forall2 (fun p l => Forall2 (has_volume (fst p)) (snd p) l) ps ls /\ Forall2 (fun s l => close_volume (sum l) (svolume s)) ss ls.
  Proof.
    induction 1 as [|s p ss ps (k & v & L & (TE & l & FV & SV) & C & M) F (ls & A & B)]; [exists []; auto|].
    exists (l :: ls). split; constructor; auto. unfold sum. rewrite <- SV. exact C.
  Qed.

  Lemma forall2_fun vs els l1 l2 : Forall2 (has_volume vs) els l1 -> Forall2 (has_volume vs) els l2 -> l1 = l2.
  Proof.
    intros A. revert l2. induction A as [|e v els l V F IH]; intros l2 B; inversion B; subst; [reflexivity|]. f_equal; [|apply IH; assumption].
    apply volume_spec in V. match goal with H : has_volume vs e _ |- _ => apply volume_spec in H; congruence end.
  Qed.
  Lemma volumes_spec vs els r : mapM (element_volume vs) els = Ok r <-> Forall2 (has_volume vs) els r.
  Proof. rewrite mapM_forall2. split; intros F; (induction F; constructor; auto); apply volume_spec; assumption. Qed.
  Lemma has_more vs c e v : has_volume vs e v -> has_volume (vs ++ c) e v.
  Proof.
    intros (p & q & s & t & (a & b & c' & d & r & p' & q' & s' & t' & -> & E & A & B & C & D) & ->). injection E as <- <- <- <-.
    assert (G : forall n x, nth_error vs n = Some x -> nth_error (vs ++ c) n = Some x) by (intros n x H; rewrite nth_error_app1; [exact H|apply nth_error_Some; congruence]).
    exists p, q, s, t. split; [|reflexivity]. exists a, b, c', d, r, p, q, s, t. auto 8.
  Qed.

  Lemma sm_gen_ok m bv m' : (forall s, 0 <= svolume s) -> sm_generate sname svolume tetra m bv = (m', None) ->
    exists ps, Forall2 (accepted svolume tetra bv) (dvals (sm_solids m)) ps /\ sm_solids m' = sm_solids m /\
      sm_data m' = (let d := assemble (sm_data m) (map sname (dvals (sm_solids m))) ps in MD (md_vs d) (md_vown d) (md_els d) (md_eown d) (md_sizes (sm_data m'))) /\
      Forall2 (has_volume (md_vs (sm_data m'))) (md_els (sm_data m')) (md_sizes (sm_data m')).
  Proof.
    intros HV E. unfold sm_generate in E. destruct (sm_loop sname svolume tetra bv (dvals (sm_solids m)) (sm_data m)) as [d e] eqn:SL.
    destruct e as [e|]; [discriminate|]. destruct (recalc element_volume d) as [d' e'] eqn:RC. injection E as <- ->.
    destruct (sm_loop_spec bv (sm_data m) HV (dvals (sm_solids m)) [] [] ltac:(constructor) d None) as (done & ps & A & B & ->).
    { cbn [map]. rewrite assemble_nil. exact SL. }
    apply recalc_none in RC. destruct RC as (r & MR & ->). cbn [app] in *. exists ps. split; [exact A|]. split; [reflexivity|]. cbn [sm_data md_vs md_els md_sizes].
    split; [rewrite B; reflexivity|]. apply volumes_spec. exact MR.
  Qed.

  Lemma sum_app a b : sum (a ++ b) = sum a + sum b.
  Proof. unfold sum. induction a; simpl; lra. Qed.

  (** The total of the volumes of a fresh mesh. *)
  Lemma sm_gen_sizes m bv m' l0 : (forall s, 0 <= svolume s) -> sm_generate sname svolume tetra m bv = (m', None) ->
    Forall2 (has_volume (md_vs (sm_data m))) (md_els (sm_data m)) l0 ->
    exists ls, md_sizes (sm_data m') = l0 ++ concat ls /\ Forall2 (fun s l => close_volume (sum l) (svolume s)) (dvals (sm_solids m)) ls.
  Proof.
    intros HV E F0. destruct (sm_gen_ok _ _ _ HV E) as (ps & A & _ & D & V). destruct (accepted_volumes _ _ _ A) as (ls & B & C).
    exists ls. split; [|exact C]. rewrite D in V. cbn [md_vs md_els md_sizes] in V. unfold assemble in V. cbn [md_vs md_els] in V.
    eapply forall2_fun; [exact V|]. apply Forall2_app.
    - clear - F0. induction F0; constructor; auto. apply has_more. assumption.
    - pose proof (shifted_volumes (md_vs (sm_data m)) ps [] ls B) as H. rewrite app_nil_r in H. exact H.
  Qed.
  Lemma sum_close ss ls : Forall2 (fun s l => close_volume (sum l) (svolume s)) ss ls ->
    Rabs (sum (concat ls) - sum (map svolume ss)) <= sum (map (fun s => 1 / 100000000 + 1 / 1000000 * Rabs (svolume s)) ss).
  Proof.
    induction 1 as [|s l ss ls C F IH]; cbn [map concat]; [unfold sum; cbn [fold_right]; rewrite Rminus_0_r, Rabs_R0; lra|].
    rewrite sum_app. unfold sum at 3 4. cbn [fold_right]. fold (sum (map svolume ss)) (sum (map (fun s => 1 / 100000000 + 1 / 1000000 * Rabs (svolume s)) ss)).
    unfold close_volume in C. replace (sum l + sum (concat ls) - (svolume s + sum (map svolume ss))) with ((sum l - svolume s) + (sum (concat ls) - sum (map svolume ss))) by lra.
    eapply Rle_trans; [apply Rabs_triang|]. lra.
  Qed.

  (** Errors leave the solids meshed so far. *)
  Lemma sm_gen_err m bv m' e : (forall s, 0 <= svolume s) -> sm_generate sname svolume tetra m bv = (m', Some e) ->
    Forall (fun el => exists v, has_volume (md_vs (sm_data m)) el v) (md_els (sm_data m)) ->
    exists done s rest ps, dvals (sm_solids m) = done ++ s :: rest /\ Forall2 (accepted svolume tetra bv) done ps /\ sm_solids m' = sm_solids m /\
      sm_data m' = assemble (sm_data m) (map sname done) ps /\
      (gives_up bv s e \/ exists p, accepted svolume tetra bv s p /\ rectangular (snd p) = false /\ e = ValueError).
  Proof.
    intros HV E F0. unfold sm_generate in E. destruct (sm_loop sname svolume tetra bv (dvals (sm_solids m)) (sm_data m)) as [d e0] eqn:SL.
    destruct (sm_loop_spec bv (sm_data m) HV (dvals (sm_solids m)) [] [] ltac:(constructor) d e0) as (done & ps & A & B & C).
    { cbn [map]. rewrite assemble_nil. exact SL. }
    cbn [app] in C. destruct e0 as [e0|].
    - injection E as <- ->. destruct C as (s & rest & C1 & C2). exists done, s, rest, ps. cbn [sm_data sm_solids]. auto.
    - exfalso. destruct (accepted_volumes _ _ _ A) as (ls & VB & _).
      assert (W : exists l0, Forall2 (has_volume (md_vs (sm_data m))) (md_els (sm_data m)) l0).
      { clear - F0. induction F0 as [|el els (v & V) F (l & IH)]; [exists []; constructor|]. exists (v :: l). constructor; assumption. }
      destruct W as (l0 & W).
      assert (V : Forall2 (has_volume (md_vs d)) (md_els d) (l0 ++ concat ls)).
      { rewrite B. unfold assemble. cbn [md_vs md_els]. apply Forall2_app.
        - clear - W. induction W; constructor; auto. apply has_more. assumption.
        - pose proof (shifted_volumes (md_vs (sm_data m)) ps [] ls VB) as H. rewrite app_nil_r in H. exact H. }
      apply volumes_spec in V. rewrite (recalc_ok _ _ _ V) in E. discriminate.
  Qed.
End T.
