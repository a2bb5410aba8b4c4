(** Proofs about stitching the solids of a building. *)
From Coq Require Import Ascii String List Arith Bool Lia.
From Verif Require Import Prelude TreeModel TreeSpec TreeProofs GraphModel GraphSpec GraphProofs GraphProofs2 JoinModel JoinSpec.
Import ListNotations.

(** What operations leave as it is. *)
Section Rel.
  Context (K : kind -> Prop) (R : dict str oid -> dict str oid -> Prop).
  Context (Rr : forall d, R d d) (Rt : forall a b c, R a b -> R b c -> R a c).
  Definition rel (h h' : heap) : Prop := forall p po, nth_error h p = Some po ->
    exists po', nth_error h' p = Some po' /\ o_kind po' = o_kind po /\ (K (o_kind po) -> R (o_children po) (o_children po')).
  Lemma rel_refl h : rel h h.
  Proof. intros p po E. eauto. Qed.
  Lemma rel_trans h1 h2 h3 : rel h1 h2 -> rel h2 h3 -> rel h1 h3.
  Proof. intros A B p po E. destruct (A p po E) as (q & E1 & K1 & C1). destruct (B p q E1) as (r & E2 & K2 & C2). exists r. split; auto. split; [congruence|]. intros X. apply (Rt _ (o_children q)); auto. apply C2. rewrite K1. exact X. Qed.
  Lemma rel_set h i o o' : nth_error h i = Some o -> o_kind o' = o_kind o -> (K (o_kind o) -> R (o_children o) (o_children o')) -> rel h (set_nth h i o').
  Proof.
    intros E A B p po Ep. destruct (Nat.eq_dec p i) as [->|N].
    - exists o'. split; [eapply nth_error_set_nth_same; eauto|]. rewrite E in Ep. injection Ep as <-. auto.
    - exists po. rewrite nth_error_set_nth_other by auto. auto.
  Qed.
  Lemma rel_alloc h o : rel h (h ++ [o]).
  Proof. intros p po E. exists po. split; [apply nth_error_app_Some; auto|auto]. Qed.
  Lemma rel_add h p c : (forall po, nth_error h p = Some po -> K (o_kind po) -> forall e, R (o_children po) (o_children po ++ [e])) -> rel h (fst (add_child h p c)).
  Proof.
    intros H. destruct (add_child_effect h p c) as [e _|po co N Ep Ec Ek Em]; cbn [fst]; [apply rel_refl|].
    eapply rel_trans; [apply (rel_set h c co (set_parent co p) Ec)|apply (rel_set _ p po)]; cbn; auto. rewrite nth_error_set_nth_other by auto. auto.
  Qed.
  (** The kind of p is outside K, or adding at the end is allowed. *)
  Lemma rel_adds cs : forall h p, (forall po, nth_error h p = Some po -> K (o_kind po) -> forall d e, R d (d ++ [e])) -> rel h (fst (add_children h p cs)).
  Proof.
    induction cs as [|c cs IH]; intros h p H; cbn [add_children]; [apply rel_refl|]. assert (A : rel h (fst (add_child h p c))) by (apply rel_add; intros; eapply H; eauto).
    destruct (add_child h p c) as (h', [u|e]) eqn:E; cbn [fst] in *; auto. eapply rel_trans; [exact A|]. apply IH. intros po' E' K' d e.
    destruct (nth_error h p) as [po|] eqn:Ep. { destruct (A p po Ep) as (q & E1 & K1 & _). eapply H; eauto. congruence. }
    exfalso. unfold add_child, deref in E. rewrite Ep in E. discriminate.
  Qed.
  Lemma rel_del h i o n : nth_error h i = Some o -> ~ K (o_kind o) -> rel h (set_nth h i (set_children o (ddel (o_children o) n))).
  Proof. intros E N. apply (rel_set h i o); cbn; auto. tauto. Qed.
End Rel.

(** Zones and solids are never taken away. *)
Definition stays : heap -> heap -> Prop := rel (fun k => k = KBuilding \/ k = KZone) (@incl _).
Lemma stays_trans a b c : stays a b -> stays b c -> stays a c.
Proof. apply rel_trans. intros x y z. apply incl_tran. Qed.
Lemma stays_refl a : stays a a.
Proof. apply rel_refl. intros d. apply incl_refl. Qed.
Ltac fin := try solve [intros; apply incl_refl]; try solve [intros ? ? ?; apply incl_tran]; try solve [intros; apply incl_appl, incl_refl]; auto.
Lemma stays_adds h p cs : stays h (fst (add_children h p cs)).
Proof. apply rel_adds; fin. Qed.
Lemma stays_step h o : stays h (fst (step h o)).
Proof.
  destruct o as [k n m cs|p c|s n w|w n ps]; cbn [step].
  - unfold new_object. destruct (validate_name n); cbn [fst]; [|apply stays_refl]. destruct k; cbn [fst]; try (apply rel_alloc; fin); (eapply stays_trans; [apply rel_alloc; fin|apply stays_adds]).
  - apply rel_add; fin.
  - unfold replace_wall. destruct (deref h s) as [so|] eqn:E; [|apply stays_refl]. apply deref_ok in E. destruct (o_kind so) eqn:Ek; try apply stays_refl. destruct (dget (o_children so) n); [|apply stays_refl].
    eapply stays_trans; [apply (rel_del _ _ ltac:(fin) h s so n E); rewrite Ek; intros [X|X]; discriminate|]. apply rel_add; fin.
  - unfold replace_polygon. destruct (deref h w) as [wo|] eqn:E; [|apply stays_refl]. apply deref_ok in E. destruct (o_kind wo) eqn:Ek; try apply stays_refl. destruct (dget (o_children wo) n); [|apply stays_refl].
    eapply stays_trans; [apply (rel_del _ _ ltac:(fin) h w wo n E); rewrite Ek; intros [X|X]; discriminate|]. apply stays_adds.
Qed.
Lemma stays_run ops : forall h, stays h (run h ops).
Proof. induction ops as [|o ops IH]; intros h; cbn [run]; [apply stays_refl|]. eapply stays_trans; [apply stays_step|apply IH]. Qed.
Lemma run_app h a b : run h (a ++ b) = run (run h a) b.
Proof. revert h. induction a; intros h; cbn; auto. Qed.

(** Stitching keeps all above the walls. *)
Definition above : heap -> heap -> Prop := rel (fun k => k <> KWall) eq.
Lemma above_trans a b c : above a b -> above b c -> above a c.
Proof. apply rel_trans. intros; congruence. Qed.
Lemma above_refl a : above a a.
Proof. apply rel_refl. auto. Qed.
Lemma above_step h o : polygon_op o -> above h (fst (step h o)).
Proof.
  destruct o as [k n m cs|p c|s n w|w n ps]; cbn [step polygon_op]; try tauto.
  - destruct k; try tauto. intros _. unfold new_object. destruct (validate_name n); cbn [fst]; [|apply above_refl]. apply rel_alloc. auto.
  - intros _. unfold replace_polygon. destruct (deref h w) as [wo|] eqn:E; [|apply above_refl]. apply deref_ok in E. destruct (o_kind wo) eqn:Ek; try apply above_refl. destruct (dget (o_children wo) n); [|apply above_refl].
    eapply above_trans; [apply (rel_del (fun k => k <> KWall) eq (fun d => eq_refl) h w wo n E); rewrite Ek; intros X; apply X; auto|]. apply rel_adds; auto; [intros; congruence|].
    intros po Ep X. exfalso. rewrite (nth_error_set_nth_same h w _ wo E) in Ep. injection Ep as <-. apply X. exact Ek.
Qed.
Lemma above_run ops : forall h, Forall polygon_op ops -> above h (run h ops).
Proof. induction ops as [|o ops IH]; intros h F; cbn [run]; [apply above_refl|]. apply (above_trans h (fst (step h o))); [apply above_step; exact (Forall_inv F)|apply IH; exact (Forall_inv_tail F)]. Qed.
Lemma joined_above stitch h cs h' r : (forall h i j, Forall polygon_op (fst (stitch h i j))) -> joined stitch h cs h' r -> above h h'.
Proof.
  intros P J. induction J as [h|h i j ops u cs h' r E J IH|h i j ops e cs E]; [apply above_refl| |].
  - eapply above_trans; [|exact IH]. apply above_run. specialize (P h i j). rewrite E in P. auto.
  - apply above_run. specialize (P h i j). rewrite E in P. auto.
Qed.
Lemma above_descends h h' b bo names i : wf h -> above h h' -> nth_error h b = Some bo -> o_kind bo = KBuilding -> length names <= 3 ->
  (descends h' b names i <-> descends h b names i).
Proof.
  intros W A Eb Kb L. split; intros D.
  - induction D as [|names j o key c D IH Ej Ic]; [constructor|]. rewrite app_length in L. cbn in L. assert (D' : descends h b names j) by (apply IH; lia).
    destruct (descends_kind h b bo names j W Eb Kb D') as (jo & Ejo & Dk & _). destruct (A j jo Ejo) as (jo' & Ej' & Kj & Cj). assert (jo' = o) by congruence. subst jo'.
    econstructor; eauto. rewrite Cj; auto. intros X. rewrite X in Dk. destruct (length names) as [|[|[|n]]]; cbn in Dk; try discriminate; lia.
  - induction D as [|names j o key c D IH Ej Ic]; [constructor|]. rewrite app_length in L. cbn in L. assert (D' : descends h' b names j) by (apply IH; lia).
    destruct (descends_kind h b bo names j W Eb Kb D) as (jo & Ejo & Dk & _). assert (jo = o) by congruence. subst jo. destruct (A j o Ej) as (jo' & Ej' & Kj & Cj).
    econstructor; eauto. rewrite <- Cj; auto. intros X. rewrite X in Dk. destruct (length names) as [|[|[|n]]]; cbn in Dk; try discriminate; lia.
Qed.

(** Solids and their paths. *)
Definition at_path (h : heap) (b : oid) (k : str) (i : oid) : Prop := exists z s, descends h b [z; s] i /\ path h i = Ok k.
Section Paths.
  Context (h : heap) (b : oid) (bo : obj) (W : wf h) (L : linked h) (Eb : nth_error h b = Some bo) (Kb : o_kind bo = KBuilding).
  Lemma solid_down i : inside_of h KSolid b i <-> exists z s, descends h b [z; s] i.
  Proof.
    split.
    - intros ((o & Ei & Ki) & names & D). destruct (descends_kind h b bo names i W Eb Kb D) as (o' & E' & Dk & _). assert (o' = o) by congruence. subst o'. rewrite Ki in Dk.
      destruct names as [|z [|s [|w [|p [|q r]]]]]; cbn in Dk; try discriminate; eauto. destruct (depth_kind (length r)) as [[]|]; discriminate.
    - intros (z & s & D). split; [|eauto]. destruct (descends_kind h b bo _ i W Eb Kb D) as (o & E & Dk & _). exists o. split; auto. cbn in Dk. congruence.
  Qed.
  Lemma at_parts k i : at_path h b k i -> exists z s, descends h b [z; s] i /\ split_on PATH_SEP k = [o_name bo; z; s] /\ name_in h i = s /\ k = join_with PATH_SEP [o_name bo; z; s].
  Proof.
    intros (z & s & D & P). exists z, s. split; auto. rewrite (descends_path h b bo _ i W L Eb Kb D) in P. injection P as P. destruct (descends_kind h b bo _ i W Eb Kb D) as (o & E & Dk & F).
    split; [|split; auto].
    - rewrite <- P. apply (split_join PATH_SEP [o_name bo; z; s]); [discriminate|]. constructor; auto. destruct (W b bo Eb) as (_ & _ & _ & N). exact N.
    - inversion D as [|names j jo key c D' Ej Ic A B]. apply (f_equal (@rev _)) in A. rewrite rev_app_distr in A. cbn in A. injection A as -> A. destruct (W j jo Ej) as (_ & C & _). destruct (C s i Ic) as (co & Ec & Nc & _). unfold name_in. rewrite Ec. auto.
  Qed.
  Lemma at_inj k i j : at_path h b k i -> at_path h b k j -> i = j.
  Proof. intros (z & s & D & P) (z' & s' & D' & P'). eapply (descends_same_path h b bo); eauto. Qed.
  Lemma at_solid k i : at_path h b k i -> inside_of h KSolid b i.
  Proof. intros (z & s & D & _). apply solid_down. eauto. Qed.
  Lemma solid_at_path i : inside_of h KSolid b i -> exists k, at_path h b k i.
  Proof. intros S. apply solid_down in S. destruct S as (z & s & D). exists (join_with PATH_SEP [o_name bo; z; s]). exists z, s. split; auto. apply (descends_path h b bo); auto. Qed.
  (** The solid of a polygon. *)
  Lemma polygon_up p k : inside_of h KPolygon b p -> path h p = Ok k -> exists i, inside_of h KPolygon i p /\ at_path h b (remove_last k 2) i.
  Proof.
    intros ((o & Ep & Kp) & names & D) P. destruct (descends_kind h b bo names p W Eb Kb D) as (o' & E' & Dk & F). assert (o' = o) by congruence. subst o'. rewrite Kp in Dk.
    destruct names as [|z [|s [|w [|q [|q' r]]]]]; cbn in Dk; try discriminate; [|destruct (depth_kind (length r)) as [[]|]; discriminate].
    rewrite (descends_path h b bo _ p W L Eb Kb D) in P. assert (Ek : k = join_with PATH_SEP [o_name bo; z; s; w; q]) by congruence. subst k. clear P.
    inversion D as [|names j jo key c D1 Ej Ic A B]. apply (f_equal (@rev _)) in A. rewrite rev_app_distr in A. cbn in A. injection A as -> A. apply (f_equal (@rev _)) in A. rewrite rev_involutive in A. cbn in A. subst names c.
    inversion D1 as [|names i io key c D2 Ei Ii A B]. apply (f_equal (@rev _)) in A. rewrite rev_app_distr in A. cbn in A. injection A as -> A. apply (f_equal (@rev _)) in A. rewrite rev_involutive in A. cbn in A. subst names c.
    exists i. split.
    - split; [exists o; auto|]. exists ([w] ++ [q]). econstructor; [|exact Ej|exact Ic]. apply (desc_child h i [] i io w j); auto. constructor.
    - exists z, s. split; auto. rewrite (descends_path h b bo _ i W L Eb Kb D2). f_equal. cbn [app]. rewrite (remove_last_join 2 [o_name bo; z; s; w; q]); [reflexivity|cbn; lia|]. constructor; auto. destruct (W b bo Eb) as (_ & _ & _ & N). exact N.
  Qed.
  Lemma polygon_down i p k : at_path h b k i -> inside_of h KPolygon i p -> inside_of h KPolygon b p /\ exists x, path h p = Ok x /\ remove_last x 2 = k.
  Proof.
    intros A (Kp & ns & D). destruct A as (z & s & Di & P). pose proof (descends_trans h b _ _ _ _ Di D) as Dp. assert (Ip : inside_of h KPolygon b p) by (split; eauto). split; auto.
    pose proof (descends_path h b bo _ p W L Eb Kb Dp) as Pp. eexists. split; [exact Pp|]. destruct (polygon_up p _ Ip Pp) as (i' & (_ & ns' & D') & A' & (s' & D'' & P')).
    pose proof (descends_trans h b _ _ _ _ D'' D') as Dp'. destruct (descends_same_path h b bo _ p _ p _ W L Eb Kb Dp Dp' Pp Pp) as (_ & E). injection E as <- <- <-.
    assert (i' = i) by (apply (follow_descends h [z; s] b bo _ W Eb) in Di, D''; congruence). subst i'. congruence.
  Qed.
End Paths.
