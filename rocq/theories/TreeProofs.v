(** Specification vocabulary and lemmas for the object hierarchy. *)
From Coq Require Import Ascii String List Arith Bool ZArith Lia Permutation.
From Verif Require Import Prelude TreeModel TreeSpec.
Import ListNotations.

(** ** Strings: splitting and joining *)

Lemma split_on_cons c s : exists w ws, split_on c s = w :: ws.
Proof.
  induction s as [|x xs (w & ws & E)]; simpl; eauto.
  destruct (Ascii.eqb x c); eauto. rewrite E. eauto.
Qed.

Lemma split_on_nosep c w : ~ In c w -> split_on c w = [w].
Proof.
  induction w as [|x w IH]; simpl; intros N; auto.
  destruct (Ascii.eqb_spec x c); [subst; exfalso; auto|]. rewrite IH; auto.
Qed.

Lemma split_on_app c w s : ~ In c w -> split_on c (w ++ c :: s) = w :: split_on c s.
Proof.
  induction w as [|x w IH]; simpl; intros N.
  - rewrite Ascii.eqb_refl. reflexivity.
  - destruct (Ascii.eqb_spec x c); [subst; exfalso; auto|]. rewrite IH; auto.
Qed.

Lemma split_join c l : l <> [] -> Forall (fun w => ~ In c w) l -> split_on c (join_with c l) = l.
Proof.
  induction l as [|w l IH]; intros N F; [congruence|]. inversion F; subst.
  destruct l as [|w' l]; simpl; [apply split_on_nosep; auto|].
  rewrite split_on_app by assumption. f_equal. apply IH; [discriminate|assumption].
Qed.

Lemma join_cons_cons c w w' l : join_with c (w :: w' :: l) = w ++ c :: join_with c (w' :: l).
Proof. reflexivity. Qed.

Lemma join_split c s : join_with c (split_on c s) = s.
Proof.
  induction s as [|x xs IH]; auto. simpl.
  destruct (split_on_cons c xs) as (w & ws & E). rewrite E in *.
  destruct (Ascii.eqb_spec x c).
  - subst x. rewrite join_cons_cons. cbn [app]. rewrite IH. reflexivity.
  - destruct ws as [|w' ws].
    + simpl in *. congruence.
    + rewrite join_cons_cons in *. cbn [app]. congruence.
Qed.

Lemma split_pieces c s : Forall (fun w => ~ In c w) (split_on c s).
Proof.
  induction s as [|x xs IH]; simpl; [constructor; auto|].
  destruct (Ascii.eqb_spec x c); [constructor; auto|].
  destruct (split_on_cons c xs) as (w & ws & E). rewrite E in *. inversion IH; subst.
  constructor; auto. simpl. intros [C|C]; auto.
Qed.

Lemma join_snoc c l w : l <> [] -> join_with c (l ++ [w]) = join_with c [join_with c l; w].
Proof.
  induction l as [|a l IH]; intros N; [congruence|].
  destruct l as [|b l]; [reflexivity|].
  change ((a :: b :: l) ++ [w]) with (a :: (b :: l) ++ [w]).
  destruct ((b :: l) ++ [w]) as [|y ys] eqn:E; [discriminate|].
  rewrite join_cons_cons. rewrite IH by discriminate.
  rewrite (join_cons_cons c a b l). simpl (join_with c [_; _]).
  rewrite <- app_assoc. reflexivity.
Qed.

Lemma existsb_sep_true name : existsb (Ascii.eqb PATH_SEP) name = true <-> In PATH_SEP name.
Proof.
  rewrite existsb_exists. split.
  - intros (x & I & E). apply Ascii.eqb_eq in E. subst. exact I.
  - intros I. exists PATH_SEP. split; auto.
Qed.

Lemma validate_name_spec name :
  (validate_name name = Ok name /\ ~ In PATH_SEP name) \/
  (validate_name name = Err ValueError /\ In PATH_SEP name).
Proof.
  unfold validate_name. destruct (existsb (Ascii.eqb PATH_SEP) name) eqn:E.
  - right. split; auto. apply existsb_sep_true. exact E.
  - left. split; auto. intros C. apply existsb_sep_true in C. congruence.
Qed.

Lemma validate_name_ok name n : validate_name name = Ok n -> n = name /\ ~ In PATH_SEP name.
Proof.
  destruct (validate_name_spec name) as [(E & N)|(E & N)]; rewrite E; intros Q; inversion Q; subst; auto.
Qed.

Lemma split_path_join names : names <> [] ->
  Forall (fun n => validate_name n = Ok n) names ->
  split_path (join_with PATH_SEP names) = Ok names.
Proof.
  intros N F. unfold split_path. rewrite split_join; auto.
  - destruct names; congruence.
  - eapply Forall_impl; [|exact F]. intros a Ha. apply validate_name_ok in Ha. tauto.
Qed.

Lemma join_injective names names' : names <> [] -> names' <> [] ->
  Forall (fun n => validate_name n = Ok n) names ->
  Forall (fun n => validate_name n = Ok n) names' ->
  join_with PATH_SEP names = join_with PATH_SEP names' -> names = names'.
Proof.
  intros N N' F F' E. pose proof (split_path_join names N F) as A.
  rewrite E in A. rewrite (split_path_join names' N' F') in A. congruence.
Qed.

Lemma split_path_total p : exists l, split_path p = Ok l /\ l <> [] /\ join_with PATH_SEP l = p.
Proof.
  unfold split_path. destruct (split_on_cons PATH_SEP p) as (w & ws & E). rewrite E.
  exists (w :: ws). split; [reflexivity|]. split; [discriminate|]. rewrite <- E. apply join_split.
Qed.

(** ** Heap invariants *)

Definition wf_obj (h : heap) (o : obj) : Prop :=
  NoDup (dkeys (o_children o)) /\
  (forall k c, In (k, c) (o_children o) ->
     exists co, nth_error h c = Some co /\ o_name co = k /\
                child_kind (o_kind o) = Some (o_kind co)) /\
  (forall p, o_parent o = Some p ->
     exists po, nth_error h p = Some po /\ child_kind (o_kind po) = Some (o_kind o)) /\
  ~ In PATH_SEP (o_name o).

Definition wf (h : heap) : Prop := forall i o, nth_error h i = Some o -> wf_obj h o.



Definition same_id (o o' : obj) : Prop :=
  o_kind o' = o_kind o /\ o_name o' = o_name o /\ o_npts o' = o_npts o.

Definition ext (h h' : heap) : Prop :=
  forall i o, nth_error h i = Some o -> exists o', nth_error h' i = Some o' /\ same_id o o'.

Lemma same_id_refl o : same_id o o.
Proof. repeat split. Qed.

Lemma ext_refl h : ext h h.
Proof. intros i o E. exists o. split; auto. apply same_id_refl. Qed.

Lemma ext_trans h1 h2 h3 : ext h1 h2 -> ext h2 h3 -> ext h1 h3.
Proof.
  intros A B i o E. destruct (A i o E) as (o' & E' & S1). destruct (B i o' E') as (o'' & E'' & S2).
  exists o''. split; auto. destruct S1 as (?&?&?), S2 as (?&?&?). repeat split; congruence.
Qed.

Lemma nth_error_set_nth_same {A} (l : list A) i x y :
  nth_error l i = Some y -> nth_error (set_nth l i x) i = Some x.
Proof.
  intros E. rewrite nth_error_set_nth. destruct (Nat.eq_dec i i); [|lia].
  destruct (lt_dec i (length l)); auto. exfalso.
  apply n. apply nth_error_Some. congruence.
Qed.

Lemma nth_error_set_nth_other {A} (l : list A) i x j :
  j <> i -> nth_error (set_nth l i x) j = nth_error l j.
Proof. intros N. rewrite nth_error_set_nth. destruct (Nat.eq_dec j i); congruence. Qed.

Lemma ext_set_nth h i o o' : nth_error h i = Some o -> same_id o o' -> ext h (set_nth h i o').
Proof.
  intros E S j x Ex. destruct (Nat.eq_dec j i) as [->|N].
  - exists o'. split; [eapply nth_error_set_nth_same; eauto|]. congruence.
  - exists x. rewrite nth_error_set_nth_other by exact N. split; auto. apply same_id_refl.
Qed.

Lemma wf_obj_ext h h' o : ext h h' -> wf_obj h o -> wf_obj h' o.
Proof.
  intros X (A & B & C & D). split; [exact A|]. split; [|split]; [| |exact D].
  - intros k c I. destruct (B k c I) as (co & E & N & K).
    destruct (X c co E) as (co' & E' & K' & N' & _). exists co'. repeat split; congruence.
  - intros p E. destruct (C p E) as (po & E1 & K).
    destruct (X p po E1) as (po' & E' & K' & _). exists po'. split; congruence.
Qed.

Lemma wf_set_nth h i o o' : wf h -> nth_error h i = Some o -> same_id o o' ->
  wf_obj h o' -> wf (set_nth h i o').
Proof.
  intros W E S W' j x Ex. apply (wf_obj_ext h); [eapply ext_set_nth; eauto|].
  destruct (Nat.eq_dec j i) as [->|N].
  - rewrite (nth_error_set_nth_same _ _ _ _ E) in Ex. congruence.
  - rewrite nth_error_set_nth_other in Ex by exact N. eauto.
Qed.

Lemma kind_eqb_eq a b : kind_eqb a b = true <-> a = b.
Proof. destruct a, b; simpl; split; intros; congruence. Qed.

Lemma deref_ok h i o : deref h i = Ok o <-> nth_error h i = Some o.
Proof. unfold deref. destruct (nth_error h i); split; intros E; inversion E; auto. Qed.

(** What [add_child] does, in full. *)
Inductive add_effect (h : heap) (p c : oid) : outcome -> Prop :=
| add_fails e : (e = GeometryError \/ e = TypeError \/ e = AttributeError) ->
    add_effect h p c (h, Err e)
| add_works po co : p <> c ->
    nth_error h p = Some po -> nth_error h c = Some co ->
    child_kind (o_kind po) = Some (o_kind co) ->
    ~ In (o_name co) (dkeys (o_children po)) ->
    add_effect h p c
      (set_nth (set_nth h c (set_parent co p)) p
               (set_children po (o_children po ++ [(o_name co, c)])), Ok tt).

Lemma child_kind_neq k : child_kind k <> Some k.
Proof. destruct k; simpl; congruence. Qed.

Lemma add_child_effect h p c : add_effect h p c (add_child h p c).
Proof.
  unfold add_child. destruct (deref h p) as [po|] eqn:Ep; [|constructor; unfold deref in Ep; destruct (nth_error h p); inversion Ep; auto].
  destruct (deref h c) as [co|] eqn:Ec; [|constructor; auto].
  apply deref_ok in Ep, Ec.
  destruct (child_kind (o_kind po)) as [k|] eqn:Ek; [|constructor; auto].
  destruct (kind_eqb k (o_kind co)) eqn:Eb; [|constructor; auto].
  apply kind_eqb_eq in Eb. subst k.
  destruct (memb (o_name co) (dkeys (o_children po))) eqn:Em; [constructor; auto|].
  apply memb_false in Em. rewrite dset_new by exact Em.
  constructor; auto. intros ->. rewrite Ep in Ec. inversion Ec; subst. apply child_kind_neq in Ek. exact Ek.
Qed.

Lemma add_child_ext h p c : ext h (fst (add_child h p c)).
Proof.
  destruct (add_child_effect h p c) as [e He|po co N Ep Ec Ek Em]; simpl; [apply ext_refl|].
  apply (ext_trans _ (set_nth h c (set_parent co p))); [eapply (ext_set_nth h c co); [exact Ec|repeat split]|].
  eapply ext_set_nth; [rewrite nth_error_set_nth_other by exact N; exact Ep|repeat split].
Qed.

Lemma NoDup_snoc {A} (l : list A) x : NoDup l -> ~ In x l -> NoDup (l ++ [x]).
Proof.
  intros ND NI. apply NoDup_Add with (a := x) (l := l).
  - rewrite <- (app_nil_r l) at 1. apply Add_app.
  - auto.
Qed.

Lemma add_child_wf h p c : wf h -> wf (fst (add_child h p c)).
Proof.
  intros W. destruct (add_child_effect h p c) as [e He|po co N Ep Ec Ek Em]; simpl; auto.
  assert (W1 : wf (set_nth h c (set_parent co p))).
  { apply (wf_set_nth _ c co); auto; [repeat split|].
    destruct (W c co Ec) as (A & B & C & D). split; [exact A|]. split; [exact B|]. split; [|exact D].
    simpl. intros q E. inversion E; subst. eauto. }
  apply (wf_set_nth _ p po); [exact W1| |repeat split|].
  - rewrite nth_error_set_nth_other by exact N. exact Ep.
  - apply (wf_obj_ext h); [eapply ext_set_nth; [exact Ec|repeat split]|].
    destruct (W p po Ep) as (A & B & C & D). split; [|split; [|split]]; auto.
    + simpl. unfold dkeys. rewrite map_app. simpl. apply NoDup_snoc; auto.
    + simpl. intros k x I. apply in_app_iff in I. destruct I as [I|[I|[]]]; auto.
      inversion I; subst. exists co. auto.
Qed.

Lemma add_children_wf cs : forall h p, wf h -> wf (fst (add_children h p cs)).
Proof.
  induction cs as [|c cs IH]; simpl; intros h p W; auto.
  pose proof (add_child_wf h p c W) as W'. destruct (add_child h p c) as (h', [u|e]); simpl in *; auto.
Qed.

Lemma add_children_ext cs : forall h p, ext h (fst (add_children h p cs)).
Proof.
  induction cs as [|c cs IH]; simpl; intros h p; [apply ext_refl|].
  pose proof (add_child_ext h p c) as X. destruct (add_child h p c) as (h', [u|e]); simpl in *; auto.
  eapply ext_trans; eauto.
Qed.

Lemma nth_error_app_Some {A} (l l' : list A) i x : nth_error l i = Some x -> nth_error (l ++ l') i = Some x.
Proof. intros E. rewrite nth_error_app1; auto. apply nth_error_Some. congruence. Qed.

Lemma wf_alloc h o : wf h -> o_parent o = None -> o_children o = [] -> ~ In PATH_SEP (o_name o) ->
  wf (h ++ [o]).
Proof.
  intros W P C N.
  assert (X : ext h (h ++ [o])).
  { intros i x E. exists x. split; [apply nth_error_app_Some; exact E|apply same_id_refl]. }
  intros i x E. destruct (lt_dec i (length h)) as [L|L].
  - rewrite nth_error_app1 in E by exact L. eapply wf_obj_ext; [exact X|]. eauto.
  - rewrite nth_error_app2 in E by lia. destruct (i - length h) as [|n]; simpl in E; [|destruct n; discriminate].
    inversion E; subst. split; [rewrite C; constructor|]. rewrite C, P. split; [simpl; tauto|].
    split; [congruence|exact N].
Qed.

Lemma del_child_wf h i o key : wf h -> nth_error h i = Some o ->
  wf (set_nth h i (set_children o (ddel (o_children o) key))).
Proof.
  intros W E. eapply wf_set_nth; eauto; [repeat split|].
  destruct (W i o E) as (A & B & C & D). split; [|split; [|split]]; auto.
  - simpl. apply NoDup_ddel. exact A.
  - simpl. intros k c I. apply in_ddel in I. eauto.
Qed.

Lemma step_wf h o : wf h -> wf (fst (step h o)).
Proof.
  intros W. destruct o as [k n m cs|p c|s n w|w n ps]; simpl.
  - unfold new_object. destruct (validate_name n) as [n'|e] eqn:E; auto.
    apply validate_name_ok in E. destruct E as (-> & N).
    assert (W' : wf (h ++ [mkObj k n None [] m])) by (apply wf_alloc; auto).
    destruct k; simpl; auto using add_children_wf.
  - apply add_child_wf; auto.
  - unfold replace_wall. destruct (deref h s) as [so|] eqn:E; auto. apply deref_ok in E.
    destruct (o_kind so); auto. destruct (dget (o_children so) n); auto.
    apply add_child_wf. apply del_child_wf; auto.
  - unfold replace_polygon. destruct (deref h w) as [wo|] eqn:E; auto. apply deref_ok in E.
    destruct (o_kind wo); auto. destruct (dget (o_children wo) n); auto.
    apply add_children_wf. apply del_child_wf; auto.
Qed.

Lemma run_wf ops : forall h, wf h -> wf (run h ops).
Proof. induction ops as [|o ops IH]; simpl; intros h W; auto. apply IH. apply step_wf. exact W. Qed.

Lemma wf_nil : wf [].
Proof. intros [|i] o E; discriminate. Qed.

(** ** Objects added at most once: children and parents agree *)


Definition inv (h : heap) (U : list oid) : Prop :=
  wf h /\ linked h /\
  (forall c co, nth_error h c = Some co -> o_parent co <> None -> In c U).

Lemma inv_mono h U U' : inv h U -> incl U U' -> inv h U'.
Proof. intros (A & B & C) I. split; [exact A|]. split; [exact B|]. intros c co E P. apply I. eauto. Qed.

Lemma add_child_inv h p c U : inv h U -> ~ In c U -> inv (fst (add_child h p c)) (c :: U).
Proof.
  intros (W & L & Pu) NU. split; [apply add_child_wf; exact W|].
  destruct (add_child_effect h p c) as [e He|po co N Ep Ec Ek Em]; simpl.
  - split; auto. intros x xo E P. right. eauto.
  - assert (Ec' : nth_error (set_nth (set_nth h c (set_parent co p)) p
        (set_children po (o_children po ++ [(o_name co, c)]))) c = Some (set_parent co p)).
    { rewrite nth_error_set_nth_other by auto. eapply nth_error_set_nth_same; eauto. }
    assert (Ep' : nth_error (set_nth (set_nth h c (set_parent co p)) p
        (set_children po (o_children po ++ [(o_name co, c)]))) p =
        Some (set_children po (o_children po ++ [(o_name co, c)]))).
    { eapply nth_error_set_nth_same. rewrite nth_error_set_nth_other by auto. exact Ep. }
    assert (Eo : forall x, x <> c -> x <> p -> nth_error (set_nth (set_nth h c (set_parent co p)) p
        (set_children po (o_children po ++ [(o_name co, c)]))) x = nth_error h x).
    { intros x A B. rewrite !nth_error_set_nth_other by auto. reflexivity. }
    remember (set_nth (set_nth h c (set_parent co p)) p
        (set_children po (o_children po ++ [(o_name co, c)]))) as h' eqn:Eh. clear Eh.
    assert (Lx : forall q qo k x, nth_error h q = Some qo -> In (k, x) (o_children qo) ->
        exists xo, nth_error h' x = Some xo /\ o_parent xo = Some q).
    { intros q qo k x Eq I. destruct (L q qo k x Eq I) as (xo & Ex & Px).
      assert (x <> c). { intros ->. apply NU. eapply Pu; eauto. congruence. }
      destruct (Nat.eq_dec x p) as [->|Nx].
      - rewrite Ep in Ex. inversion Ex; subst xo.
        exists (set_children po (o_children po ++ [(o_name co, c)])). split; [exact Ep'|]. exact Px.
      - exists xo. rewrite Eo by auto. auto. }
    split.
    + intros q qo k x Eq I.
      destruct (Nat.eq_dec q p) as [->|Nq].
      * rewrite Ep' in Eq. inversion Eq; subst qo. simpl in I. apply in_app_iff in I.
        destruct I as [I|[I|[]]]; [eauto|]. inversion I; subst x.
        exists (set_parent co p). split; [exact Ec'|]. reflexivity.
      * destruct (Nat.eq_dec q c) as [->|Nc].
        -- rewrite Ec' in Eq. inversion Eq; subst qo. simpl in I. eauto.
        -- rewrite Eo in Eq by auto. eauto.
    + intros x xo Ex Px. destruct (Nat.eq_dec x c) as [->|Nc]; [left; reflexivity|]. right.
      destruct (Nat.eq_dec x p) as [->|Np].
      * rewrite Ep' in Ex. inversion Ex; subst xo. simpl in Px. eauto.
      * rewrite Eo in Ex by auto. eauto.
Qed.

Lemma add_children_inv cs : forall h p U, inv h U -> NoDup cs -> (forall c, In c cs -> ~ In c U) ->
  inv (fst (add_children h p cs)) (cs ++ U).
Proof.
  induction cs as [|c cs IH]; simpl; intros h p U I ND D; auto.
  inversion ND; subst.
  pose proof (add_child_inv h p c U I (D c (or_introl eq_refl))) as I'.
  destruct (add_child h p c) as (h', [u|e]); simpl in *.
  - eapply inv_mono; [apply (IH h' p (c :: U)); auto|].
    + intros x Ix [C|C]; subst; [tauto|]. eapply D; eauto.
    + intros x Ix. apply in_app_iff in Ix. simpl in *. rewrite in_app_iff. tauto.
  - eapply inv_mono; eauto. intros x Ix. simpl in *. rewrite in_app_iff. tauto.
Qed.

Lemma del_child_inv h i o key U : inv h U -> nth_error h i = Some o ->
  inv (set_nth h i (set_children o (ddel (o_children o) key))) U.
Proof.
  intros (W & L & P) E. split; [apply del_child_wf; auto|].
  assert (Es := nth_error_set_nth_same h i (set_children o (ddel (o_children o) key)) o E).
  split.
  - intros q qo k x Eq I.
    assert (exists xo, nth_error h x = Some xo /\ o_parent xo = Some q) as (xo & Ex & Px).
    { destruct (Nat.eq_dec q i) as [->|N].
      - rewrite Es in Eq. inversion Eq; subst qo. simpl in I. apply in_ddel in I. eauto.
      - rewrite nth_error_set_nth_other in Eq by exact N. eauto. }
    destruct (Nat.eq_dec x i) as [->|N].
    + rewrite Es. eexists. split; [reflexivity|]. simpl. congruence.
    + rewrite nth_error_set_nth_other by exact N. eauto.
  - intros x xo Ex Px. destruct (Nat.eq_dec x i) as [->|N].
    + rewrite Es in Ex. inversion Ex; subst xo. simpl in Px. eauto.
    + rewrite nth_error_set_nth_other in Ex by exact N. eauto.
Qed.

Lemma alloc_inv h o U : inv h U -> o_parent o = None -> o_children o = [] ->
  ~ In PATH_SEP (o_name o) -> inv (h ++ [o]) U.
Proof.
  intros (W & L & P) Po Co No. split; [apply wf_alloc; auto|].
  assert (Q : forall i x, nth_error (h ++ [o]) i = Some x -> nth_error h i = Some x \/ x = o).
  { intros i x E. destruct (lt_dec i (length h)) as [Lt|Lt].
    - rewrite nth_error_app1 in E by exact Lt. auto.
    - rewrite nth_error_app2 in E by lia. destruct (i - length h) as [|n]; simpl in E; [|destruct n; discriminate].
      inversion E; auto. }
  split.
  - intros p po k c E I. destruct (Q _ _ E) as [E'| ->].
    + destruct (L p po k c E' I) as (co & Ec & Pc). exists co. split; auto. apply nth_error_app_Some; auto.
    + rewrite Co in I. destruct I.
  - intros c co E Pc. destruct (Q _ _ E) as [E'| ->]; [eauto|congruence].
Qed.

Lemma step_inv h o U : inv h U -> NoDup (added o) -> (forall c, In c (added o) -> ~ In c U) ->
  inv (fst (step h o)) (added o ++ U).
Proof.
  intros I ND D.
  assert (I' : inv h (added o ++ U)).
  { eapply inv_mono; eauto. intros x Ix. apply in_app_iff. auto. }
  destruct o as [k n m cs|p c|s n w|w n ps]; simpl in *.
  - unfold new_object. destruct (validate_name n) as [n'|e] eqn:E; auto.
    apply validate_name_ok in E. destruct E as (-> & N).
    assert (W' : inv (h ++ [mkObj k n None [] m]) U) by (apply alloc_inv; auto).
    destruct k; simpl; auto using add_children_inv.
    eapply inv_mono; eauto. intros x Ix. apply in_app_iff. auto.
  - apply add_child_inv; auto.
  - unfold replace_wall. destruct (deref h s) as [so|] eqn:E; auto. apply deref_ok in E.
    destruct (o_kind so); auto. destruct (dget (o_children so) n); auto.
    apply add_child_inv; auto. apply del_child_inv; auto.
  - unfold replace_polygon. destruct (deref h w) as [wo|] eqn:E; auto. apply deref_ok in E.
    destruct (o_kind wo); auto. destruct (dget (o_children wo) n); auto.
    apply add_children_inv; auto. apply del_child_inv; auto.
Qed.

Lemma NoDup_app_split {A} (l1 l2 : list A) : NoDup (l1 ++ l2) ->
  NoDup l1 /\ NoDup l2 /\ (forall x, In x l1 -> ~ In x l2).
Proof.
  induction l1 as [|a l1 IH]; simpl; intros ND.
  - repeat split; auto. constructor.
  - inversion ND; subst. destruct (IH H2) as (A1 & A2 & A3). repeat split; auto.
    + constructor; auto. intros C. apply H1. apply in_app_iff. auto.
    + intros x [->|I] C; [apply H1; apply in_app_iff; auto|]. eapply A3; eauto.
Qed.

Lemma run_inv ops : forall h U, inv h U -> NoDup (flat_map added ops) ->
  (forall c, In c (flat_map added ops) -> ~ In c U) -> inv (run h ops) (flat_map added ops ++ U).
Proof.
  induction ops as [|o ops IH]; simpl; intros h U I ND D; auto.
  apply NoDup_app_split in ND. destruct ND as (N1 & N2 & N3).
  eapply inv_mono.
  - apply (IH _ (added o ++ U)); auto.
    + apply step_inv; auto. intros c Ic. apply D. apply in_app_iff. auto.
    + intros c Ic C. apply in_app_iff in C. destruct C as [C|C].
      * eapply N3; eauto.
      * eapply D; eauto. apply in_app_iff. auto.
  - intros x Ix. rewrite !in_app_iff in *. tauto.
Qed.

Lemma inv_nil : inv [] [].
Proof.
  split; [apply wf_nil|]. split.
  - intros [|p] po k c E; discriminate.
  - intros [|c] co E; discriminate.
Qed.

Lemma run_linked ops : NoDup (flat_map added ops) -> wf (run [] ops) /\ linked (run [] ops).
Proof.
  intros ND. destruct (run_inv ops [] [] inv_nil ND) as (A & B & _); auto.
Qed.

(** ** Paths and lookup *)

Fixpoint depth_kind (n : nat) : option kind :=
  match n with O => Some KBuilding | S n' =>
    match depth_kind n' with Some k => child_kind k | None => None end end.

Lemma descends_kind h b bo names i : wf h -> nth_error h b = Some bo -> o_kind bo = KBuilding ->
  descends h b names i ->
  exists o, nth_error h i = Some o /\ depth_kind (length names) = Some (o_kind o) /\
    Forall (fun n => ~ In PATH_SEP n) names.
Proof.
  intros W Eb Kb D. induction D as [|names j o key c D IH Ej Ic].
  - exists bo. rewrite Kb. auto.
  - destruct IH as (o' & Eo & Dk & F). rewrite Ej in Eo. inversion Eo; subst o'.
    destruct (W j o Ej) as (_ & B & _). destruct (B key c Ic) as (co & Ec & Nc & Kc).
    exists co. split; [exact Ec|]. rewrite app_length, Nat.add_1_r. simpl. rewrite Dk. split; [exact Kc|].
    apply Forall_app. split; auto. constructor; auto. subst key.
    destruct (W c co Ec) as (_ & _ & _ & N). exact N.
Qed.

Lemma depth_kind_none n : depth_kind (5 + n) = None.
Proof.
  induction n as [|n IH]; [reflexivity|]. rewrite Nat.add_succ_r. cbn [depth_kind]. rewrite IH. reflexivity.
Qed.

Lemma depth_kind_le4 n k : depth_kind n = Some k -> n <= 4.
Proof.
  intros E. destruct (le_lt_dec n 4) as [L|L]; auto. exfalso.
  replace n with (5 + (n - 5)) in E by lia. rewrite depth_kind_none in E. discriminate.
Qed.

Lemma descends_parent h b bo names i : wf h -> linked h -> nth_error h b = Some bo ->
  o_kind bo = KBuilding -> descends h b names i ->
  forall fuel, length names < fuel ->
  path_fuel fuel h i = Ok (join_with PATH_SEP (o_name bo :: names)) /\
  root_fuel fuel h i = Ok b.
Proof.
  intros W L Eb Kb D. induction D as [|names j o key c D IH Ej Ic]; intros fuel Hf.
  - destruct fuel as [|fuel]; [lia|]. simpl. rewrite (proj2 (deref_ok _ _ _) Eb). simpl.
    rewrite Kb. auto.
  - rewrite app_length in Hf. simpl in Hf. destruct fuel as [|fuel]; [lia|]. cbn [path_fuel root_fuel].
    destruct (L j o key c Ej Ic) as (co & Ec & Pc).
    destruct (W j o Ej) as (_ & B & _). destruct (B key c Ic) as (co' & Ec' & Nc & Kc).
    rewrite Ec in Ec'. inversion Ec'; subst co'.
    rewrite (proj2 (deref_ok _ _ _) Ec). cbn [rbind]. rewrite Pc.
    destruct (IH fuel ltac:(lia)) as (Hp & Hr).
    rewrite Hp, Hr. cbn [rbind].
    assert (Ej2 : join_with PATH_SEP (o_name bo :: names ++ [key]) =
      join_with PATH_SEP [join_with PATH_SEP (o_name bo :: names); key]).
    { apply (join_snoc PATH_SEP (o_name bo :: names) key). discriminate. }
    rewrite Ej2, Nc.
    destruct (o_kind co) eqn:Kco; auto.
    exfalso. destruct (o_kind o); simpl in Kc; congruence.
Qed.

Lemma getitem_child h i o key c : wf h -> nth_error h i = Some o ->
  (getitem h i key = Ok c <-> In (key, c) (o_children o)).
Proof.
  intros W E. unfold getitem. rewrite (proj2 (deref_ok _ _ _) E). simpl. unfold dlookup.
  destruct (W i o E) as (ND & _). split.
  - destruct (dget (o_children o) key) eqn:G; intros Q; inversion Q; subst. apply dget_Some_in. exact G.
  - intros I. rewrite (dget_in _ _ _ ND I). reflexivity.
Qed.

Lemma getitem_err h i key e : nth_error h i <> None -> getitem h i key = Err e -> e = KeyError.
Proof.
  unfold getitem, deref. destruct (nth_error h i); [simpl|congruence]. unfold dlookup.
  destruct (dget _ key); congruence.
Qed.

(** Following a list of names with [__getitem__]. *)
Fixpoint follow (h : heap) (i : oid) (names : list str) : result oid :=
  match names with
  | [] => Ok i
  | n :: ns => do j <- getitem h i n; follow h j ns
  end.

Lemma follow_snoc h names n : forall i,
  follow h i (names ++ [n]) = do j <- follow h i names; getitem h j n.
Proof.
  induction names as [|m names IH]; intros i; simpl.
  - destruct (getitem h i n); reflexivity.
  - destruct (getitem h i m); simpl; auto.
Qed.

Lemma follow_descends h names : forall i io j, wf h -> nth_error h i = Some io ->
  (follow h i names = Ok j <-> descends h i names j).
Proof.
  induction names as [|n names IH] using rev_ind; intros i io j W E; simpl.
  - split; [intros Q; inversion Q; constructor | intros Q; inversion Q; subst; auto].
    exfalso. eapply app_cons_not_nil. symmetry. eassumption.
  - rewrite follow_snoc. split.
    + destruct (follow h i names) as [k|] eqn:F; simpl; [|discriminate].
      apply (IH i io k W E) in F. intros G.
      destruct (nth_error h k) as [ko|] eqn:Ek.
      * apply (getitem_child h k ko n j W Ek) in G. econstructor; eauto.
      * unfold getitem, deref in G. rewrite Ek in G. discriminate.
    + intros D. inversion D as [A B|names' k ko key c D' Ek Ic A B]; [destruct names; discriminate|].
      apply app_inj_tail in A. destruct A; subst.
      apply (IH i io k W E) in D'. rewrite D'. simpl. apply (getitem_child h k ko n j W Ek). exact Ic.
Qed.

Lemma follow_result h names : forall i io, wf h -> nth_error h i = Some io ->
  (exists j, follow h i names = Ok j) \/ follow h i names = Err KeyError.
Proof.
  induction names as [|n names IH]; intros i io W E; simpl; [eauto|].
  destruct (getitem h i n) as [j|e] eqn:G; simpl.
  - apply (getitem_child h i io n j W E) in G.
    destruct (W i io E) as (_ & B & _). destruct (B n j G) as (jo & Ej & _). eapply IH; eauto.
  - right. f_equal. eapply getitem_err; eauto. congruence.
Qed.

Lemma building_get_short int_of h b bo p names : nth_error h b = Some bo ->
  split_on PATH_SEP p = o_name bo :: names -> length names <= 4 ->
  building_get int_of h b p = do i <- follow h b names; Ok (GotObj i).
Proof.
  intros Eb Es Hl. unfold building_get. rewrite (proj2 (deref_ok _ _ _) Eb). simpl. rewrite Es, eqb_refl. simpl.
  do 5 (destruct names as [|? names]; [simpl; repeat (match goal with |- context [getitem ?a ?b ?c] => destruct (getitem a b c) end; simpl; auto); reflexivity|]).
  simpl in Hl. lia.
Qed.

Lemma building_get_obj int_of h b bo p i : wf h -> nth_error h b = Some bo ->
  (building_get int_of h b p = Ok (GotObj i) <->
   exists names, p = join_with PATH_SEP (o_name bo :: names) /\ length names <= 4 /\
     Forall (fun n => ~ In PATH_SEP n) names /\ descends h b names i).
Proof.
  intros W Eb. destruct (W b bo Eb) as (_ & _ & _ & Nb). split.
  - intros G.
    destruct (split_on_cons PATH_SEP p) as (w & ws & Es).
    assert (F : Forall (fun n => ~ In PATH_SEP n) (w :: ws)) by (rewrite <- Es; apply split_pieces).
    inversion F; subst.
    assert (Ew : w = o_name bo).
    { unfold building_get in G. rewrite (proj2 (deref_ok _ _ _) Eb) in G. simpl in G. rewrite Es in G.
      destruct (eqb w (o_name bo)) eqn:Q; simpl in G; [|discriminate]. rewrite eqb_true in Q. exact Q. }
    subst w.
    assert (Hl : length ws <= 4).
    { unfold building_get in G. rewrite (proj2 (deref_ok _ _ _) Eb) in G. simpl in G. rewrite Es, eqb_refl in G. simpl in G.
      do 6 (destruct ws as [|? ws]; [simpl; lia || idtac|]); try discriminate.
      exfalso. destruct (int_of _); [|discriminate].
      repeat (match type of G with context [getitem ?a ?b ?c] => destruct (getitem a b c) end; simpl in G; try discriminate).
      unfold point_at in G. destruct (deref h _); simpl in G; [|discriminate].
      repeat match type of G with context [if ?x then _ else _] => destruct x end; discriminate. }
    exists ws. split; [|split; [exact Hl|split; [assumption|]]].
    + rewrite <- Es. symmetry. apply join_split.
    + rewrite (building_get_short int_of h b bo p ws Eb Es Hl) in G.
      destruct (follow h b ws) as [j|] eqn:Fo; simpl in G; [|discriminate]. inversion G; subst j.
      eapply follow_descends; eauto.
  - intros (names & -> & Hl & F & D).
    rewrite (building_get_short int_of h b bo _ names Eb); auto.
    + apply (follow_descends h names b bo i W Eb) in D. rewrite D. reflexivity.
    + apply split_join; [discriminate|]. constructor; auto.
Qed.

Lemma building_get_point int_of h b bo p n4 ix : nth_error h b = Some bo ->
  split_on PATH_SEP p = o_name bo :: n4 ++ [ix] -> length n4 = 4 ->
  building_get int_of h b p =
  match int_of ix with
  | None => Err ValueError
  | Some k => do i <- follow h b n4; point_at h i k
  end.
Proof.
  intros Eb Es Hl. unfold building_get. rewrite (proj2 (deref_ok _ _ _) Eb). simpl. rewrite Es, eqb_refl.
  do 4 (destruct n4 as [|? n4]; [discriminate|]). destruct n4; [|discriminate]. simpl.
  destruct (int_of ix); auto.
  repeat (match goal with |- context [getitem ?a ?b ?c] => destruct (getitem a b c) end; simpl; auto).
Qed.

Lemma building_get_too_long int_of h b bo p names : nth_error h b = Some bo ->
  split_on PATH_SEP p = o_name bo :: names -> 5 < length names ->
  building_get int_of h b p = Err ValueError.
Proof.
  intros Eb Es Hl. unfold building_get. rewrite (proj2 (deref_ok _ _ _) Eb). simpl. rewrite Es, eqb_refl. simpl.
  do 6 (destruct names as [|? names]; [simpl in Hl; lia|]). reflexivity.
Qed.

Lemma point_at_err h i k e : point_at h i k = Err e -> e = AttributeError \/ e = IndexError.
Proof.
  unfold point_at, deref. destruct (nth_error h i); simpl; [|intros Q; inversion Q; auto].
  repeat match goal with |- context [if ?x then _ else _] => destruct x end; intros Q; inversion Q; auto.
Qed.

Lemma building_get_wrong_name int_of h b bo p : wf h -> nth_error h b = Some bo ->
  (building_get int_of h b p = Err AssertionError <->
   forall names, split_path p <> Ok (o_name bo :: names)).
Proof.
  intros W Eb. unfold split_path.
  destruct (split_on_cons PATH_SEP p) as (w & ws & Es). rewrite Es.
  destruct (eqb w (o_name bo)) eqn:Q.
  - rewrite eqb_true in Q. subst w. split.
    + intros G. exfalso. destruct (le_lt_dec (length ws) 4) as [L|L].
      * rewrite (building_get_short int_of h b bo p ws Eb Es L) in G.
        destruct (follow_result h ws b bo W Eb) as [(j & F)|F]; rewrite F in G; discriminate.
      * destruct (le_lt_dec (length ws) 5) as [L5|L5].
        -- destruct (exists_last (l := ws)) as (n4 & ix & ->); [intros ->; simpl in L; lia|].
           rewrite app_length in *. simpl in *.
           rewrite (building_get_point int_of h b bo p n4 ix Eb Es ltac:(lia)) in G.
           destruct (int_of ix) as [k|]; [|discriminate].
           destruct (follow_result h n4 b bo W Eb) as [(j & F)|F]; rewrite F in G; simpl in G; [|discriminate].
           apply point_at_err in G. destruct G; discriminate.
        -- rewrite (building_get_too_long int_of h b bo p ws Eb Es L5) in G. discriminate.
    + intros C. exfalso. apply (C ws). reflexivity.
  - assert (G : building_get int_of h b p = Err AssertionError).
    { unfold building_get. rewrite (proj2 (deref_ok _ _ _) Eb). simpl. rewrite Es, Q. reflexivity. }
    rewrite eqb_false in Q. split; auto. intros _ names C. congruence.
Qed.

Lemma building_get_missing int_of h b bo p names : wf h -> nth_error h b = Some bo ->
  split_path p = Ok (o_name bo :: names) -> length names <= 4 ->
  (building_get int_of h b p = Err KeyError <-> ~ exists i, descends h b names i).
Proof.
  intros W Eb Es Hl. unfold split_path in Es.
  destruct (split_on PATH_SEP p) as [|w ws] eqn:E; [discriminate|]. inversion Es; subst w ws.
  rewrite (building_get_short int_of h b bo p names Eb E Hl).
  destruct (follow_result h names b bo W Eb) as [(j & F)|F]; rewrite F; simpl.
  - split; [discriminate|]. intros C. exfalso. apply C. exists j. eapply follow_descends; eauto.
  - split; auto. intros _ (i & D). eapply follow_descends in D; eauto. congruence.
Qed.

Lemma building_get_long int_of h b bo p names : nth_error h b = Some bo ->
  split_path p = Ok (o_name bo :: names) -> 5 < length names ->
  building_get int_of h b p = Err ValueError.
Proof.
  intros Eb Es Hl. unfold split_path in Es.
  destruct (split_on PATH_SEP p) as [|w ws] eqn:E; [discriminate|]. inversion Es; subst w ws.
  eapply building_get_too_long; eauto.
Qed.

Lemma point_at_range h i o k : nth_error h i = Some o ->
  (forall r, point_at h i k = Ok r -> exists m, r = GotPoint i m /\ m < o_npts o /\
     (k = Z.of_nat m \/ k = (Z.of_nat m - Z.of_nat (o_npts o))%Z)) /\
  (point_at h i k = Err IndexError <->
     (k >= Z.of_nat (o_npts o) \/ k < - Z.of_nat (o_npts o))%Z).
Proof.
  intros E. unfold point_at. rewrite (proj2 (deref_ok _ _ _) E). cbn [rbind].
  destruct (Z.leb_spec 0 k); destruct (Z.ltb_spec k (Z.of_nat (o_npts o))); cbn [andb];
  destruct (Z.leb_spec (- Z.of_nat (o_npts o)) k); destruct (Z.ltb_spec k 0); cbn [andb]; try lia.
  all: split; [intros r Q; first [discriminate Q | inversion Q; eexists; split; [reflexivity|lia]] | split; intros Q; try discriminate Q; try lia; reflexivity].
Qed.

Lemma path_get_roundtrip int_of h b bo names i : wf h -> linked h -> nth_error h b = Some bo ->
  o_kind bo = KBuilding -> descends h b names i ->
  exists p, path h i = Ok p /\ building_get int_of h b p = Ok (GotObj i) /\
    obj_get int_of h i p = Ok (GotObj i).
Proof.
  intros W L Eb Kb D.
  destruct (descends_kind h b bo names i W Eb Kb D) as (o & Ei & Dk & F).
  pose proof (depth_kind_le4 _ _ Dk) as Hl.
  destruct (descends_parent h b bo names i W L Eb Kb D 5 ltac:(lia)) as (Hp & Hr).
  exists (join_with PATH_SEP (o_name bo :: names)). split; [exact Hp|].
  assert (G : building_get int_of h b (join_with PATH_SEP (o_name bo :: names)) = Ok (GotObj i)).
  { apply (building_get_obj int_of h b bo _ i W Eb). exists names. auto. }
  split; [exact G|]. unfold obj_get. rewrite Hr. cbn [rbind].
  rewrite (proj2 (deref_ok _ _ _) Eb). cbn [rbind]. rewrite Kb. exact G.
Qed.

Lemma obj_get_root int_of h b bo names i p : wf h -> linked h -> nth_error h b = Some bo ->
  o_kind bo = KBuilding -> descends h b names i ->
  obj_get int_of h i p = building_get int_of h b p.
Proof.
  intros W L Eb Kb D.
  destruct (descends_kind h b bo names i W Eb Kb D) as (o & Ei & Dk & F).
  pose proof (depth_kind_le4 _ _ Dk) as Hl.
  destruct (descends_parent h b bo names i W L Eb Kb D 5 ltac:(lia)) as (Hp & Hr).
  unfold obj_get. rewrite Hr. cbn [rbind].
  rewrite (proj2 (deref_ok _ _ _) Eb). cbn [rbind]. rewrite Kb. reflexivity.
Qed.

(** ** Listing polygon paths *)

Lemma concatM_ext {A B} (f g : A -> result (list B)) l :
  (forall x, In x l -> f x = g x) -> concatM f l = concatM g l.
Proof.
  induction l as [|x l IH]; simpl; intros E; auto.
  rewrite (E x (or_introl eq_refl)). destruct (g x); simpl; auto. rewrite IH; auto.
Qed.

Lemma concatM_ok {A B} (f : A -> result (list B)) (g : A -> list B) l :
  (forall x, In x l -> f x = Ok (g x)) -> concatM f l = Ok (flat_map g l).
Proof.
  induction l as [|x l IH]; simpl; intros E; auto.
  rewrite (E x (or_introl eq_refl)). simpl. rewrite IH; auto.
Qed.

(** All (names, object) pairs n levels below i, in dictionary order. *)
Fixpoint below (h : heap) (n : nat) (i : oid) : list (list str * oid) :=
  match n with
  | O => [([], i)]
  | S n' =>
      match nth_error h i with
      | None => []
      | Some o => flat_map (fun '(k, c) => map (fun '(ns, j) => (k :: ns, j)) (below h n' c)) (o_children o)
      end
  end.

Lemma descends_trans h i l1 j : forall l2 k, descends h i l1 j -> descends h j l2 k ->
  descends h i (l1 ++ l2) k.
Proof.
  intros l2 k D1 D2. induction D2 as [|names j' o key c D2 IH Ej Ic].
  - rewrite app_nil_r. exact D1.
  - rewrite app_assoc. econstructor; eauto.
Qed.

Lemma descends_cons_inv h i k ns j : descends h i (k :: ns) j ->
  exists o c, nth_error h i = Some o /\ In (k, c) (o_children o) /\ descends h c ns j.
Proof.
  revert j. induction ns as [|n ns IH] using rev_ind; intros j D.
  - inversion D as [A|names j' o key c D' Ej Ic A B]. destruct names as [|n names].
    + inversion A; subst. inversion D' as [|names2 ? ? ? ? ? ? ? C]; [subst|destruct names2; discriminate].
      exists o, j. repeat split; auto. constructor.
    + destruct names; discriminate.
  - inversion D as [A|names j' o key c D' Ej Ic A B].
    change (k :: ns ++ [n]) with ((k :: ns) ++ [n]) in A. apply app_inj_tail in A. destruct A; subst.
    destruct (IH _ D') as (o' & c' & E' & I' & D''). exists o', c'. repeat split; auto.
    econstructor; eauto.
Qed.

Lemma in_below h n : forall i ns j, In (ns, j) (below h n i) <-> length ns = n /\ descends h i ns j.
Proof.
  induction n as [|n IH]; intros i ns j; simpl.
  - split.
    + intros [E|[]]. inversion E; subst. split; auto. constructor.
    + intros (L & D). destruct ns; [|discriminate].
      inversion D as [|names ? ? ? ? ? ? ? C]; [auto|destruct names; discriminate].
  - destruct (nth_error h i) as [o|] eqn:E.
    + rewrite in_flat_map. split.
      * intros ((k, c) & Ic & I). apply in_map_iff in I. destruct I as ((ns', j') & Q & I).
        inversion Q; subst. apply IH in I. destruct I as (L & D). simpl. split; auto.
        apply (descends_trans h i [k] c ns' j); auto.
        change [k] with ([] ++ [k]). econstructor; eauto. constructor.
      * intros (L & D). destruct ns as [|k ns]; [discriminate|].
        destruct (descends_cons_inv _ _ _ _ _ D) as (o' & c & E' & Ic & D').
        rewrite E in E'. inversion E'; subst o'. exists (k, c). split; auto.
        apply in_map_iff. exists (ns, j). split; auto. apply IH. simpl in L. auto.
    + split; [simpl; tauto|]. intros (L & D). destruct ns as [|k ns]; [discriminate|].
      destruct (descends_cons_inv _ _ _ _ _ D) as (o' & c & E' & _). congruence.
Qed.

Lemma NoDup_app_intro' {A} (l1 l2 : list A) : NoDup l1 -> NoDup l2 ->
  (forall x, In x l1 -> In x l2 -> False) -> NoDup (l1 ++ l2).
Proof.
  induction l1 as [|a l1 IH]; simpl; intros N1 N2 D; auto. inversion N1; subst. constructor.
  - intros C. apply in_app_iff in C. destruct C as [C|C]; auto. eapply D; eauto.
  - apply IH; auto. intros x I1 I2. eapply D; eauto.
Qed.

Lemma NoDup_below h n : wf h -> forall i, NoDup (map fst (below h n i)).
Proof.
  intros W. induction n as [|n IH]; intros i; simpl; [repeat constructor; auto|].
  destruct (nth_error h i) as [o|] eqn:E; [|constructor].
  destruct (W i o E) as (ND & _). unfold dkeys in ND. induction (o_children o) as [|(k, c) d IHd]; simpl; [constructor|].
  inversion ND; subst. rewrite map_app. apply NoDup_app_intro'.
  - rewrite map_map. replace (map (fun x => fst (let '(ns, j) := x in (k :: ns, j))) (below h n c))
      with (map (cons k) (map fst (below h n c))).
    + apply FinFun.Injective_map_NoDup; auto. intros a b Q. congruence.
    + rewrite map_map. apply map_ext. intros (a, b). reflexivity.
  - apply IHd. exact H2.
  - intros x Ix Jx. apply in_map_iff in Ix. destruct Ix as ((ns, j) & <- & Ix).
    apply in_map_iff in Ix. destruct Ix as ((ns', j') & Q & _). inversion Q; subst.
    apply in_map_iff in Jx. destruct Jx as ((ns2, j2) & Q2 & Jx). simpl in Q2.
    apply in_flat_map in Jx. destruct Jx as ((k3, c3) & I3 & Jx). apply in_map_iff in Jx.
    destruct Jx as ((ns4, j4) & Q4 & _). inversion Q4; subst. inversion H0; subst. apply H1.
    apply (in_map fst) in I3. exact I3.
Qed.
