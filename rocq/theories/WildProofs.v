(** Proofs: filling wildcard paths, their regular expressions. *)
From Coq Require Import Ascii String List Arith Bool Lia.
From Verif Require Import Prelude TreeModel MeshModel IoModel StlModel WildModel WildSpec.
Import ListNotations.

Lemma starts_with_app p s : starts_with p (p ++ s) = true.
Proof. induction p; simpl; auto. rewrite Ascii.eqb_refl. auto. Qed.

(** ** Occurrences of a wildcard in a text made of pieces *)
Lemma starts_head c p d s : c <> d -> starts_with (c :: p) (d :: s) = false.
Proof. intros N. cbn [starts_with]. destruct (Ascii.eqb_spec c d); [congruence|reflexivity]. Qed.

Lemma starts_wrap w w' s : ~ In GT w -> ~ In GT w' -> starts_with (w ++ [GT]) (w' ++ GT :: s) = true -> w = w'.
Proof.
  revert w'. induction w as [|c w IH]; intros w' N N' E.
  - destruct w' as [|d w']; auto. exfalso. cbn [app starts_with] in E.
    destruct (Ascii.eqb_spec GT d) as [<-|]; [apply N'; simpl; auto|discriminate].
  - destruct w' as [|d w'].
    + exfalso. cbn [app starts_with] in E. destruct (Ascii.eqb_spec c GT) as [->|]; [apply N; simpl; auto|discriminate].
    + cbn [app starts_with] in E. destruct (Ascii.eqb_spec c d) as [->|]; [|discriminate].
      f_equal. apply IH; auto; intros I; [apply N|apply N']; simpl; auto.
Qed.

Lemma starts_wrap_head k c s : c <> LT -> starts_with (wrap k) (c :: s) = false.
Proof. intros N. unfold wrap. cbn [app]. apply starts_head. auto. Qed.

Lemma replace_aux_lit k v s rest : ~ In LT s -> replace_aux (wrap k) v (s ++ rest) 0 = s ++ replace_aux (wrap k) v rest 0.
Proof.
  induction s as [|c s IH]; intros N; auto. cbn [app replace_aux].
  rewrite starts_wrap_head by (intros ->; apply N; simpl; auto). rewrite IH; auto. intros I. apply N. simpl. auto.
Qed.

Lemma replace_aux_skip k v s rest : replace_aux k v (s ++ rest) (length s) = replace_aux k v rest 0.
Proof. induction s as [|c s IH]; simpl; auto. Qed.

Lemma replace_aux_wild k v w rest : ~ In GT k -> no_angle w ->
  replace_aux (wrap k) v (wrap w ++ rest) 0 =
  (if eqb w k then v else wrap w) ++ replace_aux (wrap k) v rest 0.
Proof.
  intros Nk (Nl & Ng). destruct (eqb w k) eqn:E.
  - rewrite eqb_true in E. subst. unfold wrap at 2. cbn [app replace_aux].
    change (LT :: (k ++ [GT]) ++ rest) with (wrap k ++ rest). rewrite starts_with_app.
    replace (length (wrap k) - 1) with (length (k ++ [GT])) by (unfold wrap; simpl; lia).
    rewrite replace_aux_skip. auto.
  - rewrite eqb_false in E. unfold wrap at 2. cbn [app replace_aux].
    assert (S : starts_with (wrap k) (LT :: (w ++ [GT]) ++ rest) = false).
    { unfold wrap. cbn [app starts_with]. rewrite Ascii.eqb_refl. cbn [andb].
      destruct (starts_with (k ++ [GT]) ((w ++ [GT]) ++ rest)) eqn:S; auto. exfalso. apply E. symmetry.
      apply (starts_wrap k w rest); auto. rewrite <- app_assoc in S. auto. }
    rewrite S. unfold wrap at 2. cbn [app]. f_equal.
    apply (replace_aux_lit k v (w ++ [GT]) rest). intros I. apply in_app_iff in I.
    destruct I as [I|[I|[]]]; [auto|discriminate].
Qed.

Definition subst_tok (k v : str) (t : tok) : tok :=
  match t with Lit s => Lit s | Wild w => if eqb w k then Lit v else Wild w end.

Lemma replace_render k v ts : Forall tok_ok ts -> ~ In GT k ->
  replace_all (wrap k) v (render ts) = render (map (subst_tok k v) ts).
Proof.
  intros F N. unfold replace_all, render. induction F as [|t ts T F IH]; auto. cbn [map concat].
  destruct t as [s|w].
  - rewrite replace_aux_lit by apply T. rewrite IH. auto.
  - change ("<"%char :: w ++ [">"%char]) with (wrap w). rewrite replace_aux_wild by (auto; apply T). rewrite IH.
    simpl. destruct (eqb w k); auto.
Qed.

(** ** The wildcards found *)
Lemma findall_lit s : forall rest cur, no_angle s ->
  findall_aux (s ++ rest) cur = findall_aux rest (option_map (app (rev s)) cur).
Proof.
  induction s as [|c s IH]; intros rest cur (N1 & N2); [destruct cur; auto|]. cbn [app findall_aux].
  destruct (Ascii.eqb_spec c LT) as [->|]; [exfalso; apply N1; simpl; auto|].
  destruct (Ascii.eqb_spec c GT) as [->|]; [exfalso; apply N2; simpl; auto|].
  rewrite IH by (split; intros I; [apply N1|apply N2]; simpl; auto). f_equal. destruct cur; simpl; auto.
  rewrite <- app_assoc. auto.
Qed.

Lemma findall_render ts : Forall tok_ok ts -> findall (render ts) = wild_names ts.
Proof.
  unfold findall, render. induction 1 as [|t ts T F IH]; auto. cbn [map concat]. destruct t as [s|w].
  - rewrite findall_lit by apply T. exact IH.
  - destruct T as (Nw & T). cbn [app findall_aux].
    change (Ascii.eqb "<" LT) with true. cbv iota. rewrite <- app_assoc, findall_lit by apply T.
    cbn [option_map app findall_aux]. change (Ascii.eqb ">" LT) with false. change (Ascii.eqb ">" GT) with true. cbv iota.
    rewrite app_nil_r. destruct (rev w) eqn:E.
    + apply (f_equal (@rev ascii)) in E. rewrite rev_involutive in E. simpl in E. congruence.
    + assert (Ew : w = rev (a :: l)) by (rewrite <- E; symmetry; apply rev_involutive).
      change (rev (a :: l) :: findall_aux (concat (map (fun t => match t with Lit s => s | Wild w => "<"%char :: w ++ [">"%char] end) ts)) None
              = w :: wild_names ts). rewrite IH, Ew; reflexivity.
Qed.

Lemma insert_sorted_in w l x : In x (insert_sorted w l) <-> x = w \/ In x l.
Proof.
  induction l as [|y l IH]; simpl; [intuition|]. destruct (eqb w y) eqn:E.
  - rewrite eqb_true in E. subst. simpl. intuition.
  - destruct (str_lt w y); simpl; [intuition|]. rewrite IH. intuition.
Qed.

Lemma sorted_set_in l x : In x (sorted_set l) <-> In x l.
Proof. unfold sorted_set. induction l as [|y l IH]; simpl; [tauto|]. rewrite insert_sorted_in, IH. intuition. Qed.

(** Strings are totally ordered, so sorting leaves no duplicates. *)
Lemma str_lt_irrefl a : str_lt a a = false.
Proof. induction a as [|c a IH]; simpl; auto. rewrite Nat.ltb_irrefl, Nat.eqb_refl. auto. Qed.

Lemma str_lt_trans a : forall b c, str_lt a b = true -> str_lt b c = true -> str_lt a c = true.
Proof.
  induction a as [|x a IH]; intros [|y b] [|z c]; simpl; intros A B; try discriminate; auto.
  destruct (Nat.ltb_spec (nat_of_ascii x) (nat_of_ascii y)).
  - destruct (Nat.ltb_spec (nat_of_ascii y) (nat_of_ascii z)).
    + assert (L : nat_of_ascii x <? nat_of_ascii z = true) by (apply Nat.ltb_lt; lia). rewrite L. auto.
    + destruct (Nat.eqb_spec (nat_of_ascii y) (nat_of_ascii z)); [|discriminate].
      assert (L : nat_of_ascii x <? nat_of_ascii z = true) by (apply Nat.ltb_lt; lia). rewrite L. auto.
  - destruct (Nat.eqb_spec (nat_of_ascii x) (nat_of_ascii y)) as [->|]; [|discriminate].
    destruct (nat_of_ascii y <? nat_of_ascii z); auto. destruct (nat_of_ascii y =? nat_of_ascii z); eauto.
Qed.

Lemma str_lt_total a : forall b, a <> b -> str_lt a b = false -> str_lt b a = true.
Proof.
  induction a as [|x a IH]; intros [|y b] N L; simpl in *; try discriminate; try congruence; auto.
  destruct (Nat.ltb_spec (nat_of_ascii x) (nat_of_ascii y)); [discriminate|].
  destruct (Nat.eqb_spec (nat_of_ascii x) (nat_of_ascii y)) as [E|].
  - rewrite E, Nat.ltb_irrefl, Nat.eqb_refl. apply IH; auto. intros ->. apply N. f_equal.
    rewrite <- (ascii_nat_embedding x), <- (ascii_nat_embedding y). congruence.
  - assert (H0 : nat_of_ascii y <? nat_of_ascii x = true) by (apply Nat.ltb_lt; lia). rewrite H0. auto.
Qed.

Inductive ascending : list str -> Prop :=
| asc_nil : ascending []
| asc_cons x l : Forall (fun y => str_lt x y = true) l -> ascending l -> ascending (x :: l).

Lemma insert_sorted_asc w l : ascending l -> ascending (insert_sorted w l).
Proof.
  induction 1 as [|x l F A IH]; simpl; [constructor; constructor|].
  destruct (eqb w x) eqn:E; [constructor; auto|]. rewrite eqb_false in E.
  destruct (str_lt w x) eqn:L.
  - constructor; [constructor; auto|constructor; auto]. eapply Forall_impl; [|exact F]. intros y Hy. eapply str_lt_trans; eauto.
  - constructor; auto. apply Forall_forall. intros y I. apply insert_sorted_in in I. destruct I as [->|I].
    + apply str_lt_total; auto.
    + rewrite Forall_forall in F. auto.
Qed.

Lemma sorted_set_asc l : ascending (sorted_set l).
Proof. unfold sorted_set. induction l; simpl; [constructor|]. apply insert_sorted_asc; auto. Qed.

Lemma ascending_nodup l : ascending l -> NoDup l.
Proof.
  induction 1 as [|x l F A IH]; constructor; auto. intros I. rewrite Forall_forall in F. apply F in I.
  rewrite str_lt_irrefl in I. discriminate.
Qed.

Lemma sorted_set_nodup l : NoDup (sorted_set l).
Proof. apply ascending_nodup, sorted_set_asc. Qed.

(** ** fill *)
Lemma subst_all kw ts : Forall tok_ok ts -> (forall k v, In (k, v) kw -> no_angle v /\ ~ In GT k) ->
  forall (ws : list str), (forall k, In k (dkeys kw) -> In k ws) ->
  foldM (fun path kv => if memb (fst kv) ws then Ok (replace_all (wrap (fst kv)) (snd kv) path) else Err KeyError) kw (render ts)
  = Ok (render (fold_left (fun ts kv => map (subst_tok (fst kv) (snd kv)) ts) kw ts)).
Proof.
  revert ts. induction kw as [|(k, v) kw IH]; intros ts F V ws K; auto. cbn [foldM fst snd fold_left].
  assert (M : memb (A := str) k ws = true) by (apply memb_true, K; simpl; auto). rewrite M. cbn [rbind].
  rewrite replace_render; [|auto|apply (V k v); simpl; auto]. apply IH.
  - apply Forall_map. eapply Forall_impl; [|exact F]. intros [s|w] T; simpl; auto. destruct (eqb w k); auto.
    apply (V k v); simpl; auto.
  - intros k' v' I. apply V. simpl. auto.
  - intros k' I. apply K. simpl. auto.
Qed.

Lemma subst_fold kw : forall ts val, (forall k v, In (k, v) kw -> v = val k) ->
  (forall w, In w (wild_names ts) -> In w (dkeys kw)) ->
  render (fold_left (fun ts kv => map (subst_tok (fst kv) (snd kv)) ts) kw ts) = filled val ts.
Proof.
  induction kw as [|(k, v) kw IH]; intros ts val V K; cbn [fold_left fst snd].
  - unfold render, filled. f_equal. apply map_ext_in. intros [s|w] I; auto. exfalso. apply (K w).
    unfold wild_names. apply in_flat_map. exists (Wild w). simpl. auto.
  - rewrite (IH _ val).
    + unfold filled. f_equal. rewrite map_map. apply map_ext. intros [s|w]; auto. simpl. destruct (eqb w k) eqn:E; auto.
      rewrite eqb_true in E. subst. apply V. simpl. auto.
    + intros k' v' I. apply V. simpl. auto.
    + intros w I. unfold wild_names in I. apply in_flat_map in I. destruct I as (t & It & I).
      apply in_map_iff in It. destruct It as ([s|w'] & <- & It); simpl in I; [destruct I|].
      destruct (eqb w' k) eqn:E; simpl in I; [destruct I|]. destruct I as [<-|[]]. rewrite eqb_false in E.
      assert (K' : In w' (dkeys ((k, v) :: kw))).
      { apply K. unfold wild_names. apply in_flat_map. exists (Wild w'). simpl. auto. }
      destruct K' as [K'|K']; [simpl in K'; congruence|auto].
Qed.

Definition joined (parent s : str) : str := if 0 <? length parent then path_join parent s else s.

Section Fill.
  Context (name_ok : str -> bool).

  Lemma new_wpath_render ts wp : Forall tok_ok ts -> new_wpath name_ok (render ts) = Ok wp ->
    wp_path wp = render ts /\ wp_wildcards wp = sorted_set (wild_names ts) /\ wp_regex wp = regex_text (render ts).
  Proof.
    intros F. unfold new_wpath. rewrite findall_render by auto. destruct (forallb _ _); [|discriminate].
    intros E. inversion E; subst. auto.
  Qed.

  Lemma constructor_total ts : Forall tok_ok ts ->
    (Forall (fun w => name_ok w = true) (wild_names ts) -> exists wp, new_wpath name_ok (render ts) = Ok wp) /\
    (~ Forall (fun w => name_ok w = true) (wild_names ts) -> new_wpath name_ok (render ts) = Err ValueError).
  Proof.
    intros F. unfold new_wpath. rewrite findall_render by auto.
    destruct (forallb name_ok (sorted_set (wild_names ts))) eqn:E.
    - split; [intros _; eexists; reflexivity|]. intros N. exfalso. apply N. apply Forall_forall. intros w I. rewrite forallb_forall in E.
      apply E. apply (proj2 (sorted_set_in _ _)). auto.
    - split; [|auto]. intros A. exfalso. apply not_true_iff_false in E. apply E. apply forallb_forall.
      intros w I. apply (proj1 (sorted_set_in _ _)) in I. apply (proj1 (Forall_forall _ _) A). exact I.
  Qed.

  Lemma assigns_length kw val ws : assigns kw val ws -> length kw = length (sorted_set ws).
  Proof.
    intros (ND & K & _). unfold dkeys in *. rewrite <- (map_length fst). apply Nat.le_antisymm.
    - apply NoDup_incl_length; auto. intros x I. apply (proj2 (sorted_set_in _ _)), K. auto.
    - apply NoDup_incl_length; [apply sorted_set_nodup|]. intros x I. apply (proj1 (sorted_set_in _ _)) in I. apply K. auto.
  Qed.

  Lemma fill_ok ts wp kw val parent : Forall tok_ok ts -> new_wpath name_ok (render ts) = Ok wp ->
    assigns kw val (wild_names ts) -> (forall w, In w (wild_names ts) -> no_angle (val w)) ->
    fill wp parent kw = Ok (joined parent (filled val ts)).
  Proof.
    intros F N A V. destruct (new_wpath_render ts wp F N) as (P1 & P2 & _). unfold fill. rewrite P1, P2.
    rewrite (assigns_length kw val (wild_names ts) A), Nat.eqb_refl. cbn [negb].
    destruct A as (ND & K & W).
    assert (KW : forall w, In w (wild_names ts) -> ~ In GT w).
    { intros w I. unfold wild_names in I. apply in_flat_map in I. destruct I as ([s|w'] & It & I); simpl in I; [destruct I|].
      destruct I as [<-|[]]. rewrite Forall_forall in F. apply F in It. apply It. }
    rewrite subst_all.
    - cbn [rbind]. rewrite (subst_fold kw ts val); auto. intros w I. apply K. auto.
    - auto.
    - intros k v I. assert (Ik : In k (wild_names ts)) by (apply K; unfold dkeys; apply in_map_iff; exists (k, v); auto).
      split; auto. rewrite (W k v I). auto.
    - intros k I. apply (proj2 (sorted_set_in _ _)), K. auto.
  Qed.

  Lemma fill_count ts wp kw parent : Forall tok_ok ts -> new_wpath name_ok (render ts) = Ok wp ->
    length kw <> length (nodup eq_dec (wild_names ts)) -> fill wp parent kw = Err ValueError.
  Proof.
    intros F N L. destruct (new_wpath_render ts wp F N) as (P1 & P2 & _). unfold fill. rewrite P2.
    assert (E : length (sorted_set (wild_names ts)) = length (nodup eq_dec (wild_names ts))).
    { apply Nat.le_antisymm; apply NoDup_incl_length; try apply sorted_set_nodup; try apply NoDup_nodup;
        intros x; rewrite nodup_In, sorted_set_in; auto. }
    rewrite E. apply Nat.eqb_neq in L. rewrite L. auto.
  Qed.

  Lemma fill_unknown ts wp kw parent k : Forall tok_ok ts -> new_wpath name_ok (render ts) = Ok wp ->
    length kw = length (nodup eq_dec (wild_names ts)) -> In k (dkeys kw) -> ~ In k (wild_names ts) ->
    fill wp parent kw = Err KeyError.
  Proof.
    intros F N L I NI. destruct (new_wpath_render ts wp F N) as (P1 & P2 & _). unfold fill. rewrite P2.
    assert (E : length (sorted_set (wild_names ts)) = length (nodup eq_dec (wild_names ts))).
    { apply Nat.le_antisymm; apply NoDup_incl_length; try apply sorted_set_nodup; try apply NoDup_nodup;
        intros x; rewrite nodup_In, sorted_set_in; auto. }
    rewrite E, <- L, Nat.eqb_refl. cbn [negb].
    assert (G : forall s, foldM (fun path kv => if memb (fst kv) (sorted_set (wild_names ts)) then Ok (replace_all (wrap (fst kv)) (snd kv) path) else Err KeyError) kw s = Err KeyError).
    { clear - I NI. induction kw as [|(k', v) kw IH]; intros s; [destruct I|]. cbn [foldM fst snd].
      destruct I as [I|I].
      - simpl in I. subst. assert (M : memb (A := str) k (sorted_set (wild_names ts)) = false).
        { apply memb_false. intros C. apply (proj1 (sorted_set_in _ _)) in C. auto. } rewrite M. auto.
      - destruct (memb k' _); cbn [rbind]; auto. }
    rewrite G. auto.
  Qed.
End Fill.
