(** What the text of a path says. *)
From Coq Require Import Ascii String List Arith Bool Lia.
From Verif Require Import Prelude TreeModel MeshModel IoModel StlModel WildModel WildSpec WildProofs WildProofs2 WildProofs3 WildProofs4 DirModel DirSpec DirProofs DirProofs2.
Import ListNotations.

Lemma split_noslash s : Forall (fun n => ~ In "/"%char n) (split_slash s).
Proof.
  induction s as [|x s IH]; [constructor; [intros []|constructor]|]. cbn [split_slash].
  destruct (Ascii.eqb x "/") eqn:E; [constructor; auto|]. apply Ascii.eqb_neq in E.
  destruct (split_slash s) as [|y ys]; [constructor; [intros [H|[]]; congruence|constructor]|].
  inversion IH; subst. constructor; auto. intros [H|H]; [congruence|tauto].
Qed.
Lemma names_tidy ns : ns <> [] -> Forall (fun n => ~ In "/"%char n) ns -> Forall (fun n => real_name n = true) ns -> tidy (join_slash ns) ns.
Proof.
  intros N F G. induction ns as [|n ns IH]; [congruence|]. inversion F; subst. inversion G; subst.
  assert (n <> [] /\ n <> str_of ".") as (A & B).
  { unfold real_name in H3. split; intros ->; discriminate. }
  destruct ns as [|m ns].
  - apply tidy_one; auto.
  - change (join_slash (n :: m :: ns)) with (n ++ "/"%char :: join_slash (m :: ns)). apply tidy_more; auto. apply IH; auto. discriminate.
Qed.
Lemma names_written (b : bool) ns : Forall (fun n => ~ In "/"%char n) ns -> Forall (fun n => real_name n = true) ns ->
  let ps := (if b then [str_of "/"] else []) ++ ns in str_path ps <> [] /\ parts (str_path ps) = ps.
Proof.
  intros F G. destruct b; cbn [app]; cbv zeta.
  - unfold str_path. rewrite eqb_refl. split; [discriminate|].
    unfold parts. change (fun c => negb (eqb c [] || eqb c (str_of "."))) with real_name.
    change (starts_with (str_of "/") (str_of "/" ++ join_slash ns)) with true. cbv iota. cbn [app]. f_equal.
    change (str_of "/") with ["/"%char]. cbn [app split_slash]. change (Ascii.eqb "/" "/") with true. cbv iota. cbn [filter].
    change (real_name []) with false. cbv iota.
    destruct ns as [|n ns]; [reflexivity|]. apply tidy_split, names_tidy; auto. discriminate.
  - destruct ns as [|n ns]; [split; [discriminate|reflexivity]|].
    assert (T : tidy (join_slash (n :: ns)) (n :: ns)) by (apply names_tidy; auto; discriminate).
    assert (E : str_path (n :: ns) = join_slash (n :: ns)).
    { unfold str_path. rewrite eqb_neq; auto. intros ->. inversion F; subst. apply H1. simpl. auto. }
    rewrite E. split.
    + intros Z. rewrite Z in T. inversion T; subst; try congruence. destruct n; discriminate.
    + pose proof (parts_join [] _ _ T) as P. exact P.
Qed.
Lemma path_written s : str_path (parts s) <> [] /\ parts (str_path (parts s)) = parts s.
Proof.
  apply (names_written (starts_with (str_of "/") s) (filter real_name (split_slash s))).
  - apply Forall_forall. intros n I. apply filter_In in I. pose proof (split_noslash s) as P. rewrite Forall_forall in P. apply P. tauto.
  - apply Forall_forall. intros n I. apply filter_In in I. tauto.
Qed.
Lemma tidy_written s ns : tidy s ns -> str_path (parts s) = s.
Proof.
  intros T. pose proof (parts_join [] _ _ T) as P. change (parts s = ns) in P. rewrite P.
  destruct (str_app [] s ns T) as (pre & E & C). cbn [app] in E. rewrite E. destruct pre as [|c pre]; auto.
  destruct (C c (or_introl eq_refl)) as [->|(p & [] & _)].
  exfalso. destruct ns as [|n ns]; [eapply tidy_nonempty; eauto|].
  pose proof (tidy_noslash _ _ T) as F. inversion F; subst. unfold str_path in E.
  rewrite eqb_neq in E; [|intros ->; apply H1; simpl; auto].
  rewrite (tidy_join _ _ T) in E. apply (f_equal (@length ascii)) in E. cbn in E. rewrite app_length in E. lia.
Qed.
