(** Neighbours of tetrahedra: the two functions. *)
From Coq Require Import Ascii String Reals List Bool Arith Lia Lra Sorted.
From Verif Require Import Prelude TreeModel MeshModel VecModel GeomModel TriModel PolyModel MshModel MshSpec MshProofs MshProofs2 MshProofs3.
Import ListNotations.

Lemma foldM_total {X S} (f : S -> X -> result S) g l : (forall s x, In x l -> f s x = Ok (g s x)) -> forall s, foldM f l s = Ok (fold_left g l s).
Proof.
  induction l as [|x l IH]; intros H s; auto. cbn [foldM fold_left]. rewrite H by (left; auto). cbn [rbind]. apply IH. intros; apply H; right; auto.
Qed.
Lemma foldM_bad {X S} (f : S -> X -> result S) e l : (forall s x, In x l -> (exists s', f s x = Ok s') \/ f s x = Err e) ->
  forall y, In y l -> (forall s, f s y = Err e) -> forall s, foldM f l s = Err e.
Proof.
  induction l as [|x l IH]; intros H y Y B s; [destruct Y|]. cbn [foldM]. destruct (H s x (or_introl eq_refl)) as [(s' & E)|E].
  - rewrite E. cbn [rbind]. destruct Y as [->|Y]; [rewrite B in E; discriminate|]. eapply IH; eauto. intros; apply H; right; auto.
  - rewrite E. reflexivity.
Qed.

Lemma four_spec {A} (vs : list A) el l : four_points vs el = Ok l <-> corners4 vs el l.
Proof.
  unfold four_points, at_index. split.
  - intros H. destruct el as [|a [|b [|c [|d r]]]]; cbn [seq mapM nth_error rbind] in H;
      repeat match type of H with context [match nth_error vs ?i with _ => _ end] => destruct (nth_error vs i) eqn:?; cbn [rbind] in H; try discriminate end;
      try discriminate. injection H as <-. repeat eexists; eauto.
  - intros (a & b & c & d & r & p & q & s & t & -> & -> & Ea & Eb & Ec & Ed). cbn [seq mapM nth_error rbind].
    rewrite Ea. cbn [rbind]. rewrite Eb. cbn [rbind]. rewrite Ec. cbn [rbind]. rewrite Ed. reflexivity.
Qed.
Lemma four_err {A} (vs : list A) el : (exists l, four_points vs el = Ok l) \/ four_points vs el = Err IndexError.
Proof.
  unfold four_points, at_index. destruct el as [|a [|b [|c [|d r]]]]; cbn [seq mapM nth_error rbind]; auto;
    repeat match goal with |- context [match nth_error vs ?i with _ => _ end] => destruct (nth_error vs i) eqn:?; cbn [rbind]; auto end.
  left. eauto.
Qed.

(** ** A common form of the two *)
Section Common.
  Context {A Row : Type} (put : Row -> nat -> Row) (test : list A -> list A -> bool) (vs : list A) (els : list element).
  Definition common_step (nb : list Row) (ij : nat * nat) : result (list Row) :=
    do e1 <- at_index els (fst ij); do e2 <- at_index els (snd ij);
    do l1 <- four_points vs e1; do l2 <- four_points vs e2;
    if test l1 l2 then Ok (set_at (set_at nb (fst ij) (fun r => put r (snd ij))) (snd ij) (fun r => put r (fst ij))) else Ok nb.
  Definition tested (i j : nat) : bool :=
    match nth_error els i, nth_error els j with
    | Some e1, Some e2 => match four_points vs e1, four_points vs e2 with Ok l1, Ok l2 => test l1 l2 | _, _ => false end
    | _, _ => false
    end.
  Lemma common_ok r0 : all_corners vs els -> foldM common_step (index_pairs (length els)) (repeat r0 (length els)) =
    Ok (map (fun k => fold_left put (filter (adj' tested k) (seq 0 (length els))) r0) (seq 0 (length els))).
  Proof.
    intros C. rewrite <- pair_all. apply foldM_total. intros nb [i j] I. apply in_pairs in I. unfold common_step, pair_step, tested, at_index. cbn [fst snd].
    destruct (nth_error els i) as [e1|] eqn:E1; [|apply nth_error_None in E1; lia].
    destruct (nth_error els j) as [e2|] eqn:E2; [|apply nth_error_None in E2; lia]. cbn [rbind].
    destruct (C e1) as (l1 & L1); [eapply nth_error_In; eauto|]. destruct (C e2) as (l2 & L2); [eapply nth_error_In; eauto|].
    apply four_spec in L1, L2. rewrite L1. cbn [rbind]. rewrite L2. cbn [rbind]. destruct (test l1 l2); reflexivity.
  Qed.
  Lemma common_err nb0 : ~ all_corners vs els -> 2 <= length els -> foldM common_step (index_pairs (length els)) nb0 = Err IndexError.
  Proof.
    intros N L.
    assert (B : exists k e, nth_error els k = Some e /\ four_points vs e = Err IndexError).
    { assert (G : forall l, (forall e, In e l -> exists q, corners4 vs e q) \/ exists e, In e l /\ four_points vs e = Err IndexError).
      { induction l as [|e l IH]; [left; intros e []|]. destruct (four_err vs e) as [(q & Q)|Q].
        - destruct IH as [IH|(e' & I & H)].
          + left. intros e' [<-|I]; auto. exists q. apply four_spec. auto.
          + right. exists e'. split; auto. right. auto.
        - right. exists e. split; auto. left. auto. }
      destruct (G els) as [H|(e & I & H)]; [contradiction|]. apply In_nth_error in I. destruct I as (k & K). eauto. }
    destruct B as (k & e & K & Q). assert (Lk : k < length els) by (apply nth_error_Some; congruence).
    assert (All : forall s x, In x (index_pairs (length els)) -> (exists s', common_step s x = Ok s') \/ common_step s x = Err IndexError).
    { intros s [i j] _. unfold common_step, at_index. cbn [fst snd]. destruct (nth_error els i) as [e1|]; cbn [rbind]; auto.
      destruct (nth_error els j) as [e2|]; cbn [rbind]; auto. destruct (four_err vs e1) as [(l1 & ->)| ->]; cbn [rbind]; auto.
      destruct (four_err vs e2) as [(l2 & ->)| ->]; cbn [rbind]; auto. left. destruct (test l1 l2); eauto. }
    assert (P : exists ij, In ij (index_pairs (length els)) /\ (fst ij = k \/ snd ij = k)).
    { destruct k as [|k]; [exists (0, 1)|exists (0, S k)]; split; auto; apply in_pairs; lia. }
    destruct P as ([i j] & I & P). apply foldM_bad with (y := (i, j)); auto. intros s. apply in_pairs in I. cbn [fst snd] in P.
    unfold common_step, at_index. cbn [fst snd].
    destruct (nth_error els i) as [e1|] eqn:E1; cbn [rbind]; auto. destruct (nth_error els j) as [e2|] eqn:E2; cbn [rbind]; auto.
    destruct P as [->| ->].
    - rewrite K in E1. injection E1 as <-. rewrite Q. reflexivity.
    - rewrite K in E2. injection E2 as <-. destruct (four_err vs e1) as [(l1 & ->)| ->]; cbn [rbind]; auto. rewrite Q. reflexivity.
  Qed.
End Common.

(** ** find_neighbors *)
Section Neighbors.
  Context {A : Type} (same : A -> A -> bool) (EQ : equivalence same) (vs : list A) (els : list element).
  Let test (l1 l2 : list A) : bool := num_shared same l1 l2 =? 3.
  Lemma snoc_all (l : list nat) : forall r, fold_left (fun r j => r ++ [j]) l r = r ++ l.
  Proof. induction l as [|x l IH]; intros r; cbn; [rewrite app_nil_r; auto|]. rewrite IH, <- app_assoc. reflexivity. Qed.
  Definition facing_row (k : nat) : list nat := filter (adj' (tested test vs els) k) (seq 0 (length els)).
  Lemma neighbors_eq : all_corners vs els -> find_neighbors same vs els = Ok (map facing_row (seq 0 (length els))).
  Proof.
    intros C. unfold find_neighbors. transitivity (foldM (common_step (fun r j => r ++ [j]) test vs els) (index_pairs (length els)) (repeat [] (length els))); [reflexivity|].
    rewrite common_ok by auto. f_equal. apply map_ext. intros k. rewrite snoc_all. reflexivity.
  Qed.
  Lemma neighbors_err : ~ all_corners vs els -> 2 <= length els -> find_neighbors same vs els = Err IndexError.
  Proof. intros N L. unfold find_neighbors. exact (common_err (fun r j => r ++ [j]) test vs els (repeat [] (length els)) N L). Qed.
  Lemma facing_row_spec k : k < length els -> all_corners vs els -> facing_elements same vs els k (facing_row k).
  Proof.
    intros K C. split; [apply filter_sorted, seq_sorted|]. intros j. unfold facing_row. rewrite filter_In, in_seq. unfold adj', tested.
    destruct (nth_error els k) as [e1|] eqn:E1; [|apply nth_error_None in E1; lia].
    destruct (C e1) as (l1 & L1); [eapply nth_error_In; eauto|]. pose proof (proj2 (four_spec _ _ _) L1) as F1.
    split.
    - intros (B & H). destruct (nth_error els j) as [e2|] eqn:E2; [|apply nth_error_None in E2; lia].
      destruct (C e2) as (l2 & L2); [eapply nth_error_In; eauto|]. pose proof (proj2 (four_spec _ _ _) L2) as F2.
      apply andb_true_iff in H. destruct H as (N & H). apply negb_true_iff, Nat.eqb_neq in N. split; auto. exists e1, e2, l1, l2. repeat split; auto.
      rewrite F1, F2 in H. unfold test in H. destruct (k <? j); apply Nat.eqb_eq in H; apply (shared_three same EQ) in H; auto.
      apply share_sym. auto.
    - intros (N & e1' & e2 & l1' & l2 & E1' & E2 & L1' & L2 & S). assert (e1' = e1) as -> by congruence. rewrite E2.
      apply four_spec in L1', L2. rewrite F1 in L1'. injection L1' as <-. rewrite F1, L2.
      assert (j < length els) by (apply nth_error_Some; congruence). split; [lia|]. unfold test.
      replace (j =? k) with false by (symmetry; apply Nat.eqb_neq; lia). cbn [negb andb].
      destruct (k <? j); apply Nat.eqb_eq; apply (shared_three same EQ); auto. apply share_sym. auto.
  Qed.
  Lemma neighbors_spec : all_corners vs els -> exists nb, find_neighbors same vs els = Ok nb /\ length nb = length els /\
    forall i row, nth_error nb i = Some row -> facing_elements same vs els i row.
  Proof.
    intros C. exists (map facing_row (seq 0 (length els))). split; [apply neighbors_eq; auto|]. split; [rewrite map_length, seq_length; auto|].
    intros i row E. rewrite nth_error_map in E. destruct (nth_error (seq 0 (length els)) i) as [x|] eqn:X; [|discriminate].
    cbn in E. injection E as <-. assert (L : i < length els) by (rewrite <- (seq_length (length els) 0); apply nth_error_Some; congruence).
    assert (x = i) as ->.
    { rewrite nth_error_nth' with (d := 0) in X by (rewrite seq_length; auto). rewrite seq_nth in X by auto. injection X as <-. reflexivity. }
    apply facing_row_spec; auto.
  Qed.
End Neighbors.
