(** Neighbours of tetrahedra: proofs. *)
From Coq Require Import Ascii String Reals List Bool Arith Lia Lra Sorted.
From Verif Require Import Prelude TreeModel MeshModel VecModel GeomModel TriModel PolyModel MshModel MshSpec MshProofs MshProofs2.
Import ListNotations.

(** ** The loop over pairs *)
Lemma set_at_length {B} (l : list B) i f : length (set_at l i f) = length l.
Proof.
  unfold set_at. destruct (nth_error l i) as [x|] eqn:E; auto. assert (L : i < length l) by (apply nth_error_Some; congruence).
  rewrite app_length. cbn [length]. rewrite firstn_length, skipn_length. lia.
Qed.
Lemma set_at_same {B} (l : list B) i f x : nth_error l i = Some x -> nth_error (set_at l i f) i = Some (f x).
Proof.
  intros E. assert (L : i < length l) by (apply nth_error_Some; congruence). unfold set_at. rewrite E.
  rewrite nth_error_app2; rewrite firstn_length, Nat.min_l by lia; auto. rewrite Nat.sub_diag. reflexivity.
Qed.
Lemma set_at_other {B} (l : list B) i f j : i <> j -> nth_error (set_at l i f) j = nth_error l j.
Proof.
  intros N. unfold set_at. destruct (nth_error l i) as [x|] eqn:E; auto.
  revert i j N E. induction l as [|y l IH]; intros i j N E; [destruct i; discriminate|].
  destruct i as [|i], j as [|j]; try lia; auto. cbn. apply IH; auto.
Qed.

Section Pairs.
  Context {Row : Type} (put : Row -> nat -> Row) (adj : nat -> nat -> bool).
  Definition pair_step (nb : list Row) (ij : nat * nat) : list Row :=
    if adj (fst ij) (snd ij) then set_at (set_at nb (fst ij) (fun r => put r (snd ij))) (snd ij) (fun r => put r (fst ij)) else nb.
  Definition given (k : nat) (ij : nat * nat) : list nat :=
    if adj (fst ij) (snd ij) then (if fst ij =? k then [snd ij] else if snd ij =? k then [fst ij] else []) else [].
  Lemma pair_rows ps : forall nb, (forall ij, In ij ps -> fst ij <> snd ij /\ fst ij < length nb /\ snd ij < length nb) ->
    length (fold_left pair_step ps nb) = length nb /\
    forall k r, nth_error nb k = Some r -> nth_error (fold_left pair_step ps nb) k = Some (fold_left put (concat (map (given k) ps)) r).
  Proof.
    induction ps as [|ij ps IH]; intros nb H; [split; auto|].
    assert (L : length (pair_step nb ij) = length nb).
    { unfold pair_step. destruct (adj (fst ij) (snd ij)); auto. rewrite !set_at_length. auto. }
    destruct (IH (pair_step nb ij)) as (I1 & I2); [intros x X; rewrite L; apply H; right; auto|].
    cbn [fold_left map concat]. split; [congruence|]. intros k r K. rewrite fold_left_app. apply I2.
    destruct (H ij (or_introl eq_refl)) as (N & _ & _). unfold pair_step, given. destruct ij as [i j]. cbn [fst snd] in *.
    destruct (adj i j); auto. destruct (i =? k) eqn:E1.
    - apply Nat.eqb_eq in E1. subst k. rewrite set_at_other by auto. apply set_at_same. auto.
    - apply Nat.eqb_neq in E1. destruct (j =? k) eqn:E2.
      + apply Nat.eqb_eq in E2. subst k. apply set_at_same. rewrite set_at_other by auto. auto.
      + apply Nat.eqb_neq in E2. rewrite !set_at_other by auto. auto.
  Qed.

  Definition adj' (k j : nat) : bool := negb (j =? k) && if k <? j then adj k j else adj j k.
  Lemma given_row k i m : concat (map (given k) (map (pair i) (seq (i + 1) m))) =
    if i <? k then (if k <? i + 1 + m then (if adj' k i then [i] else []) else [])
    else if i =? k then filter (adj' k) (seq (i + 1) m) else [].
  Proof.
    rewrite map_map. destruct (i <? k) eqn:E1; [apply Nat.ltb_lt in E1|apply Nat.ltb_ge in E1; destruct (i =? k) eqn:E2].
    - assert (Z : forall s c, k < s \/ s + c <= k -> concat (map (fun x => given k (i, x)) (seq s c)) = []).
      { intros s c. revert s. induction c as [|c IH]; intros s B; auto. cbn [seq map concat]. rewrite IH by lia. unfold given. cbn [fst snd].
        replace (i =? k) with false by (symmetry; apply Nat.eqb_neq; lia). replace (s =? k) with false by (symmetry; apply Nat.eqb_neq; lia).
        destruct (adj i s); reflexivity. }
      destruct (k <? i + 1 + m) eqn:E2.
      + apply Nat.ltb_lt in E2. replace m with ((k - (i + 1)) + (1 + (m - 1 - (k - (i + 1))))) by lia.
        rewrite seq_app, map_app, concat_app, Z by lia. cbn [app]. replace (i + 1 + (k - (i + 1))) with k by lia.
        rewrite seq_app, map_app, concat_app. cbn [seq map concat]. rewrite Z by lia. rewrite !app_nil_r. unfold given, adj'. cbn [fst snd].
        replace (i =? k) with false by (symmetry; apply Nat.eqb_neq; lia). rewrite Nat.eqb_refl.
        replace (k <? i) with false by (symmetry; apply Nat.ltb_ge; lia). reflexivity.
      + apply Nat.ltb_ge in E2. apply Z. lia.
    - apply Nat.eqb_eq in E2. subst i. assert (G : forall s, k < s -> concat (map (fun x => given k (k, x)) (seq s m)) = filter (adj' k) (seq s m)).
      { clear E1. induction m as [|c IH]; intros s B; auto. cbn [seq map concat filter]. rewrite IH by lia. unfold given, adj'. cbn [fst snd].
        rewrite Nat.eqb_refl. replace (s =? k) with false by (symmetry; apply Nat.eqb_neq; lia).
        replace (k <? s) with true by (symmetry; apply Nat.ltb_lt; lia). destruct (adj k s); reflexivity. }
      apply G. lia.
    - apply Nat.eqb_neq in E2. assert (G : forall s, k < s -> concat (map (fun x => given k (i, x)) (seq s m)) = []).
      { clear E1. induction m as [|c IH]; intros s B; auto. cbn [seq map concat]. rewrite IH by lia. unfold given. cbn [fst snd].
        replace (i =? k) with false by (symmetry; apply Nat.eqb_neq; lia). replace (s =? k) with false by (symmetry; apply Nat.eqb_neq; lia).
        destruct (adj i s); reflexivity. }
      apply G. lia.
  Qed.
  Lemma pairs_full n : index_pairs n = concat (map (fun i => map (pair i) (seq (i + 1) (n - (i + 1)))) (seq 0 n)).
  Proof.
    unfold index_pairs. destruct n as [|n]; auto. replace (S n - 1) with n by lia. rewrite (seq_S n 0), map_app, concat_app.
    cbn [map concat]. replace (S n - (0 + n + 1)) with 0 by lia. cbn [seq map]. rewrite !app_nil_r. reflexivity.
  Qed.
  Lemma given_pairs k n : k < n -> concat (map (given k) (index_pairs n)) = filter (adj' k) (seq 0 n).
  Proof.
    intros L. rewrite pairs_full, concat_map, map_map.
    assert (E : forall l : list (list (list nat)), concat (concat l) = concat (map (@concat nat) l)).
    { induction l as [|x l IH]; auto. cbn. rewrite concat_app, IH. reflexivity. }
    rewrite E, map_map. erewrite map_ext by (intros i; apply given_row).
    assert (Q : seq 0 n = seq 0 k ++ [k] ++ seq (k + 1) (n - k - 1)).
    { replace n with (k + (1 + (n - k - 1))) at 1 by lia. rewrite !seq_app. reflexivity. }
    rewrite Q, !map_app, !concat_app, !filter_app. cbn [plus seq map concat]. f_equal.
    - assert (G : forall s c, s + c <= k -> concat (map (fun x => if x <? k then if k <? x + 1 + (n - (x + 1)) then if adj' k x then [x] else [] else []
           else if x =? k then filter (adj' k) (seq (x + 1) (n - (x + 1))) else []) (seq s c)) = filter (adj' k) (seq s c)).
      { intros s c. revert s. induction c as [|c IH]; intros s B; auto. cbn [seq map concat filter]. rewrite IH by lia.
        replace (s <? k) with true by (symmetry; apply Nat.ltb_lt; lia). replace (k <? s + 1 + (n - (s + 1))) with true by (symmetry; apply Nat.ltb_lt; lia).
        destruct (adj' k s); reflexivity. }
      apply G. lia.
    - replace (k <? k) with false by (symmetry; apply Nat.ltb_ge; lia). rewrite Nat.eqb_refl, app_nil_r.
      replace (filter (adj' k) [k]) with (@nil nat) by (cbn [filter]; unfold adj'; rewrite Nat.eqb_refl; reflexivity).
      assert (G : forall s c, k < s -> concat (map (fun x => if x <? k then if k <? x + 1 + (n - (x + 1)) then if adj' k x then [x] else [] else []
           else if x =? k then filter (adj' k) (seq (x + 1) (n - (x + 1))) else []) (seq s c)) = []).
      { intros s c. revert s. induction c as [|c IH]; intros s B; auto. cbn [seq map concat]. rewrite IH by lia.
        replace (s <? k) with false by (symmetry; apply Nat.ltb_ge; lia). replace (s =? k) with false by (symmetry; apply Nat.eqb_neq; lia). reflexivity. }
      rewrite G by lia. rewrite app_nil_r. cbn [app]. do 2 f_equal; lia.
  Qed.
  Lemma in_pairs n i j : In (i, j) (index_pairs n) <-> i < j < n.
  Proof.
    rewrite pairs_full, in_concat. split.
    - intros (l & H1 & H2). apply in_map_iff in H1. destruct H1 as (x & <- & X). apply in_map_iff in H2. destruct H2 as (y & E & Y).
      injection E as -> ->. apply in_seq in X, Y. lia.
    - intros B. exists (map (pair i) (seq (i + 1) (n - (i + 1)))). split.
      + apply in_map_iff. exists i. split; auto. apply in_seq. lia.
      + apply in_map_iff. exists j. split; auto. apply in_seq. lia.
  Qed.
  Lemma pair_all n r0 : fold_left pair_step (index_pairs n) (repeat r0 n) = map (fun k => fold_left put (filter (adj' k) (seq 0 n)) r0) (seq 0 n).
  Proof.
    destruct (pair_rows (index_pairs n) (repeat r0 n)) as (L & G).
    { intros [i j] I. apply in_pairs in I. rewrite repeat_length. cbn [fst snd]. lia. }
    rewrite repeat_length in L. apply nth_error_ext. intros k. destruct (Nat.lt_ge_cases k n) as [K|K].
    - rewrite (G k r0).
      + rewrite given_pairs by auto. rewrite (map_nth_error _ k (seq 0 n) (d := k)); auto. rewrite nth_error_nth' with (d := 0) by (rewrite seq_length; auto).
        rewrite seq_nth by auto. reflexivity.
      + rewrite nth_error_repeat by auto. reflexivity.
    - rewrite (proj2 (nth_error_None _ k)) by lia. rewrite (proj2 (nth_error_None _ k)) by (rewrite map_length, seq_length; auto). reflexivity.
  Qed.
End Pairs.

(** ** Sets of points *)
Section Share.
  Context {A : Type} (same : A -> A -> bool) (EQ : equivalence same).

  Local Lemma refl' p : same p p = true. Proof. exact (proj1 EQ p). Qed.
  Local Lemma sym' p q : same p q = same q p. Proof. apply (MshProofs2.same_sym same EQ). Qed.
  Local Lemma left' p q r : same p q = true -> same p r = same q r. Proof. apply (MshProofs2.same_left same EQ). Qed.
  Local Lemma isin_same p q l : same p q = true -> existsb (same p) l = existsb (same q) l.
  Proof. intros E. induction l as [|r l IH]; auto. cbn. rewrite IH, (left' p q r E). reflexivity. Qed.

  (** No two the same. *)
  Inductive apart : list A -> Prop :=
  | apart_nil : apart []
  | apart_cons p l : existsb (same p) l = false -> apart l -> apart (p :: l).
  Lemma set_in l p : existsb (same p) (point_set same l) = existsb (same p) l.
  Proof.
    induction l as [|q l IH]; auto. cbn [point_set existsb]. destruct (existsb (same q) l) eqn:E.
    - rewrite IH. destruct (same p q) eqn:F; auto. rewrite (isin_same p q l F), E. reflexivity.
    - cbn [existsb]. rewrite IH. reflexivity.
  Qed.
  Lemma set_apart l : apart (point_set same l).
  Proof.
    induction l as [|q l IH]; [constructor|]. cbn [point_set]. destruct (existsb (same q) l) eqn:E; auto.
    constructor; auto. rewrite set_in. auto.
  Qed.
  Lemma apart_filter f l : apart l -> apart (filter f l).
  Proof.
    intros D. induction D as [|p l N D IH]; [constructor|]. cbn [filter]. destruct (f p); auto. constructor; auto.
    destruct (existsb (same p) (filter f l)) eqn:E; auto. apply existsb_exists in E. destruct E as (q & I & S). apply filter_In in I.
    rewrite <- N. symmetry. apply existsb_exists. exists q. tauto.
  Qed.
  Lemma apart_le l : apart l -> forall m, (forall p, In p l -> existsb (same p) m = true) -> length l <= length m.
  Proof.
    intros D. induction D as [|p l N D IH]; intros m H; [cbn; lia|].
    pose proof (H p (or_introl eq_refl)) as P. apply existsb_exists in P. destruct P as (y & Y & S). apply in_split in Y.
    destruct Y as (m1 & m2 & ->). rewrite app_length. cbn [length]. assert (length l <= length (m1 ++ m2)); [|rewrite app_length in *; lia].
    apply IH. intros z Z. pose proof (H z (or_intror Z)) as Q. rewrite existsb_app in Q |- *. cbn [existsb] in Q.
    destruct (same z y) eqn:T; auto. exfalso.
    assert (B : existsb (same p) l = true); [|congruence]. apply existsb_exists. exists z. split; auto.
    rewrite (left' p y z S), sym'. auto.
  Qed.
  Lemma common_in l1 l2 p : existsb (same p) (filter (fun p => existsb (same p) (point_set same l2)) (point_set same l1)) =
    existsb (same p) l1 && existsb (same p) l2.
  Proof.
    apply eq_true_iff_eq. rewrite andb_true_iff. split.
    - intros E. apply existsb_exists in E. destruct E as (q & I & S). apply filter_In in I. destruct I as (I & J). rewrite set_in in J.
      rewrite (isin_same p q l2 S). split; auto. rewrite <- (set_in l1). apply existsb_exists. eauto.
    - intros (E & F). rewrite <- set_in in E. apply existsb_exists in E. destruct E as (q & I & S). apply existsb_exists. exists q.
      split; auto. apply filter_In. split; auto. rewrite set_in. rewrite <- (isin_same p q l2 S). auto.
  Qed.
  Lemma shared_three l1 l2 : num_shared same l1 l2 = 3 <-> share_three same l1 l2.
  Proof.
    unfold num_shared. pose proof (common_in l1 l2) as C.
    pose proof (apart_filter (fun p => existsb (same p) (point_set same l2)) _ (set_apart l1)) as D.
    set (f := filter _ _) in *. clearbody f. split.
    - intros L. destruct f as [|a [|b [|c [|]]]]; try discriminate. exists a, b, c.
      inversion D as [|? ? N1 D1]; subst. inversion D1 as [|? ? N2 D2]; subst. cbn [existsb] in N1, N2. rewrite !orb_false_r in N1, N2.
      apply orb_false_iff in N1. destruct N1. split; auto. split; auto. split; auto.
      intros p. rewrite C, andb_true_iff. tauto.
    - intros (a & b & c & H1 & H2 & H3 & H).
      assert (E : forall p, existsb (same p) f = existsb (same p) [a; b; c]).
      { intros p. apply eq_true_iff_eq. rewrite C, andb_true_iff. apply H. }
      assert (D3 : apart [a; b; c]).
      { constructor; [cbn; rewrite H1, H3; reflexivity|]. constructor; [cbn; rewrite H2; reflexivity|]. constructor; [reflexivity|constructor]. }
      assert (I : forall l p, In p l -> existsb (same p) l = true) by (intros l p P; apply existsb_exists; exists p; split; auto; apply refl').
      pose proof (apart_le f D [a; b; c]) as L1. pose proof (apart_le [a; b; c] D3 f) as L2. cbn [length] in *.
      apply Nat.le_antisymm; [apply L1; intros p P; rewrite <- E; auto|apply L2; intros p P; rewrite E; auto].
  Qed.
  Lemma share_sym l1 l2 : share_three same l1 l2 -> share_three same l2 l1.
  Proof. intros (a & b & c & H1 & H2 & H3 & H). exists a, b, c. split; auto. split; auto. split; auto. intros p. rewrite <- H. tauto. Qed.
End Share.
