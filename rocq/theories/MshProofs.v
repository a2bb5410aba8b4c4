(** Removing vertices from meshes: proofs. *)
From Coq Require Import Ascii String Reals List Bool Arith Lia Sorted.
From Verif Require Import Prelude TreeModel MeshModel VecModel GeomModel TriModel PolyModel MshModel MshSpec.
Import ListNotations.

(** ** Removing a list of vertices *)
Definition removal {A} (l : list nat) (m : list A * list element) : list A * list element := fold_left remove_vertex (rev l) m.
Definition rank (l : list nat) (x : nat) : nat := fold_right lower x l.
Fixpoint keep_from {A} (k : nat) (vs : list A) (l : list nat) : list A :=
  match vs with [] => [] | v :: r => if memb k l then keep_from (S k) r l else v :: keep_from (S k) r l end.

Lemma removal_cons {A} d l (m : list A * list element) : removal (d :: l) m = remove_vertex (removal l m) d.
Proof. unfold removal. cbn [rev]. rewrite fold_left_app. reflexivity. Qed.
Lemma removal_els {A} l (m : list A * list element) : snd (removal l m) = map (map (rank l)) (snd m).
Proof.
  induction l as [|d l IH].
  - cbn. rewrite <- (map_id (snd m)) at 1. apply map_ext. intros el. symmetry. apply map_id.
  - rewrite removal_cons. cbn [remove_vertex snd]. rewrite IH, map_map. apply map_ext. intros el. rewrite map_map. reflexivity.
Qed.
Lemma memb_cons (x d : nat) l : memb x (d :: l) = (x =? d) || memb x l.
Proof. unfold memb. cbn [existsb]. f_equal. apply eq_true_iff_eq. rewrite eqb_true, Nat.eqb_eq. tauto. Qed.
Lemma keep_cons_small {A} (vs : list A) : forall k d l, d < k -> keep_from k vs (d :: l) = keep_from k vs l.
Proof.
  induction vs as [|v vs IH]; intros k d l L; auto. cbn [keep_from]. rewrite memb_cons, (IH (S k)) by lia.
  replace (k =? d) with false by (symmetry; apply Nat.eqb_neq; lia). reflexivity.
Qed.
Lemma keep_pop {A} (vs : list A) : forall k d l, Forall (fun x => k + d < x) l -> keep_from k vs (k + d :: l) = pop_at d (keep_from k vs l).
Proof.
  induction vs as [|v vs IH]; intros k d l F.
  - cbn. destruct d; reflexivity.
  - assert (N : memb k l = false).
    { apply memb_false. intros I. rewrite Forall_forall in F. specialize (F k I). lia. }
    cbn [keep_from]. rewrite memb_cons, N. destruct d as [|d].
    + rewrite Nat.add_0_r, Nat.eqb_refl. cbn [orb]. rewrite keep_cons_small by lia. reflexivity.
    + replace (k =? k + S d) with false by (symmetry; apply Nat.eqb_neq; lia). cbn [orb].
      replace (k + S d) with (S k + d) by lia. rewrite IH.
      * reflexivity.
      * apply Forall_forall. intros x I. rewrite Forall_forall in F. specialize (F x I). lia.
Qed.
Lemma keep_nil {A} (vs : list A) : forall k, keep_from k vs [] = vs.
Proof. induction vs as [|v vs IH]; intros k; auto. cbn. rewrite IH. reflexivity. Qed.
Lemma removal_vs {A} l (m : list A * list element) : StronglySorted lt l -> fst (removal l m) = keep_from 0 (fst m) l.
Proof.
  intros S. induction S as [|d l S IH F].
  - cbn. symmetry. apply keep_nil.
  - rewrite removal_cons. cbn [remove_vertex fst]. rewrite IH. symmetry. apply (keep_pop (fst m) 0 d l). exact F.
Qed.

Lemma nth_pop {A} d (l : list A) y : y <> d -> nth_error (pop_at d l) (lower d y) = nth_error l y.
Proof.
  intros N. unfold pop_at, lower. destruct (d <? y) eqn:E.
  - apply Nat.ltb_lt in E. destruct (Nat.le_gt_cases (length l) d) as [L|L].
    + rewrite (firstn_all2 l) by lia. rewrite (skipn_all2 l) by lia. rewrite app_nil_r.
      rewrite (proj2 (nth_error_None l (y - 1))) by lia. symmetry. apply nth_error_None. lia.
    + rewrite nth_error_app2 by (rewrite firstn_length; lia). rewrite firstn_length, Nat.min_l by lia.
      rewrite <- (firstn_skipn (S d) l) at 2. rewrite nth_error_app2 by (rewrite firstn_length; lia).
      rewrite firstn_length, Nat.min_l by lia. f_equal. lia.
  - apply Nat.ltb_ge in E. destruct (Nat.le_gt_cases (length l) y) as [L|L].
    + rewrite (proj2 (nth_error_None l y)) by lia. apply nth_error_None. rewrite app_length, firstn_length, skipn_length. lia.
    + rewrite nth_error_app1 by (rewrite firstn_length; lia).
      rewrite <- (firstn_skipn d l) at 2. rewrite nth_error_app1 by (rewrite firstn_length; lia). reflexivity.
Qed.
Lemma rank_low l d x : Forall (lt d) l -> x <= d -> rank l x = x.
Proof.
  intros F L. induction F as [|p l P F IH]; auto. cbn [rank fold_right]. unfold rank in IH. rewrite IH. unfold lower.
  replace (p <? x) with false by (symmetry; apply Nat.ltb_ge; lia). reflexivity.
Qed.
Lemma rank_high l d x : Forall (lt d) l -> d < x -> d < rank l x.
Proof.
  intros F L. induction F as [|p l P F IH]; auto. cbn [rank fold_right]. unfold rank in IH. unfold lower at 1.
  destruct (p <? fold_right lower x l) eqn:E; auto. apply Nat.ltb_lt in E. lia.
Qed.
Lemma removal_get {A} l (m : list A * list element) x : StronglySorted lt l -> ~ In x l ->
  nth_error (fst (removal l m)) (rank l x) = nth_error (fst m) x.
Proof.
  intros S N. induction S as [|d l S IH F]; auto. rewrite removal_cons. cbn [remove_vertex fst rank fold_right]. fold (rank l x).
  rewrite nth_pop.
  - apply IH. intros I. apply N. right. auto.
  - intros E. apply N. left. destruct (Nat.le_gt_cases x d) as [L|L].
    + rewrite (rank_low l d) in E by auto. auto.
    + pose proof (rank_high l d x F L). lia.
Qed.

(** ** What is kept *)
Lemma seq_sorted n : forall k, StronglySorted lt (seq k n).
Proof.
  induction n as [|n IH]; intros k; [constructor|]. cbn. constructor; auto.
  apply Forall_forall. intros x I. apply in_seq in I. lia.
Qed.
Lemma filter_sorted (f : nat -> bool) l : StronglySorted lt l -> StronglySorted lt (filter f l).
Proof.
  intros S. induction S as [|d l S IH F]; [constructor|]. cbn. destruct (f d); auto. constructor; auto.
  apply Forall_forall. intros x I. apply filter_In in I. rewrite Forall_forall in F. apply F. tauto.
Qed.
Lemma sorted_nodup (l : list nat) : StronglySorted lt l -> NoDup l.
Proof.
  intros S. induction S as [|d l S IH F]; constructor; auto. intros I. rewrite Forall_forall in F. specialize (F d I). lia.
Qed.
Lemma keep_seq n : forall k l, keep_from k (seq k n) l = filter (fun i => negb (memb i l)) (seq k n).
Proof.
  induction n as [|n IH]; intros k l; auto. cbn. rewrite IH. destruct (memb k l); reflexivity.
Qed.
Lemma keep_get {A} (vs : list A) : forall k l, map Some (keep_from k vs l) =
  map (fun i => nth_error vs (i - k)) (filter (fun i => negb (memb i l)) (seq k (length vs))).
Proof.
  induction vs as [|v vs IH]; intros k l; auto. cbn [keep_from length seq filter].
  assert (E : map (fun i => nth_error (v :: vs) (i - k)) (filter (fun i => negb (memb i l)) (seq (S k) (length vs))) =
              map (fun i => nth_error vs (i - S k)) (filter (fun i => negb (memb i l)) (seq (S k) (length vs)))).
  { apply map_ext_in. intros i I. apply filter_In in I. destruct I as (I & _). apply in_seq in I.
    replace (i - k) with (S (i - S k)) by lia. reflexivity. }
  destruct (memb k l); cbn [negb].
  - rewrite IH, <- E. reflexivity.
  - cbn [map]. rewrite Nat.sub_diag, IH, <- E. reflexivity.
Qed.
Lemma removal_selected {A} l (m : list A * list element) : StronglySorted lt l ->
  selected (fun i => ~ In i l) (fst m) (fst (removal l m)).
Proof.
  intros S. rewrite removal_vs by auto. exists (filter (fun i => negb (memb i l)) (seq 0 (length (fst m)))). split; [|split].
  - apply filter_sorted, seq_sorted.
  - intros i. rewrite filter_In, in_seq, negb_true_iff, memb_false. intuition lia.
  - rewrite keep_get. apply map_ext. intros i. rewrite Nat.sub_0_r. reflexivity.
Qed.
(** The k-th vertex kept is the one whose number becomes k. *)
Lemma removal_rank {A} l (m : list A * list element) k : StronglySorted lt l -> k < length (fst (removal l m)) ->
  exists x, x < length (fst m) /\ ~ In x l /\ rank l x = k.
Proof.
  intros S L. set (n := length (fst m)).
  pose proof (removal_vs l m S) as E. pose proof (keep_get (fst m) 0 l) as G. fold n in G.
  assert (Len : length (fst (removal l m)) = length (filter (fun i => negb (memb i l)) (seq 0 n))).
  { rewrite E. rewrite <- (map_length Some), G, map_length. reflexivity. }
  set (ix := filter (fun i => negb (memb i l)) (seq 0 n)) in *.
  destruct (nth_error ix k) as [x|] eqn:X; [|apply nth_error_None in X; lia].
  assert (I : In x ix) by (eapply nth_error_In; eauto).
  unfold ix in I. apply filter_In in I. destruct I as (I & N). apply in_seq in I. apply negb_true_iff, memb_false in N.
  exists x. split; [lia|]. split; auto.
  pose proof (removal_get l (seq 0 n, []) x S N) as R. cbn [fst] in R. rewrite removal_vs in R by auto. cbn [fst] in R.
  rewrite keep_seq in R. fold ix in R.
  assert (Y : nth_error (seq 0 n) x = Some x).
  { rewrite (nth_error_nth' (seq 0 n) 0) by (rewrite seq_length; lia). rewrite seq_nth by lia. reflexivity. }
  rewrite Y in R. assert (ND : NoDup ix) by (apply sorted_nodup, filter_sorted, seq_sorted).
  rewrite NoDup_nth_error in ND. symmetry. apply ND; [lia|]. rewrite X, R. reflexivity.
Qed.

(** ** purge_mesh *)
Lemma unused_sorted {A} (vs : list A) els : StronglySorted lt (unused vs els).
Proof. apply filter_sorted, seq_sorted. Qed.
Lemma in_unused {A} (vs : list A) els i : In i (unused vs els) <-> i < length vs /\ ~ used els i.
Proof.
  unfold unused. rewrite filter_In, in_seq, negb_true_iff, memb_false. unfold used. rewrite in_concat. intuition; try lia.
Qed.
Lemma purge_eq {A} (vs : list A) els : rectangular els = true -> purge_mesh vs els = Ok (removal (unused vs els) (vs, els)).
Proof. intros R. unfold purge_mesh. rewrite R. reflexivity. Qed.
Lemma purge_spec {A} (vs : list A) els vs' els' : purge_mesh vs els = Ok (vs', els') ->
  selected (used els) vs vs' /\ map (points_of vs') els' = map (points_of vs) els /\
  (forall i, i < length vs' -> used els' i).
Proof.
  intros E. unfold purge_mesh in E. destruct (rectangular els); [|discriminate]. injection E as E.
  pose proof (unused_sorted vs els) as S. pose proof (in_unused vs els) as U.
  change (removal (unused vs els) (vs, els) = (vs', els')) in E.
  pose proof (removal_selected (unused vs els) (vs, els) S) as Sel.
  pose proof (removal_els (unused vs els) (vs, els)) as Els.
  pose proof (fun x => removal_get (unused vs els) (vs, els) x S) as Get.
  pose proof (fun k => removal_rank (unused vs els) (vs, els) k S) as Rank.
  rewrite E in *. cbn [fst snd] in *. split; [|split].
  - destruct Sel as (ix & A1 & A2 & A3). exists ix. split; auto. split; auto. intros i. rewrite A2, U. split.
    + intros (L & N). split; auto. destruct (memb i (concat els)) eqn:M.
      * apply memb_true in M. apply in_concat in M. destruct M as (el & M1 & M2). exists el. auto.
      * apply memb_false in M. exfalso. apply N. split; auto. intros (el & M1 & M2). apply M. apply in_concat. eauto.
    + intros (L & M). split; auto. tauto.
  - rewrite Els, map_map. apply map_ext_in. intros el I. unfold points_of. rewrite map_map. apply map_ext_in. intros x J.
    apply Get. rewrite U. intros (_ & N). apply N. exists el. auto.
  - intros k L. destruct (Rank k L) as (x & L' & N & <-). rewrite U in N.
    destruct (memb x (concat els)) eqn:M.
    + apply memb_true in M. apply in_concat in M. destruct M as (el & M1 & M2).
      exists (map (rank (unused vs els)) el). split; [rewrite Els; apply in_map; auto|apply in_map; auto].
    + apply memb_false in M. exfalso. apply N. split; auto. intros (el & M1 & M2). apply M. apply in_concat. eauto.
Qed.
Lemma purge_fails {A} (vs : list A) els :
  (exists m, purge_mesh vs els = Ok m) \/
  (purge_mesh vs els = Err ValueError /\ exists e1 e2, In e1 els /\ In e2 els /\ length e1 <> length e2).
Proof.
  unfold purge_mesh. destruct (rectangular els) eqn:R; [left; eauto|]. right. split; auto.
  destruct els as [|e r]; [discriminate|]. cbn in R.
  assert (H : exists x, In x r /\ (length x =? length e) = false).
  { clear - R. induction r as [|x r IH]; [discriminate|]. cbn in R. destruct (length x =? length e) eqn:E.
    - destruct (IH R) as (y & I & Y). exists y. simpl. auto.
    - exists x. simpl. auto. }
  destruct H as (x & I & N). apply Nat.eqb_neq in N. exists x, e. simpl. auto.
Qed.
Lemma rectangular_spec els : rectangular els = true <-> (forall e1 e2, In e1 els -> In e2 els -> length e1 = length e2).
Proof.
  destruct els as [|e r]; cbn [rectangular].
  - split; auto. intros _ e1 e2 [].
  - rewrite forallb_forall. split.
    + intros F. assert (G : forall x, In x (e :: r) -> length x = length e).
      { intros x [<-|I]; auto. apply Nat.eqb_eq. auto. }
      intros e1 e2 I1 I2. rewrite (G e1), (G e2) by auto. auto.
    + intros F x I. apply Nat.eqb_eq. apply F; simpl; auto.
Qed.
(** Nothing unused, nothing done. *)
Lemma purge_same {A} (vs : list A) els : rectangular els = true -> (forall i, i < length vs -> used els i) ->
  purge_mesh vs els = Ok (vs, els).
Proof.
  intros R U. rewrite purge_eq by auto. assert (N : unused vs els = []).
  { destruct (unused vs els) as [|x l] eqn:E; auto. exfalso.
    assert (I : In x (unused vs els)) by (rewrite E; left; auto). apply in_unused in I. destruct I as (L & N). auto. }
  rewrite N. reflexivity.
Qed.
Lemma removal_rect {A} l (m : list A * list element) : rectangular (snd (removal l m)) = rectangular (snd m).
Proof.
  rewrite removal_els. destruct (snd m) as [|e r]; auto. cbn [map rectangular]. rewrite map_length. induction r as [|x r IH]; auto.
  cbn [map forallb]. rewrite map_length, IH. reflexivity.
Qed.
Lemma purge_twice {A} (vs : list A) els m : purge_mesh vs els = Ok m -> purge_mesh (fst m) (snd m) = Ok m.
Proof.
  intros E. destruct m as [vs' els']. cbn [fst snd]. apply purge_same.
  - unfold purge_mesh in E. destruct (rectangular els) eqn:R; [|discriminate].
    pose proof (removal_rect (unused vs els) (vs, els)) as Q. unfold removal in Q. injection E as E. rewrite E in Q. cbn [snd] in Q. congruence.
  - apply purge_spec in E. tauto.
Qed.
