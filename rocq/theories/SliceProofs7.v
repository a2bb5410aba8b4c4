(** Adding intersection points: the result in closed form; evaluation on
    integer points. *)
From Coq Require Import Reals List Bool Arith Lia Lra ZArith Permutation.
From Verif Require Import Prelude VecModel VecProofs GeomModel GeomSpec GeomProofs1 GeomProofs2 GeomProofs3 GeomProofs4 GeomProofs5 TriModel TriSpec PolyModel PolySpec PolyProofs1 PolyProofs2 VisSpec VisProofs SliceModel SliceSpec SliceProofs1 SliceProofs3 SliceProofs4.
Import ListNotations.
Local Open Scope R_scope.

(** The points found for a list of pairs of numbered edges. *)
Definition numbered := (nat * (vec * vec))%type.
Fixpoint found (l : list (numbered * numbered)) : list vec :=
  match l with [] => [] | (x1, x2) :: r => match new_crossing (snd x1) (snd x2) with Some q => q :: found r | None => found r end end.
Lemma found_app a b : found (a ++ b) = found a ++ found b.
Proof. induction a as [|(x1, x2) a IH]; cbn [app found]; auto. rewrite IH. destruct (new_crossing _ _); auto. Qed.
Definition on1 (i : nat) (x : numbered * numbered) : bool := (fst (fst x) =? i)%nat.
Definition on2 (i : nat) (x : numbered * numbered) : bool := (fst (snd x) =? i)%nat.
Definition entry_of (d : dict nat (list nat)) (i : nat) : list nat := match dget d i with Some l => l | None => [] end.
Definition reads (ps : list vec) (d : dict nat (list nat)) (i : nat) (l : list vec) : Prop := mapM (at_index ps) (entry_of d i) = Ok l.
Lemma reads_more ps q d i l : reads ps d i l -> reads (ps ++ [q]) d i l.
Proof.
  unfold reads. generalize (entry_of d i). intros ix. revert l. induction ix as [|j ix IH]; intros l; cbn [mapM]; auto. unfold at_index at 1 3. destruct (nth_error ps j) as [p|] eqn:E; [|discriminate]. rewrite nth_error_app1 by (apply nth_error_Some; congruence). rewrite E. cbn [rbind].
  destruct (mapM (at_index ps) ix) as [r|]; [|discriminate]. cbn [rbind]. rewrite (IH r eq_refl). auto.
Qed.
Lemma entry_append d k x i : entry_of (dict_append d k x) i = if (i =? k)%nat then entry_of d k ++ [x] else entry_of d i.
Proof.
  unfold entry_of, dict_append. destruct (Nat.eqb_spec i k) as [->|N].
  - destruct (dget d k) as [l|] eqn:E; rewrite dget_dset_same; auto.
  - destruct (dget d k) as [l|] eqn:E; rewrite dget_dset_other by congruence; auto.
Qed.
Lemma mapM_snoc {A B} (f : A -> result B) l x r y : mapM f l = Ok r -> f x = Ok y -> mapM f (l ++ [x]) = Ok (r ++ [y]).
Proof. revert r. induction l as [|a l IH]; intros r; cbn [mapM app]; [intros H E; apply Ok_inj in H; subst; rewrite E; auto|]. destruct (f a); [|discriminate]. cbn [rbind]. destruct (mapM f l) as [r'|]; [|discriminate]. cbn [rbind]. intros H E. apply Ok_inj in H. subst. rewrite (IH r' eq_refl E). auto. Qed.
Definition inv (st : crossings) (l : list (numbered * numbered)) : Prop :=
  let '(ps, d1, d2) := st in ps = found l /\ forall i, reads ps d1 i (found (filter (on1 i) l)) /\ reads ps d2 i (found (filter (on2 i) l)).
Lemma inv_step st l x1 x2 : inv st l -> inv (note_crossing st (fst x1) (fst x2) (snd x1) (snd x2)) (l ++ [(x1, x2)]).
Proof.
  destruct st as ((ps, d1), d2). intros (-> & H). unfold note_crossing. destruct (new_crossing (snd x1) (snd x2)) as [q|] eqn:Q.
  - cbn [inv]. split; [rewrite found_app; cbn [found]; rewrite Q; auto|]. intros i. destruct (H i) as (H1 & H2). rewrite !filter_app, !found_app. cbn [filter]. unfold on1 at 2, on2 at 2. cbn [fst snd]. rewrite !(Nat.eqb_sym _ i).
    assert (Aq : at_index (found l ++ [q]) (length (found l)) = Ok q) by (unfold at_index; rewrite nth_error_app2, Nat.sub_diag by lia; auto).
    split; unfold reads; rewrite entry_append.
    + destruct (Nat.eqb_spec i (fst x1)) as [->|N]; [|cbn [found]; rewrite app_nil_r; apply reads_more; auto]. cbn [found]. rewrite Q. apply mapM_snoc; auto. apply reads_more. apply H1.
    + destruct (Nat.eqb_spec i (fst x2)) as [->|N]; [|cbn [found]; rewrite app_nil_r; apply reads_more; auto]. cbn [found]. rewrite Q. apply mapM_snoc; auto. apply reads_more. apply H2.
  - cbn [inv]. assert (F : forall f, found (filter f (l ++ [(x1, x2)])) = found (filter f l)). { intros f. rewrite filter_app, found_app. cbn [filter]. destruct (f (x1, x2)); cbn [found]; rewrite ?Q, app_nil_r; auto. }
    split; [rewrite found_app; cbn [found]; rewrite Q, app_nil_r; auto|]. intros i. rewrite !F. apply H.
Qed.
Definition pairs (l1 l2 : list numbered) : list (numbered * numbered) := flat_map (fun x1 => map (fun x2 => (x1, x2)) l2) l1.
Lemma inv_all es1 es2 : inv (find_crossings es1 es2) (pairs (enumerate es1) (enumerate es2)).
Proof.
  unfold find_crossings. set (l2 := enumerate es2). assert (In2 : forall x1 r st l, inv st l -> inv (fold_left (fun st' x2 => note_crossing st' (fst x1) (fst x2) (snd x1) (snd x2)) r st) (l ++ map (fun x2 => (x1, x2)) r)).
  { intros x1. induction r as [|x2 r IH]; intros st l H; cbn [fold_left map]; [rewrite app_nil_r; auto|]. replace (l ++ (x1, x2) :: map (fun x3 => (x1, x3)) r) with ((l ++ [(x1, x2)]) ++ map (fun x3 => (x1, x3)) r) by (rewrite <- app_assoc; auto). apply IH. apply inv_step. auto. }
  assert (In1 : forall l1 st l, inv st l -> inv (fold_left (fun st x1 => fold_left (fun st' x2 => note_crossing st' (fst x1) (fst x2) (snd x1) (snd x2)) l2 st) l1 st) (l ++ pairs l1 l2)).
  { induction l1 as [|x1 l1 IH]; intros st l H; cbn [fold_left pairs flat_map]; [rewrite app_nil_r; auto|]. rewrite app_assoc. apply IH. apply In2. auto. }
  apply (In1 (enumerate es1) ([], [], []) []). cbn [inv found]. split; auto. intros i. cbn [filter found]. split; reflexivity.
Qed.
Definition somes (f : vec * vec -> option vec) (es : list (vec * vec)) : list vec := concat (map (fun e => match f e with Some q => [q] | None => [] end) es).
Lemma found_row x1 l2 : found (map (fun x2 => (x1, x2)) l2) = somes (new_crossing (snd x1)) (map snd l2).
Proof. unfold somes. induction l2 as [|x2 l2 IH]; cbn [map found concat]; auto. rewrite IH. destruct (new_crossing _ _); auto. Qed.
Lemma enum_snd {A} (l : list A) k : map snd (combine (seq k (length l)) l) = l.
Proof. revert k. induction l as [|x l IH]; intros k; cbn [length seq combine map snd]; auto. rewrite IH. auto. Qed.
Lemma enum_index {A} (l : list A) k i x : In (i, x) (combine (seq k (length l)) l) -> (k <= i)%nat /\ nth_error l (i - k) = Some x.
Proof.
  revert k. induction l as [|y l IH]; intros k; cbn [length seq combine In]; [tauto|]. intros [E|I].
  - injection E as -> ->. rewrite Nat.sub_diag. auto.
  - destruct (IH (S k) I) as (L & N). split; [lia|]. replace (i - k)%nat with (S (i - S k)) by lia. auto.
Qed.
Lemma pairs_cons x l1 l2 : pairs (x :: l1) l2 = map (fun x2 => (x, x2)) l2 ++ pairs l1 l2.
Proof. reflexivity. Qed.
Lemma row1 es1 l2 i e k : nth_error es1 i = Some e -> found (filter (on1 (k + i)) (pairs (combine (seq k (length es1)) es1) l2)) = somes (new_crossing e) (map snd l2).
Proof.
  assert (Z : forall l1 k j, (j < k)%nat -> filter (on1 j) (pairs (combine (seq k (length l1)) l1) l2) = []).
  { induction l1 as [|y l1 IH]; intros k' j L; cbn [length seq combine]; auto. rewrite pairs_cons, filter_app, (IH (S k') j) by lia. rewrite app_nil_r. clear - L. induction l2; cbn [map filter]; auto. unfold on1 at 1. cbn [fst]. destruct (Nat.eqb_spec k' j); [lia|auto]. }
  revert i k. induction es1 as [|y es1 IH]; intros [|i] k H; try discriminate; cbn [nth_error length seq combine] in *; rewrite pairs_cons, filter_app.
  - injection H as ->. rewrite Z by lia. rewrite app_nil_r, <- (found_row (k, e)). f_equal. rewrite Nat.add_0_r. clear. induction l2; cbn [map filter]; auto. unfold on1 at 1. cbn [fst]. rewrite Nat.eqb_refl. f_equal. auto.
  - specialize (IH i (S k) H). replace (k + S i)%nat with (S k + i)%nat by lia. rewrite found_app, IH.
    assert (E : filter (on1 (S k + i)) (map (fun x2 => @pair numbered numbered (k, y) x2) l2) = []) by (clear; induction l2; cbn [map filter]; auto; unfold on1 at 1; cbn [fst]; destruct (Nat.eqb_spec k (S k + i)); [lia|auto]). rewrite E. auto.
Qed.
Lemma col1 x1 (es2 : list (vec * vec)) i e k : nth_error es2 i = Some e -> filter (on2 (k + i)) (map (fun x2 => (x1, x2)) (combine (seq k (length es2)) es2)) = [(x1, ((k + i)%nat, e))].
Proof.
  assert (Z : forall l k j, (j < k)%nat -> filter (on2 j) (map (fun x2 => (x1, x2)) (combine (seq k (length l)) l)) = []).
  { induction l as [|y l IH]; intros k' j L; cbn [length seq combine map filter]; auto. unfold on2 at 1. cbn [fst snd]. destruct (Nat.eqb_spec k' j); [lia|]. apply IH. lia. }
  revert i k. induction es2 as [|y es2 IH]; intros [|i] k H; try discriminate; cbn [nth_error length seq combine map filter] in *; unfold on2 at 1; cbn [fst snd].
  - injection H as ->. rewrite Nat.add_0_r, Nat.eqb_refl, Z by lia. auto.
  - destruct (Nat.eqb_spec k (k + S i)); [lia|]. replace (k + S i)%nat with (S k + i)%nat by lia. apply IH. auto.
Qed.
Lemma col2 l1 (es2 : list (vec * vec)) i e : nth_error es2 i = Some e -> found (filter (on2 i) (pairs l1 (enumerate es2))) = somes (fun e1 => new_crossing e1 e) (map snd l1).
Proof.
  intros H. unfold somes. induction l1 as [|x1 l1 IH]; cbn [map concat]; auto. rewrite pairs_cons, filter_app, found_app, IH. f_equal. unfold enumerate. pose proof (col1 x1 es2 i e 0 H) as C. rewrite Nat.add_0_l in C. etransitivity; [apply f_equal; exact C|]. cbn [found snd]. destruct (new_crossing _ _); auto.
Qed.
Lemma mapM_all {A B} (f : A -> result B) (g : A -> B) l : (forall x, In x l -> f x = Ok (g x)) -> mapM f l = Ok (map g l).
Proof. induction l as [|x l IH]; intros H; cbn [mapM map]; auto. rewrite (H x) by (simpl; auto). cbn [rbind]. rewrite IH by (intros; apply H; simpl; auto). auto. Qed.
Definition weave (f : vec * vec -> list vec) (es : list (vec * vec)) : list vec := concat (map (fun e => fst e :: f e) es).
Lemma insert_weave es ps d f : (forall i e, nth_error es i = Some e -> reads ps d i (f e)) -> insert_crossings es ps d = Ok (weave f es).
Proof.
  intros H. unfold insert_crossings. rewrite (mapM_all _ (fun x : numbered => fst (snd x) :: f (snd x))).
  - cbn [rbind]. f_equal. unfold weave. f_equal. etransitivity; [symmetry; exact (map_map (@snd nat (vec * vec)) (fun e : vec * vec => fst e :: f e) (enumerate es))|]. apply f_equal. apply enum_snd.
  - intros (i, e) I. apply enum_index in I. destruct I as (_ & I). rewrite Nat.sub_0_r in I. specialize (H i e I). cbn [fst snd] in *. fold (entry_of d i). unfold reads in H. rewrite H. auto.
Qed.
Lemma added_eq pts1 pts2 : pts1 <> [] -> pts2 <> [] -> let es1 := cyc_pairs pts1 in let es2 := cyc_pairs pts2 in
  add_intersection_points pts1 pts2 = Ok (weave (fun e1 => somes (new_crossing e1) es2) es1, weave (fun e2 => somes (fun e1 => new_crossing e1 e2) es1) es2).
Proof.
  intros N1 N2. cbn zeta. unfold add_intersection_points. rewrite !polygon_edges_eq by auto. cbn [rbind]. pose proof (inv_all (cyc_pairs pts1) (cyc_pairs pts2)) as I. destruct (find_crossings (cyc_pairs pts1) (cyc_pairs pts2)) as ((ps, d1), d2). cbn [inv] in I. destruct I as (_ & I).
  rewrite (insert_weave _ ps d1 (fun e1 => somes (new_crossing e1) (cyc_pairs pts2))).
  - cbn [rbind]. rewrite (insert_weave _ ps d2 (fun e2 => somes (fun e1 => new_crossing e1 e2) (cyc_pairs pts1))); auto. intros i e H. destruct (I i) as (_ & X). rewrite (col2 _ _ i e H) in X. unfold enumerate in X. rewrite enum_snd in X. auto.
  - intros i e H. destruct (I i) as (X & _). unfold enumerate in X. pose proof (row1 (cyc_pairs pts1) (combine (seq 0 (length (cyc_pairs pts2))) (cyc_pairs pts2)) i e 0 H) as R. rewrite Nat.add_0_l in R. rewrite R, enum_snd in X. auto.
Qed.
Lemma new_iff e1 e2 q : new_crossing e1 e2 = Some q <-> crossing_of e1 e2 q.
Proof.
  unfold new_crossing, crossing_of. destruct (line_segment_intersection _ _ _ _) as [p|]; [|split; [discriminate|intros (X & _); discriminate]]. split.
  - destruct (points_equal (fst e1) p) eqn:A; [discriminate|]. destruct (points_equal (snd e1) p) eqn:B; [discriminate|]. destruct (points_equal (fst e2) p) eqn:C; [discriminate|]. destruct (points_equal (snd e2) p) eqn:D; [discriminate|]. intros X. injection X as <-. auto.
  - intros (X & A & B & C & D). injection X as ->. rewrite A, B, C, D. auto.
Qed.
Lemma somes_picked f (R : vec * vec -> vec -> Prop) es : (forall e q, f e = Some q <-> R e q) -> picked R es (somes f es).
Proof.
  intros H. unfold somes. induction es as [|e es IH]; cbn [map concat]; [constructor|]. destruct (f e) as [q|] eqn:E; cbn [app].
  - constructor; auto. apply H. auto.
  - constructor; auto. intros q X. apply H in X. congruence.
Qed.
Lemma weave_with f R es others : (forall e, picked (R e) others (f e)) -> with_crossings R es others (weave f es).
Proof. intros H. unfold weave. eexists. split; [reflexivity|]. induction es as [|e es IH]; cbn [map]; constructor; auto. exists (f e). auto. Qed.
Lemma added_spec pts1 pts2 : pts1 <> [] -> pts2 <> [] -> exists o1 o2, add_intersection_points pts1 pts2 = Ok (o1, o2) /\
  with_crossings crossing_of (cyc_pairs pts1) (cyc_pairs pts2) o1 /\ with_crossings (fun e2 e1 q => crossing_of e1 e2 q) (cyc_pairs pts2) (cyc_pairs pts1) o2.
Proof.
  intros N1 N2. rewrite (added_eq pts1 pts2 N1 N2). eexists. eexists. split; [reflexivity|]. split; apply weave_with; intros e; apply somes_picked; intros e' q; apply new_iff.
Qed.
Lemma fst_cyc {A} (l : list A) : map fst (cyc_pairs l) = l.
Proof.
  assert (G : forall (a b : list A), length a = length b -> map fst (combine a b) = a) by (induction a as [|x a IH]; intros [|y b] L; try discriminate; cbn [combine map fst]; auto; f_equal; apply IH; cbn [length] in L; lia).
  destruct l as [|x l]; auto. unfold cyc_pairs. apply G. rewrite app_length. cbn [length]. lia.
Qed.
Lemma subseq_refl {A} (l : list A) : subseq l l.
Proof. induction l; [apply subseq_nil|apply subseq_keep; auto]. Qed.
Lemma subseq_pre {A} (a l l' : list A) : subseq l l' -> subseq l (a ++ l').
Proof. intros H. induction a; cbn [app]; auto. apply subseq_skip; auto. Qed.
Lemma weave_subseq f es : subseq (map fst es) (weave f es).
Proof. unfold weave. induction es as [|e es IH]; cbn [map concat app]; [constructor|]. apply subseq_keep. apply subseq_pre. auto. Qed.
Lemma weave_perm f es : Permutation (weave f es) (map fst es ++ concat (map f es)).
Proof. unfold weave. induction es as [|e es IH]; cbn [map concat app]; auto. constructor. rewrite IH. rewrite !app_assoc. apply Permutation_app_tail. apply Permutation_app_comm. Qed.
Lemma swap_perm (g : vec * vec -> vec * vec -> list vec) es1 es2 : Permutation (concat (map (fun e1 => concat (map (g e1) es2)) es1)) (concat (map (fun e2 => concat (map (fun e1 => g e1 e2) es1)) es2)).
Proof.
  induction es1 as [|e1 es1 IH]; cbn [map concat].
  - induction es2; cbn [map concat]; auto.
  - rewrite IH. clear IH. induction es2 as [|e2 es2 IH]; cbn [map concat]; auto. rewrite <- IH. rewrite <- !app_assoc. apply Permutation_app_head. rewrite !app_assoc. apply Permutation_app_tail. apply Permutation_app_comm.
Qed.
Lemma added_same pts1 pts2 o1 o2 : pts1 <> [] -> pts2 <> [] -> add_intersection_points pts1 pts2 = Ok (o1, o2) ->
  subseq pts1 o1 /\ subseq pts2 o2 /\ exists new, Permutation o1 (pts1 ++ new) /\ Permutation o2 (pts2 ++ new) /\ forall q, In q new <-> exists e1 e2, In e1 (cyc_pairs pts1) /\ In e2 (cyc_pairs pts2) /\ crossing_of e1 e2 q.
Proof.
  intros N1 N2 H. rewrite (added_eq pts1 pts2 N1 N2) in H. apply Ok_inj in H. pose proof (f_equal fst H) as H1. pose proof (f_equal snd H) as H2. cbn [fst snd] in H1, H2. subst o1 o2. clear H.
  split; [rewrite <- (fst_cyc pts1) at 1; apply weave_subseq|]. split; [rewrite <- (fst_cyc pts2) at 1; apply weave_subseq|].
  exists (concat (map (fun e1 => somes (new_crossing e1) (cyc_pairs pts2)) (cyc_pairs pts1))). split; [rewrite weave_perm, fst_cyc; apply Permutation_refl|]. split.
  - rewrite weave_perm, fst_cyc. apply Permutation_app_head. symmetry. unfold somes. apply (swap_perm (fun e1 e2 => match new_crossing e1 e2 with Some q => [q] | None => [] end)).
  - intros q. rewrite in_concat. split.
    + intros (l & I & J). apply in_map_iff in I. destruct I as (e1 & <- & I). unfold somes in J. apply in_concat in J. destruct J as (l & J & K). apply in_map_iff in J. destruct J as (e2 & <- & J). exists e1, e2. split; auto. split; auto. apply new_iff. destruct (new_crossing e1 e2) as [p|]; [destruct K as [->|[]]; auto|destruct K].
    + intros (e1 & e2 & I & J & C). apply new_iff in C. exists (somes (new_crossing e1) (cyc_pairs pts2)). split; [apply in_map_iff; exists e1; auto|]. unfold somes. apply in_concat. exists [q]. split; [|simpl; auto]. apply in_map_iff. exists e2. rewrite C. auto.
Qed.
Lemma crossing_complete a1 b1 a2 b2 q : ~ seem_zero (vsub b1 a1) -> ~ seem_zero (vsub b2 a2) -> ~ seem_parallel (vsub b1 a1) (vsub b2 a2) -> on_segment a1 b1 q -> on_segment a2 b2 q ->
  points_equal a1 q = false -> points_equal b1 q = false -> points_equal a2 q = false -> points_equal b2 q = false -> crossing_of (a1, b1) (a2, b2) q.
Proof. intros Z1 Z2 NP O1 O2 A B C D. unfold crossing_of. cbn [fst snd]. split; auto. apply segment_meet_complete; auto. Qed.
