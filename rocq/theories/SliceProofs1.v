(** Walking round an outline, index searches, cutting along a chain. *)
From Coq Require Import Reals List Bool Arith Lia Lra Permutation.
From Verif Require Import Prelude VecModel VecProofs GeomModel GeomSpec GeomProofs1 GeomProofs2 GeomProofs3 GeomProofs4 TriModel PolyModel SliceModel SliceSpec.
Import ListNotations.
Local Open Scope R_scope.

(** Arcs of indices: from a up to but without b, going round. *)
Definition arc (n a b : nat) : list nat := if (a <=? b)%nat then seq a (b - a) else seq a (n - a) ++ seq 0 b.
Ltac natb := repeat match goal with
  | |- context [(?a <=? ?b)%nat] => destruct (Nat.leb_spec a b); try lia
  | |- context [(?a =? ?b)%nat] => destruct (Nat.eqb_spec a b); try lia end.
Lemma seq_head a k : (0 < k)%nat -> seq a k = a :: seq (S a) (k - 1).
Proof. destruct k; [lia|]. intros _. cbn [seq Nat.sub]. rewrite Nat.sub_0_r. auto. Qed.
Lemma seq_tail a k : (0 < k)%nat -> seq a k = seq a (k - 1) ++ [(a + k - 1)%nat].
Proof. destruct k; [lia|]. intros _. rewrite seq_S. f_equal; [f_equal; lia|f_equal; lia]. Qed.
Lemma arc_length n a b : (a <= n)%nat -> (b <= n)%nat -> (length (arc n a b) <= n)%nat.
Proof. intros A B. unfold arc. natb; rewrite ?app_length, ?seq_length; lia. Qed.
Lemma walk_fwd fuel n j : forall i, (i < n)%nat -> (j < n)%nat -> (length (arc n i j) <= fuel)%nat -> walk fuel true n i j = Ok (arc n i j).
Proof.
  induction fuel as [|fuel IH]; intros i Li Lj Lf; unfold walk; fold walk; unfold arc in *.
  - destruct (Nat.eqb_spec i j) as [->|N]; [rewrite Nat.leb_refl, Nat.sub_diag; auto|]. revert Lf. natb; rewrite ?app_length, ?seq_length; lia.
  - destruct (Nat.eqb_spec i j) as [->|N]; [rewrite Nat.leb_refl, Nat.sub_diag; auto|]. unfold step. destruct (Nat.eqb_spec i (n - 1)) as [E|E].
    + assert (F : (i <=? j)%nat = false) by (apply Nat.leb_gt; lia). rewrite F in *. rewrite app_length, !seq_length in Lf. rewrite IH; [|lia|lia|cbn [Nat.leb]; rewrite seq_length; lia]. cbn [rbind Nat.leb]. rewrite Nat.sub_0_r. replace (n - i)%nat with 1%nat by lia. auto.
    + assert (F : (S i <=? j)%nat = (i <=? j)%nat) by (natb). rewrite IH; [|lia|lia|]; rewrite F in *; clear F; destruct (Nat.leb_spec i j).
      * cbn [rbind]. rewrite (seq_head i (j - i)) by lia. replace (j - i - 1)%nat with (j - S i)%nat by lia. auto.
      * cbn [rbind]. rewrite (seq_head i (n - i)) by lia. cbn [app]. replace (n - i - 1)%nat with (n - S i)%nat by lia. auto.
      * rewrite !seq_length in *. lia.
      * rewrite !app_length, !seq_length in *. lia.
Qed.
Lemma walk_back fuel n j : forall i, (i < n)%nat -> (j < n)%nat -> (length (arc n (S j) (S i)) <= fuel)%nat -> walk fuel false n i j = Ok (rev (arc n (S j) (S i))).
Proof.
  induction fuel as [|fuel IH]; intros i Li Lj Lf; unfold walk; fold walk; unfold arc in *.
  - destruct (Nat.eqb_spec i j) as [->|N]; [rewrite Nat.leb_refl, Nat.sub_diag; auto|]. revert Lf. natb; rewrite ?app_length, ?seq_length; lia.
  - destruct (Nat.eqb_spec i j) as [->|N]; [rewrite Nat.leb_refl, Nat.sub_diag; auto|]. unfold step. destruct i as [|i].
    + assert (F : (S j <=? 1)%nat = false) by (apply Nat.leb_gt; lia). rewrite F in *. rewrite app_length, !seq_length in Lf. assert (G : (S j <=? S (n - 1))%nat = true) by (apply Nat.leb_le; lia). rewrite IH; [|lia|lia|]; rewrite G; [|rewrite seq_length; lia]. cbn [rbind]. cbn [seq]. rewrite rev_app_distr. cbn [rev app]. replace (S (n - 1) - S j)%nat with (n - S j)%nat by lia. auto.
    + assert (F : (S j <=? S i)%nat = (S j <=? S (S i))%nat) by (natb). rewrite IH; [|lia|lia|]; rewrite F in *; clear F; destruct (Nat.leb_spec (S j) (S (S i))).
      * cbn [rbind]. rewrite (seq_tail (S j) (S (S i) - S j)) by lia. rewrite rev_app_distr. cbn [rev app]. replace (S (S i) - S j - 1)%nat with (S i - S j)%nat by lia. replace (S j + (S (S i) - S j) - 1)%nat with (S i) by lia. auto.
      * cbn [rbind]. rewrite (seq_tail 0 (S (S i))) by lia. rewrite !rev_app_distr. cbn [rev app]. replace (S (S i) - 1)%nat with (S i) by lia. replace (0 + S (S i) - 1)%nat with (S i) by lia. auto.
      * rewrite !seq_length in *. lia.
      * rewrite !app_length, !seq_length in *. lia.
Qed.
(** The points of an arc. *)
Definition parc (pts : list vec) (a b : nat) : list vec := if (a <=? b)%nat then firstn (b - a) (skipn a pts) else skipn a pts ++ firstn b pts.
Definition incl_arc (pts : list vec) (a b : nat) : list vec := if (a <=? b)%nat then firstn (S b - a) (skipn a pts) else skipn a pts ++ firstn (S b) pts.
Lemma map_nth_firstn (pts : list vec) k : forall a, (a + k <= length pts)%nat -> map (fun i => nth i pts vzero) (seq a k) = firstn k (skipn a pts).
Proof.
  induction k as [|k IH]; intros a L; [auto|]. cbn [seq map]. rewrite IH by lia. rewrite (skipn_nth pts a (nth a pts vzero)) by (apply nth_error_nth'; lia). cbn [firstn]. rewrite Nat.add_1_r. auto.
Qed.
Lemma map_arc pts a b : (a <= length pts)%nat -> (b <= length pts)%nat -> map (fun i => nth i pts vzero) (arc (length pts) a b) = parc pts a b.
Proof.
  intros A B. unfold arc, parc. destruct (Nat.leb_spec a b); [apply map_nth_firstn; lia|]. rewrite map_app, !map_nth_firstn by lia. f_equal. apply firstn_all2. rewrite skipn_length. lia.
Qed.
Lemma mapM_at pts ix : (forall i, In i ix -> (i < length pts)%nat) -> mapM (at_index pts) ix = Ok (map (fun i => nth i pts vzero) ix).
Proof.
  induction ix as [|i ix IH]; intros H; [auto|]. cbn [mapM map]. unfold at_index at 1. rewrite (nth_error_nth' pts vzero) by (apply H; simpl; auto). cbn [rbind]. rewrite IH by (intros; apply H; simpl; auto). auto.
Qed.
Lemma arc_in n a b i : (a <= n)%nat -> (b <= n)%nat -> In i (arc n a b) -> (i < n)%nat.
Proof. intros A B. unfold arc. natb; intros I; [apply in_seq in I; lia|apply in_app_or in I; destruct I as [I|I]; apply in_seq in I; lia]. Qed.
Lemma walk_points_fwd pts i j : (i < length pts)%nat -> (j < length pts)%nat -> walk_points true pts i j = Ok (parc pts i j).
Proof.
  intros A B. unfold walk_points. rewrite walk_fwd by (auto; apply arc_length; lia). cbn [rbind]. rewrite mapM_at, map_arc by (try lia; intros k; apply arc_in; lia). auto.
Qed.
Lemma walk_points_back pts i j : (i < length pts)%nat -> (j < length pts)%nat -> walk_points false pts i j = Ok (rev (parc pts (S j) (S i))).
Proof.
  intros A B. unfold walk_points. rewrite walk_back by (auto; apply arc_length; lia). cbn [rbind]. rewrite mapM_at, map_rev, map_arc by (try lia; intros k I; apply in_rev in I; revert I; apply arc_in; lia). auto.
Qed.
Lemma firstn_snoc {A} (l : list A) k x : nth_error l k = Some x -> firstn (S k) l = firstn k l ++ [x].
Proof. revert k. induction l as [|y l IH]; intros [|k] H; try discriminate; cbn [nth_error firstn app] in *; [congruence|]. f_equal. apply IH. auto. Qed.
Lemma nth_skip {A} (l : list A) a k : nth_error (skipn a l) k = nth_error l (a + k).
Proof. revert a. induction l as [|x l IH]; intros [|a]; cbn [skipn Nat.add nth_error]; auto. destruct k; auto. Qed.
Lemma parc_snoc pts a b x : (a < length pts)%nat -> nth_error pts b = Some x -> parc pts a b ++ [x] = incl_arc pts a b.
Proof.
  intros A B. unfold parc, incl_arc. destruct (Nat.leb_spec a b).
  - rewrite Nat.sub_succ_l by auto. symmetry. apply firstn_snoc. rewrite nth_skip. replace (a + (b - a))%nat with b by lia. auto.
  - rewrite <- app_assoc. f_equal. symmetry. apply firstn_snoc. auto.
Qed.
Lemma parc_cons pts a b x : (b < length pts)%nat -> nth_error pts a = Some x -> x :: parc pts (S a) (S b) = incl_arc pts a b.
Proof.
  intros B A. assert (La : (a < length pts)%nat) by (apply nth_error_Some; congruence). unfold parc, incl_arc. rewrite (skipn_nth _ _ _ A), Nat.add_1_r. cbn [Nat.leb]. destruct (a <=? b)%nat eqn:E; cbn [app].
  - apply Nat.leb_le in E. rewrite (Nat.sub_succ_l a b) by auto. auto.
  - auto.
Qed.
(** Index searches. *)
Lemma last_index_spec {A} (f : A -> bool) l i : (i < length l)%nat -> (forall j p, nth_error l j = Some p -> (f p = true <-> j = i)) -> last_index f l = i.
Proof.
  unfold last_index, enumerate. intros L H. 
  assert (G : forall l k acc, (forall j p, nth_error l j = Some p -> (f p = true <-> (j + k)%nat = i)) -> fold_left (fun acc x => if f (snd x) then fst x else acc) (combine (seq k (length l)) l) acc = if (k <=? i)%nat && (i <? k + length l)%nat then i else acc).
  { clear. induction l as [|x l IH]; intros k acc H; cbn [length seq combine fold_left fst snd].
    - destruct (Nat.leb_spec k i); cbn [andb]; auto. destruct (Nat.ltb_spec i (k + 0)%nat); auto; lia.
    - rewrite IH; [|intros j p E; rewrite (H (S j) p E); lia]. pose proof (H 0%nat x eq_refl) as Hx. cbn [Nat.add] in Hx. destruct (f x).
      + assert (k = i) by tauto. subst. rewrite Nat.leb_refl. cbn [andb]. destruct (Nat.leb_spec (S i) i); [lia|]. cbn [andb]. destruct (Nat.ltb_spec i (i + S (length l))); auto; lia.
      + assert (k <> i) by (intros E; destruct Hx as (_ & Hx); specialize (Hx E); discriminate). replace (S k + length l)%nat with (k + S (length l))%nat by lia. destruct (Nat.leb_spec (S k) i), (Nat.leb_spec k i); try lia; auto. }
  rewrite (G l 0%nat 0%nat) by (intros j p E; rewrite Nat.add_0_r; auto). cbn [Nat.leb Nat.add andb]. rewrite (proj2 (Nat.ltb_lt _ _) L). auto.
Qed.
(** Cutting. *)
Lemma rot_refl {A} (l : list A) : rotation_of l l.
Proof. exists [], l. rewrite app_nil_r. auto. Qed.
Lemma rot_sym {A} (l l' : list A) : rotation_of l l' -> rotation_of l' l.
Proof. intros (a & b & -> & ->). exists b, a. auto. Qed.
Lemma rot_app {A} (a b : list A) : rotation_of (a ++ b) (b ++ a).
Proof. exists a, b. auto. Qed.
Lemma app_cases {A} (a b c d : list A) : a ++ b = c ++ d -> exists m, (a = c ++ m /\ d = m ++ b) \/ (c = a ++ m /\ b = m ++ d).
Proof.
  revert c. induction a as [|x a IH]; intros c H; cbn [app] in H; [exists c; right; auto|]. destruct c as [|y c]; cbn [app] in H.
  - exists (x :: a). left. auto.
  - injection H as -> H. destruct (IH c H) as (m & [(-> & E)|(-> & E)]); exists m; [left|right]; auto.
Qed.
Lemma rot_trans {A} (l l' l'' : list A) : rotation_of l l' -> rotation_of l' l'' -> rotation_of l l''.
Proof.
  intros (a & b & -> & ->) (c & d & E & ->). destruct (app_cases _ _ _ _ E) as (m & [(-> & ->)|(-> & ->)]).
  - exists (a ++ c), m. rewrite <- !app_assoc. auto.
  - exists m, (d ++ b). rewrite <- !app_assoc. auto.
Qed.
Lemma open_join {A} (a b : list A) x : open_pairs (a ++ x :: b) = open_pairs (a ++ [x]) ++ open_pairs (x :: b).
Proof.
  destruct b as [|y b]; [cbn [open_pairs combine]; rewrite app_nil_r; auto|]. replace (a ++ x :: y :: b) with ((a ++ [x]) ++ y :: b) by (rewrite <- app_assoc; auto). rewrite open_pairs_app. auto.
Qed.
Lemma chain_open l : chain_edges l = open_pairs l.
Proof. destruct l; auto. Qed.
Lemma vtotal_app a b : vtotal (a ++ b) = vadd (vtotal a) (vtotal b).
Proof. induction a as [|x a IH]; [rewrite vadd_0_l; auto|]. unfold vtotal in *. cbn [app fold_right]. rewrite IH, vadd_assoc. auto. Qed.
Lemma cut_edges outline chain p1 p2 : cut outline chain p1 p2 ->
  Permutation (cyc_pairs p1 ++ cyc_pairs p2) (cyc_pairs outline ++ chain_edges chain ++ map (fun e => (snd e, fst e)) (chain_edges chain)).
Proof.
  intros (x & A & y & B & M & R & -> & -> & ->). rewrite chain_open. pose proof (Permutation_sym (cyc_pairs_rotation _ _ R)) as P. eapply Permutation_trans; [|apply Permutation_app_tail, P].
  rewrite !cyc_open. cbn [app]. rewrite <- !app_assoc. cbn [app].
  change (x :: A ++ y :: rev M ++ [x]) with ((x :: A) ++ y :: rev M ++ [x]). change (x :: M ++ y :: B ++ [x]) with ((x :: M) ++ y :: B ++ [x]). change (x :: A ++ y :: B ++ [x]) with ((x :: A) ++ y :: B ++ [x]).
  rewrite (open_join (x :: A) (rev M ++ [x]) y), (open_join (x :: M) (B ++ [x]) y), (open_join (x :: A) (B ++ [x]) y).
  assert (E : open_pairs (y :: rev M ++ [x]) = rev (map swap (open_pairs (x :: M ++ [y])))) by (rewrite <- open_pairs_rev; cbn [rev]; rewrite rev_app_distr; auto). rewrite E.
  change (x :: M ++ [y]) with ((x :: M) ++ [y]). change (fun e : vec * vec => (snd e, fst e)) with (@swap vec).
  rewrite <- (Permutation_rev (map swap (open_pairs ((x :: M) ++ [y])))). set (a := open_pairs ((x :: A) ++ [y])). set (b := open_pairs (y :: B ++ [x])). set (m := open_pairs ((x :: M) ++ [y])). set (m' := map swap m).
  rewrite <- !app_assoc. apply Permutation_app_head. rewrite (app_assoc m'), (app_assoc b). rewrite (Permutation_app_comm (m' ++ m) b). rewrite <- !app_assoc. apply Permutation_app_head. apply Permutation_app_comm.
Qed.
Lemma cut_area outline chain p1 p2 : cut outline chain p1 p2 -> vadd (vector_area2 p1) (vector_area2 p2) = vector_area2 outline.
Proof.
  intros C. pose proof (cut_edges _ _ _ _ C) as P. apply (Permutation_map (fun e => cross (fst e) (snd e))) in P. apply vtotal_perm in P. rewrite !map_app, !vtotal_app in P. unfold vector_area2. fold (vtotal (map (fun e => cross (fst e) (snd e)) (cyc_pairs p1))) (vtotal (map (fun e => cross (fst e) (snd e)) (cyc_pairs p2))) (vtotal (map (fun e => cross (fst e) (snd e)) (cyc_pairs outline))). rewrite P.
  assert (Z : forall l : list (vec * vec), vadd (vtotal (map (fun e => cross (fst e) (snd e)) l)) (vtotal (map (fun e => cross (fst e) (snd e)) (map (fun e => (snd e, fst e)) l))) = vzero).
  { induction l as [|(a, b) l IH]; [apply vadd_0_l|]. unfold vtotal in *. cbn [map fold_right fst snd]. revert IH. generalize (fold_right vadd vzero (map (fun e => cross (fst e) (snd e)) l)). generalize (fold_right vadd vzero (map (fun e => cross (fst e) (snd e)) (map (fun e : vec * vec => (snd e, fst e)) l))). intros u w IH. dvec a; dvec b; dvec u; dvec w. revert IH. vunf. intros IH. injection IH as I1 I2 I3. f_equal; lra. }
  rewrite Z. apply vadd_0_r.
Qed.
