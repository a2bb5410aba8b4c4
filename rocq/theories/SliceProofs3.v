(** The parts of a sliced polygon: the four cases. *)
From Coq Require Import Reals List Bool Arith Lia Lra Permutation.
From Verif Require Import Prelude VecModel VecProofs GeomModel GeomSpec GeomProofs1 GeomProofs2 GeomProofs3 GeomProofs4 TriModel PolyModel PolySpec PolyProofs1 SliceModel SliceSpec SliceProofs1 SliceProofs2.
Import ListNotations.
Local Open Scope R_scope.

Lemma find_index pts i p : told_apart pts -> NoDup pts -> nth_error pts i = Some p -> last_index (fun q => points_equal q p) pts = i.
Proof.
  intros T N E. apply last_index_spec; [apply nth_error_Some; congruence|]. intros j q Eq. split.
  - intros H. assert (q = p) by (apply T; [apply nth_error_In in Eq; auto|apply nth_error_In in E; auto|auto]). subst q. rewrite NoDup_nth_error in N. apply N; [apply nth_error_Some; congruence|congruence].
  - intros ->. rewrite E in Eq. injection Eq as ->. apply points_equal_refl.
Qed.
Lemma at_ok {A} (l : list A) i x : nth_error l i = Some x -> at_index l i = Ok x.
Proof. unfold at_index. intros ->. auto. Qed.
Lemma reverse_cut (x y : vec) A B : reverse_loop (x :: A ++ y :: B) (x :: rev B ++ y :: rev A).
Proof. unfold reverse_loop. cbn [rev]. rewrite rev_app_distr. cbn [rev]. rewrite <- !app_assoc. cbn [app]. replace (rev B ++ y :: rev A ++ [x]) with ((rev B ++ y :: rev A) ++ [x]) by (norm_app; auto). exact (rot_app _ [x]). Qed.

Lemma case1_spec pts x M y n1 n2 : told_apart pts -> NoDup pts -> n1 <> n2 -> (n1 < length pts)%nat -> (n2 < length pts)%nat ->
  exists q1 p1 p2, slice_case1 (cyc_pairs pts) pts (x :: M ++ [y]) (AtEdge n1) (AtEdge n2) = Ok (q1, p2) /\
    cut (with_ends 0 (AtEdge n1) x (AtEdge n2) y pts) (x :: M ++ [y]) p1 p2 /\ reverse_loop p1 q1.
Proof.
  intros T N Ne L1 L2. set (n := length pts). assert (Hn : (0 < n)%nat) by (unfold n; lia). set (m1 := ((n1 + 1) mod n)%nat). set (m2 := ((n2 + 1) mod n)%nat).
  assert (Lm1 : (m1 < n)%nat) by (apply Nat.mod_upper_bound; lia). assert (Lm2 : (m2 < n)%nat) by (apply Nat.mod_upper_bound; lia).
  assert (X : forall i, (i < n)%nat -> exists p, nth_error pts i = Some p). { intros i L. destruct (nth_error pts i) eqn:E; eauto. apply nth_error_None in E. unfold n in L. lia. }
  destruct (X n1 L1) as (a1 & E1), (X n2 L2) as (a2 & E2), (X m1 Lm1) as (b1 & F1), (X m2 Lm2) as (b2 & F2).
  eexists _, (x :: incl_arc pts m1 n2 ++ y :: rev M), (x :: M ++ y :: incl_arc pts m2 n1). split; [|split].
  - unfold slice_case1. rewrite (at_ok _ _ _ (cyc_pairs_nth _ _ _ _ E1 F1)), (at_ok _ _ _ (cyc_pairs_nth _ _ _ _ E2 F2)). cbn [rbind fst snd]. rewrite (find_index _ _ _ T N E1), (find_index _ _ _ T N E2), (find_index _ _ _ T N F1), (find_index _ _ _ T N F2).
    rewrite walk_points_back by auto. cbn [rbind]. rewrite (at_ok _ _ _ F1). cbn [rbind]. rewrite walk_points_fwd by auto. cbn [rbind]. rewrite (at_ok _ _ _ E1). cbn [rbind]. rewrite (parc_snoc pts m2 n1 a1 Lm2 E1). norm_app. reflexivity.
  - exists x, (incl_arc pts m1 n2), y, (incl_arc pts m2 n1), M. split; auto. apply edges_outline; auto.
  - change (rev (parc pts (S m1) (S n2)) ++ [b1]) with (rev (b1 :: parc pts (S m1) (S n2))). rewrite (parc_cons pts m1 n2 b1 L2 F1). norm_app. pose proof (reverse_cut x y (incl_arc pts m1 n2) (rev M)) as H. rewrite rev_involutive in H. exact H.
Qed.
Lemma case3_spec pts x M y v k c l0 l1 : told_apart pts -> NoDup pts -> known_end pts (AtVertex v) x -> (k < length pts)%nat ->
  (l0 = AtVertex v /\ l1 = AtEdge k /\ c = x :: M ++ [y]) \/ (l0 = AtEdge k /\ l1 = AtVertex v /\ c = rev (x :: M ++ [y])) ->
  exists q1 p1 p2, slice_case3 (cyc_pairs pts) pts c l0 l1 k = Ok (q1, p2) /\
    cut (with_ends 0 (AtVertex v) x (AtEdge k) y pts) (x :: M ++ [y]) p1 p2 /\ reverse_loop p1 q1.
Proof.
  intros T N (Lv & K) Lk Hc. set (n := length pts). assert (Hn : (0 < n)%nat) by (unfold n; lia). set (m := ((k + 1) mod n)%nat). assert (Lm : (m < n)%nat) by (apply Nat.mod_upper_bound; lia).
  assert (X : forall i, (i < n)%nat -> exists p, nth_error pts i = Some p). { intros i L. destruct (nth_error pts i) eqn:E; eauto. apply nth_error_None in E. unfold n in L. lia. }
  destruct (X k Lk) as (a & E), (X m Lm) as (b & F).
  eexists _, (x :: parc pts (S v) (S k) ++ y :: rev M), (x :: M ++ y :: parc pts m v). split; [|split].
  - unfold slice_case3. assert (Q : (match l0, l1 with AtVertex _, AtEdge _ => Ok c | AtEdge _, AtVertex _ => Ok (rev c) | _, _ => Err AssertionError end) = Ok (x :: M ++ [y])).
    { destruct Hc as [(-> & -> & ->)|(-> & -> & ->)]; auto. rewrite rev_involutive. auto. }
    rewrite Q. cbn [rbind]. rewrite (at_ok _ _ _ (cyc_pairs_nth _ _ _ _ E F)). cbn [rbind]. rewrite (at_ok (x :: M ++ [y]) 0 x eq_refl). cbn [rbind fst snd]. rewrite (find_index _ _ _ T N E), (find_index _ _ _ T N F), (last_index_spec (fun p => points_equal p x) pts v Lv K).
    rewrite walk_points_back by auto. cbn [rbind]. rewrite walk_points_fwd by auto. cbn [rbind]. norm_app. reflexivity.
  - exists x, (parc pts (S v) (S k)), y, (parc pts m v), M. split; auto. apply vertex_edge_outline; auto.
  - pose proof (reverse_cut x y (parc pts (S v) (S k)) (rev M)) as H. rewrite rev_involutive in H. exact H.
Qed.
Lemma case4_spec pts x M y i j v : told_apart pts -> NoDup pts -> known_end pts (AtVertex i) x -> known_end pts (AtVertex j) y -> i <> j -> nth_error pts i = Some v ->
  exists p1 q2 p2, slice_case4 pts (x :: M ++ [y]) = Ok (p1, q2) /\
    cut (with_ends 0 (AtVertex i) v (AtVertex j) y pts) (v :: M ++ [y]) p1 p2 /\ reverse_loop p2 q2.
Proof.
  intros T N (Li & Ki) (Lj & Kj) Ne Ev. destruct (vertices_outline pts i j v y Ne Ev Lj) as (A & B & EA & EB & Ro).
  eexists (v :: A ++ y :: rev M), _, (v :: M ++ y :: B). split; [|split].
  - unfold slice_case4. replace (last (x :: M ++ [y]) x) with y by (change (x :: M ++ [y]) with ((x :: M) ++ [y]); rewrite last_last; auto). rewrite (last_index_spec (fun p => points_equal p x) pts i Li Ki), (last_index_spec (fun p => points_equal p y) pts j Lj Kj).
    rewrite walk_points_fwd by auto. cbn [rbind]. rewrite walk_points_back by auto. cbn [rbind]. rewrite EA, EB, !rev_app_distr. norm_app. reflexivity.
  - exists v, A, y, B, M. auto.
  - norm_app. cbn [rev app]. apply reverse_cut.
Qed.

(** Building exact ends into the outline keeps its vector area. *)
Definition insert_at (k : nat) (x : vec) (l : list vec) : list vec := firstn (S k) l ++ x :: skipn (S k) l.
Lemma area_on_line a b x : cross (vsub x a) (vsub b a) = vzero -> vadd (cross a x) (cross x b) = cross a b.
Proof. intros H. dvec a. dvec b. dvec x. unfold vadd, cross, vsub, vzero in *. cbn [vx vy vz] in *. injection H as H1 H2 H3. f_equal; lra. Qed.
Lemma area_insert_after a x r b t : r ++ [a] = b :: t -> cross (vsub x a) (vsub b a) = vzero -> vector_area2 (a :: x :: r) = vector_area2 (a :: r).
Proof.
  intros E H. unfold vector_area2. rewrite !cyc_open. cbn [app]. rewrite E. unfold open_pairs. cbn [tl combine map fold_right fst snd]. rewrite <- (area_on_line a b x H). rewrite vadd_assoc. auto.
Qed.
Lemma insert_area l k x a b : nth_error (cyc_pairs l) k = Some (a, b) -> cross (vsub x a) (vsub b a) = vzero -> vector_area2 (insert_at k x l) = vector_area2 l.
Proof.
  intros E H. assert (Lk : (k < length l)%nat) by (rewrite <- cyc_pairs_length; apply nth_error_Some; congruence). destruct (split1 l k Lk) as (P & a' & S & -> & LP).
  assert (Ea : nth_error (P ++ a' :: S) k = Some a') by (apply at_mid; auto). rewrite app_length in Lk. cbn [length] in Lk. set (n := length (P ++ a' :: S)). assert (Ln : (n = length P + 1 + length S)%nat) by (unfold n; rewrite app_length; cbn [length]; lia).
  assert (Lb : ((k + 1) mod n < n)%nat) by (apply Nat.mod_upper_bound; lia). destruct (nth_error (P ++ a' :: S) ((k + 1) mod n)) as [b'|] eqn:Eb; [|apply nth_error_None in Eb; unfold n in *; lia].
  rewrite (cyc_pairs_nth _ _ _ _ Ea Eb) in E. injection E as -> ->.
  unfold insert_at. replace (P ++ a :: S) with ((P ++ [a]) ++ S) by (norm_app; auto). rewrite firstn_exact, skipn_exact by (rewrite app_length; cbn [length]; lia). norm_app.
  rewrite (vector_area2_rot _ _ (rot_app P (a :: x :: S))), (vector_area2_rot _ _ (rot_app P (a :: S))). cbn [app].
  assert (Q : exists t, (S ++ P) ++ [a] = b :: t).
  { destruct S as [|s S'].
    - assert (E0 : ((k + 1) mod n = 0)%nat) by (cbn [length] in Ln; replace (k + 1)%nat with n by lia; apply Nat.mod_same; lia). rewrite E0 in Eb. cbn [app]. destruct P as [|p P']; cbn [app nth_error] in *; injection Eb as ->; eauto.
    - cbn [length] in Ln. rewrite Nat.mod_small in Eb by lia. replace (P ++ a :: s :: S') with ((P ++ [a]) ++ s :: S') in Eb by (norm_app; auto). rewrite (at_mid (P ++ [a]) S' s) in Eb by (rewrite app_length; cbn [length]; lia). injection Eb as ->. cbn [app]. eauto. }
  destruct Q as (t & Q). apply (area_insert_after a x (S ++ P) b t Q H).
Qed.
Lemma cyc_ext {A} (l l' : list A) k e : nth_error (cyc_pairs l) k = Some e -> (S k < length l)%nat -> nth_error l' k = nth_error l k -> nth_error l' (S k) = nth_error l (S k) -> nth_error (cyc_pairs l') k = Some e.
Proof.
  intros E L E0 E1. destruct (nth_error l k) as [p|] eqn:F0; [|apply nth_error_None in F0; lia]. destruct (nth_error l (S k)) as [q|] eqn:F1; [|apply nth_error_None in F1; lia].
  assert (L' : (S k < length l')%nat) by (apply nth_error_Some; congruence). rewrite (cyc_pairs_nth l k p q F0) in E by (rewrite Nat.mod_small by lia; replace (k + 1)%nat with (S k) by lia; auto). injection E as <-.
  apply cyc_pairs_nth; auto. rewrite Nat.mod_small by lia. replace (k + 1)%nat with (S k) by lia. auto.
Qed.
Lemma with_exact_l v x l2 y pts : forall i, (forall p, nth_error pts (v - i) = Some p -> (i <= v)%nat -> p = x) -> (forall j, l2 <> AtVertex j \/ j <> v) ->
  with_ends i (AtVertex v) x l2 y pts = with_ends i Interior x l2 y pts.
Proof.
  induction pts as [|p r IH]; intros i H N; cbn [with_ends]; auto. f_equal; [|cbn [end_at_edge app]; f_equal; apply IH; auto].
  - unfold end_at_vertex at 1 3. destruct (Nat.eqb_spec i v) as [<-|]; auto. rewrite Nat.sub_diag in H. specialize (H p eq_refl (le_n _)). subst. unfold end_at_vertex. destruct l2; auto. destruct (Nat.eqb_spec i i0); auto. subst. destruct (N i0); congruence.
  - intros q E L. apply H; [|lia]. replace (v - i)%nat with (S (v - S i)) by lia. auto.
Qed.
Lemma with_none i x y pts : with_ends i Interior x Interior y pts = pts.
Proof. apply with_plain. intros j [H|H]; discriminate. Qed.
Lemma with_exact2 v x y pts i : (forall p, nth_error pts (v - i) = Some p -> (i <= v)%nat -> p = y) -> with_ends i Interior x (AtVertex v) y pts = pts.
Proof. intros H. rewrite with_swap by discriminate. rewrite (with_exact_l v y Interior x pts i H) by (intros; left; discriminate). apply with_none. Qed.
Lemma with_edge k x y pts : (k < length pts)%nat -> with_ends 0 Interior x (AtEdge k) y pts = insert_at k y pts.
Proof.
  intros L. destruct (split1 pts k L) as (P & a & S & -> & LP). rewrite with_app. rewrite (with_plain _ _ _ _ P) by (cbn [loc_index]; intros j [H|H]; [discriminate|injection H as <-; lia]). cbn [with_ends]. unfold end_at_vertex, end_at_edge. cbn [Nat.add app]. destruct (Nat.eqb_spec (length P) k); [|lia]. rewrite (with_plain _ _ _ _ S) by (cbn [loc_index]; intros j [H|H]; [discriminate|injection H as <-; lia]).
  unfold insert_at. replace (P ++ a :: S) with ((P ++ [a]) ++ S) by (norm_app; auto). rewrite firstn_exact, skipn_exact by (rewrite app_length; cbn [length]; lia). norm_app. auto.
Qed.
Lemma with_edges n1 n2 x y pts : (n1 < n2)%nat -> (n2 < length pts)%nat -> with_ends 0 (AtEdge n1) x (AtEdge n2) y pts = insert_at n1 x (insert_at n2 y pts).
Proof.
  intros L1 L2. destruct (split2 pts n1 n2 L1 L2) as (P & a & Q & c & S & -> & LP & LQ). rewrite with_app. rewrite (with_plain _ _ _ _ P) by (cbn [loc_index]; intros j [H|H]; injection H as <-; lia). cbn [with_ends]. unfold end_at_vertex, end_at_edge. destruct (Nat.eqb_spec (0 + length P) n1); [|lia]. destruct (Nat.eqb_spec (0 + length P) n2); [lia|]. norm_app.
  rewrite with_app. rewrite (with_plain _ _ _ _ Q) by (cbn [loc_index]; intros j [H|H]; injection H as <-; lia). cbn [with_ends]. unfold end_at_vertex, end_at_edge. destruct (Nat.eqb_spec (Datatypes.S (0 + length P) + length Q) n1); [lia|]. destruct (Nat.eqb_spec (Datatypes.S (0 + length P) + length Q) n2); [|lia]. cbn [app]. rewrite (with_plain _ _ _ _ S) by (cbn [loc_index]; intros j [H|H]; injection H as <-; lia).
  unfold insert_at. replace (P ++ a :: Q ++ c :: S) with ((P ++ a :: Q ++ [c]) ++ S) by (norm_app; auto). rewrite (firstn_exact (P ++ a :: Q ++ [c])), (skipn_exact (P ++ a :: Q ++ [c])) by (rewrite app_length; cbn [length]; rewrite app_length; cbn [length]; lia).
  replace ((P ++ a :: Q ++ [c]) ++ y :: S) with ((P ++ [a]) ++ Q ++ c :: y :: S) by (norm_app; auto). rewrite firstn_exact, skipn_exact by (rewrite app_length; cbn [length]; lia). norm_app. auto.
Qed.
Lemma insert_before k i y l : (i <= k)%nat -> (k < length l)%nat -> nth_error (insert_at k y l) i = nth_error l i.
Proof. intros L Lk. unfold insert_at. rewrite nth_error_app1 by (rewrite firstn_length_le; lia). rewrite <- (firstn_skipn (S k) l) at 2. rewrite nth_error_app1; auto. rewrite firstn_length_le; lia. Qed.
Lemma edges_area n1 n2 x y pts : (n1 < n2)%nat -> exact_end pts (AtEdge n1) x -> exact_end pts (AtEdge n2) y -> vector_area2 (with_ends 0 (AtEdge n1) x (AtEdge n2) y pts) = vector_area2 pts.
Proof.
  intros L (a & b & E1 & H1) (c & d & E2 & H2). assert (L2 : (n2 < length pts)%nat) by (rewrite <- cyc_pairs_length; apply nth_error_Some; congruence). rewrite with_edges by auto. rewrite (insert_area _ n1 x a b); [apply (insert_area _ n2 y c d); auto| |auto].
  apply (cyc_ext pts); auto; [lia| |]; apply insert_before; auto; lia.
Qed.
Lemma ends_area l1 l2 x y pts : l1 <> l2 -> exact_end pts l1 x -> exact_end pts l2 y -> vector_area2 (with_ends 0 l1 x l2 y pts) = vector_area2 pts.
Proof.
  assert (VX : forall v z, nth_error pts v = Some z -> forall p, nth_error pts (v - 0) = Some p -> (0 <= v)%nat -> p = z) by (intros v z E p; rewrite Nat.sub_0_r; congruence).
  assert (VE : forall v k x y, exact_end pts (AtVertex v) x -> exact_end pts (AtEdge k) y -> vector_area2 (with_ends 0 (AtVertex v) x (AtEdge k) y pts) = vector_area2 pts).
  { intros v k x0 y0 E (a & b & E2 & H2). rewrite with_exact_l; [|apply (VX v x0 E)|intros; left; discriminate]. rewrite with_edge by (rewrite <- cyc_pairs_length; apply nth_error_Some; congruence). apply (insert_area _ k y0 a b); auto. }
  intros N E1 E2. destruct l1 as [| |i|i]; try contradiction; destruct l2 as [| |j|j]; try contradiction.
  - rewrite with_exact_l; [|apply (VX i x E1)|intros k; destruct (Nat.eq_dec k i) as [->|]; [left; congruence|right; auto]]. rewrite with_exact2; auto. apply (VX j y E2).
  - auto.
  - rewrite with_swap by auto. auto.
  - destruct (Nat.lt_trichotomy i j) as [L|[->|L]]; [apply edges_area; auto|congruence|rewrite with_swap by auto; apply edges_area; auto].
Qed.
