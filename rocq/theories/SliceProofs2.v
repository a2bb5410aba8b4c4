(** The parts of a sliced polygon: the end points at edges and vertices. *)
From Coq Require Import Reals List Bool Arith Lia Lra Permutation.
From Verif Require Import Prelude VecModel VecProofs GeomModel GeomSpec GeomProofs1 GeomProofs2 GeomProofs3 GeomProofs4 TriModel PolyModel PolySpec SliceModel SliceSpec SliceProofs1.
Import ListNotations.
Local Open Scope R_scope.

Definition loc_index (l : location) : option nat := match l with AtVertex i | AtEdge i => Some i | _ => None end.
Lemma with_app l1 x l2 y a b : forall i, with_ends i l1 x l2 y (a ++ b) = with_ends i l1 x l2 y a ++ with_ends (i + length a) l1 x l2 y b.
Proof.
  induction a as [|p a IH]; intros i; cbn [app length with_ends]; [rewrite Nat.add_0_r; auto|]. rewrite IH. replace (S i + length a)%nat with (i + S (length a))%nat by lia. rewrite <- !app_assoc. auto.
Qed.
Lemma with_plain l1 x l2 y a : forall i, (forall j, loc_index l1 = Some j \/ loc_index l2 = Some j -> (j < i \/ i + length a <= j)%nat) -> with_ends i l1 x l2 y a = a.
Proof.
  induction a as [|p a IH]; intros i H; cbn [with_ends length] in *; auto. assert (E : forall l z d, (l = l1 \/ l = l2) -> end_at_vertex i l z d = d /\ end_at_edge i l z = []).
  { intros l z d Hl. unfold end_at_vertex, end_at_edge. destruct l as [| |k|k]; auto; destruct (Nat.eqb_spec i k) as [<-|]; auto; exfalso; destruct (H i) as [?|?]; try lia; destruct Hl as [<-|<-]; auto. }
  rewrite (proj1 (E l1 x _ (or_introl eq_refl))), (proj1 (E l2 y p (or_intror eq_refl))), (proj2 (E l1 x p (or_introl eq_refl))), (proj2 (E l2 y p (or_intror eq_refl))). cbn [app]. f_equal. apply IH. intros j Hj. destruct (H j Hj); lia.
Qed.
Lemma skipn_exact {A} (a b : list A) k : length a = k -> skipn k (a ++ b) = b.
Proof. intros <-. rewrite skipn_app, skipn_all, Nat.sub_diag. auto. Qed.
Lemma firstn_exact {A} (a b : list A) k : length a = k -> firstn k (a ++ b) = a.
Proof. intros <-. rewrite firstn_app, firstn_all, Nat.sub_diag. cbn [firstn]. apply app_nil_r. Qed.
Lemma split1 {A} (l : list A) i : (i < length l)%nat -> exists P a S, l = P ++ a :: S /\ length P = i.
Proof. intros L. destruct (nth_error l i) as [x|] eqn:E; [|apply nth_error_None in E; lia]. apply nth_error_split in E. destruct E as (P & S & E & H). eauto. Qed.
Lemma split2 {A} (l : list A) i j : (i < j)%nat -> (j < length l)%nat -> exists P a Q c S, l = P ++ a :: Q ++ c :: S /\ length P = i /\ (length P + 1 + length Q = j)%nat.
Proof.
  intros Lij Lj. destruct (split1 l i) as (P & a & T & -> & LP); [lia|]. rewrite app_length in Lj. cbn [length] in Lj. destruct (split1 T (j - i - 1)) as (Q & c & S & -> & LQ); [lia|]. exists P, a, Q, c, S. split; auto. split; auto. lia.
Qed.
Lemma at_mid {A} (P S : list A) a i : length P = i -> nth_error (P ++ a :: S) i = Some a.
Proof. intros <-. rewrite nth_error_app2, Nat.sub_diag by lia. auto. Qed.
Ltac norm_app := rewrite <- ?app_assoc; cbn [app]; rewrite <- ?app_assoc; cbn [app].
(** Both ends at edges. *)
Lemma edges_outline_lt pts n1 n2 x y : (n1 < n2)%nat -> (n2 < length pts)%nat -> let n := length pts in
  rotation_of (with_ends 0 (AtEdge n1) x (AtEdge n2) y pts) (x :: incl_arc pts ((n1 + 1) mod n) n2 ++ y :: incl_arc pts ((n2 + 1) mod n) n1).
Proof.
  intros L1 L2 n. destruct (split2 pts n1 n2 L1 L2) as (P & a & Q & c & S & E & LP & LQ). assert (Ln : (n = length P + 1 + length Q + 1 + length S)%nat) by (unfold n; rewrite E, app_length; cbn [length]; rewrite app_length; cbn [length]; lia).
  assert (W : with_ends 0 (AtEdge n1) x (AtEdge n2) y pts = (P ++ [a]) ++ x :: Q ++ c :: y :: S).
  { rewrite E, with_app. rewrite (with_plain _ _ _ _ P) by (cbn [loc_index]; intros j [H|H]; injection H as <-; lia). cbn [with_ends]. unfold end_at_vertex, end_at_edge. destruct (Nat.eqb_spec (0 + length P) n1); [|lia]. destruct (Nat.eqb_spec (0 + length P) n2); [lia|]. norm_app. f_equal. f_equal. f_equal.
    rewrite with_app. rewrite (with_plain _ _ _ _ Q) by (cbn [loc_index]; intros j [H|H]; injection H as <-; lia). cbn [with_ends]. unfold end_at_vertex, end_at_edge. destruct (Nat.eqb_spec (Datatypes.S (0 + length P) + length Q) n1); [lia|]. destruct (Nat.eqb_spec (Datatypes.S (0 + length P) + length Q) n2); [|lia]. cbn [app]. rewrite (with_plain _ _ _ _ S) by (cbn [loc_index]; intros j [H|H]; injection H as <-; lia). auto. }
  rewrite W. assert (IA : incl_arc pts ((n1 + 1) mod n) n2 = Q ++ [c]).
  { rewrite Nat.mod_small by lia. unfold incl_arc. rewrite (proj2 (Nat.leb_le _ _)) by lia. rewrite E. replace (P ++ a :: Q ++ c :: S) with ((P ++ [a]) ++ (Q ++ [c]) ++ S) by (norm_app; auto). rewrite skipn_exact by (rewrite app_length; cbn [length]; lia). apply firstn_exact. rewrite app_length; cbn [length]; lia. }
  assert (IB : incl_arc pts ((n2 + 1) mod n) n1 = S ++ P ++ [a]).
  { unfold incl_arc. rewrite E. destruct (Nat.eq_dec (n2 + 1) n) as [En|Nn].
    - rewrite En, Nat.mod_same by lia. cbn [Nat.leb skipn]. destruct S; [|cbn [length] in Ln; lia]. cbn [app]. replace (P ++ a :: Q ++ [c]) with ((P ++ [a]) ++ Q ++ [c]) by (norm_app; auto). apply firstn_exact. rewrite app_length; cbn [length]; lia.
    - rewrite Nat.mod_small by lia. rewrite (proj2 (Nat.leb_gt _ _)) by lia. f_equal.
      + replace (P ++ a :: Q ++ c :: S) with ((P ++ a :: Q ++ [c]) ++ S) by (norm_app; auto). apply skipn_exact. rewrite app_length; cbn [length]; rewrite app_length; cbn [length]; lia.
      + replace (P ++ a :: Q ++ c :: S) with ((P ++ [a]) ++ Q ++ c :: S) by (norm_app; auto). apply firstn_exact. rewrite app_length; cbn [length]; lia. }
  rewrite IA, IB. eapply rot_trans; [apply rot_app|]. norm_app. apply rot_refl.
Qed.
Lemma with_swap l1 x l2 y pts : l1 <> l2 -> forall i, with_ends i l1 x l2 y pts = with_ends i l2 y l1 x pts.
Proof.
  intros N. induction pts as [|p r IH]; intros i; cbn [with_ends]; auto. rewrite IH. rewrite !app_assoc. f_equal; [|f_equal].
  - unfold end_at_vertex. destruct l1, l2; auto. destruct (Nat.eqb_spec i i0), (Nat.eqb_spec i i1); auto. subst. exfalso. apply N. auto.
  - unfold end_at_edge. destruct l1, l2; cbn [app]; rewrite ?app_nil_r; auto. destruct (Nat.eqb_spec i i0), (Nat.eqb_spec i i1); auto. subst. exfalso. apply N. auto.
Qed.
Lemma rot_swap {A} (x y : A) a b : rotation_of (x :: a ++ y :: b) (y :: b ++ x :: a).
Proof. exact (rot_app (x :: a) (y :: b)). Qed.
Lemma edges_outline pts n1 n2 x y : (n1 <> n2)%nat -> (n1 < length pts)%nat -> (n2 < length pts)%nat -> let n := length pts in
  rotation_of (with_ends 0 (AtEdge n1) x (AtEdge n2) y pts) (x :: incl_arc pts ((n1 + 1) mod n) n2 ++ y :: incl_arc pts ((n2 + 1) mod n) n1).
Proof.
  intros N L1 L2 n. destruct (Nat.lt_ge_cases n1 n2) as [L|L]; [apply edges_outline_lt; auto|]. rewrite with_swap by congruence. eapply rot_trans; [apply edges_outline_lt; auto; lia|]. apply rot_swap.
Qed.
(** x at vertex v, y at edge k. *)
Lemma vertex_edge_outline pts v k x y : (v < length pts)%nat -> (k < length pts)%nat -> let n := length pts in
  rotation_of (with_ends 0 (AtVertex v) x (AtEdge k) y pts) (x :: parc pts (S v) (S k) ++ y :: parc pts ((k + 1) mod n) v).
Proof.
  intros L1 L2 n. destruct (Nat.le_gt_cases v k) as [L|L].
  - destruct (split1 pts v L1) as (P & a & T & E & LP). assert (LT : (n = length P + 1 + length T)%nat) by (unfold n; rewrite E, app_length; cbn [length]; lia). set (Q := firstn (k - v) T). set (S := skipn (k - v) T). assert (ET : T = Q ++ S) by (symmetry; apply firstn_skipn). assert (LQ : length Q = (k - v)%nat) by (unfold Q; apply firstn_length_le; lia). clearbody Q S. subst T.
    assert (W : with_ends 0 (AtVertex v) x (AtEdge k) y pts = P ++ x :: Q ++ y :: S).
    { rewrite E, with_app. rewrite (with_plain _ _ _ _ P) by (cbn [loc_index]; intros j [H|H]; injection H as <-; lia). f_equal. cbn [with_ends]. unfold end_at_vertex, end_at_edge. cbn [Nat.add]. destruct (Nat.eqb_spec (length P) v); [|lia]. f_equal. cbn [app]. rewrite app_length in *.
      destruct (Nat.eqb_spec (length P) k) as [Ek|Nk].
      - destruct Q as [|q Q]; [|cbn [length] in LQ; lia]. cbn [app]. rewrite (with_plain _ _ _ _ S) by (cbn [loc_index]; intros j [H|H]; injection H as <-; lia). auto.
      - destruct (exists_last (l := Q)) as (Q' & c & EQ); [intros ->; cbn [length] in LQ; lia|]. rewrite EQ in *. rewrite app_length in LQ. cbn [length app] in LQ. norm_app. rewrite with_app. rewrite (with_plain _ _ _ _ Q') by (cbn [loc_index]; intros j [H|H]; injection H as <-; lia). f_equal. cbn [with_ends]. unfold end_at_vertex, end_at_edge. destruct (Nat.eqb_spec (Datatypes.S (length P) + length Q') v); [lia|]. destruct (Nat.eqb_spec (Datatypes.S (length P) + length Q') k); [|lia]. cbn [app]. rewrite (with_plain _ _ _ _ S) by (cbn [loc_index]; intros j [H|H]; injection H as <-; lia). auto. }
    rewrite W. rewrite app_length in LT. assert (IA : parc pts (Datatypes.S v) (Datatypes.S k) = Q).
    { unfold parc. rewrite (proj2 (Nat.leb_le _ _)) by lia. rewrite E. replace (P ++ a :: Q ++ S) with ((P ++ [a]) ++ Q ++ S) by (norm_app; auto). rewrite skipn_exact by (rewrite app_length; cbn [length]; lia). apply firstn_exact. lia. }
    assert (IB : parc pts ((k + 1) mod n) v = S ++ P).
    { unfold parc. rewrite E. destruct (Nat.eq_dec (k + 1) n) as [En|Nn].
      - rewrite En, Nat.mod_same by lia. cbn [Nat.leb skipn]. destruct S; [|cbn [length] in LT; lia]. rewrite Nat.sub_0_r. cbn [app]. apply firstn_exact. auto.
      - rewrite Nat.mod_small by lia. rewrite (proj2 (Nat.leb_gt _ _)) by lia. f_equal.
        + replace (P ++ a :: Q ++ S) with ((P ++ a :: Q) ++ S) by (norm_app; auto). apply skipn_exact. rewrite app_length; cbn [length]; lia.
        + apply firstn_exact. auto. }
    rewrite IA, IB. eapply rot_trans; [apply rot_app|]. cbn [app]. norm_app. apply rot_refl.
  - destruct (split2 pts k v L L1) as (P & c & Q & a & S & E & LP & LQ). assert (Ln : (n = length P + 1 + length Q + 1 + length S)%nat) by (unfold n; rewrite E, app_length; cbn [length]; rewrite app_length; cbn [length]; lia).
    assert (W : with_ends 0 (AtVertex v) x (AtEdge k) y pts = (P ++ [c]) ++ y :: Q ++ x :: S).
    { rewrite E, with_app. rewrite (with_plain _ _ _ _ P) by (cbn [loc_index]; intros j [H|H]; injection H as <-; lia). cbn [with_ends]. unfold end_at_vertex, end_at_edge. cbn [Nat.add]. destruct (Nat.eqb_spec (length P) v); [lia|]. destruct (Nat.eqb_spec (length P) k); [|lia]. norm_app. f_equal. f_equal. f_equal.
      rewrite with_app. rewrite (with_plain _ _ _ _ Q) by (cbn [loc_index]; intros j [H|H]; injection H as <-; lia). f_equal. cbn [with_ends]. unfold end_at_vertex, end_at_edge. destruct (Nat.eqb_spec (Datatypes.S (length P) + length Q) v); [|lia]. destruct (Nat.eqb_spec (Datatypes.S (length P) + length Q) k); [lia|]. cbn [app]. rewrite (with_plain _ _ _ _ S) by (cbn [loc_index]; intros j [H|H]; injection H as <-; lia). auto. }
    rewrite W. assert (IA : parc pts (Datatypes.S v) (Datatypes.S k) = S ++ P ++ [c]).
    { unfold parc. rewrite (proj2 (Nat.leb_gt _ _)) by lia. rewrite E. f_equal.
      - replace (P ++ c :: Q ++ a :: S) with ((P ++ c :: Q ++ [a]) ++ S) by (norm_app; auto). apply skipn_exact. rewrite app_length; cbn [length]; rewrite app_length; cbn [length]; lia.
      - replace (P ++ c :: Q ++ a :: S) with ((P ++ [c]) ++ Q ++ a :: S) by (norm_app; auto). apply firstn_exact. rewrite app_length; cbn [length]; lia. }
    assert (IB : parc pts ((k + 1) mod n) v = Q).
    { unfold parc. rewrite Nat.mod_small by lia. rewrite (proj2 (Nat.leb_le _ _)) by lia. rewrite E. replace (P ++ c :: Q ++ a :: S) with ((P ++ [c]) ++ Q ++ a :: S) by (norm_app; auto). rewrite skipn_exact by (rewrite app_length; cbn [length]; lia). apply firstn_exact. lia. }
    rewrite IA, IB. replace ((P ++ [c]) ++ y :: Q ++ x :: S) with ((P ++ c :: y :: Q) ++ x :: S) by (norm_app; auto). eapply rot_trans; [apply rot_app|]. norm_app. apply rot_refl.
Qed.
(** Both ends at vertices; the first one is left as it is. *)
Lemma vertices_outline pts i j x y : (i <> j)%nat -> nth_error pts i = Some x -> (j < length pts)%nat ->
  exists A B, parc pts i j = x :: A /\ parc pts (S j) (S i) = B ++ [x] /\ rotation_of (with_ends 0 (AtVertex i) x (AtVertex j) y pts) (x :: A ++ y :: B).
Proof.
  intros N Ex Lj. assert (Li : (i < length pts)%nat) by (apply nth_error_Some; congruence). destruct (Nat.lt_ge_cases i j) as [L|L].
  - destruct (split2 pts i j L Lj) as (P & a & Q & c & S & E & LP & LQ). rewrite E, at_mid in Ex by auto. injection Ex as ->. exists Q, (S ++ P).
    assert (W : with_ends 0 (AtVertex i) x (AtVertex j) y pts = P ++ x :: Q ++ y :: S).
    { rewrite E, with_app. rewrite (with_plain _ _ _ _ P) by (cbn [loc_index]; intros k [H|H]; injection H as <-; lia). cbn [with_ends]. unfold end_at_vertex, end_at_edge. cbn [Nat.add]. destruct (Nat.eqb_spec (length P) i); [|lia]. cbn [app]. f_equal. f_equal.
      rewrite with_app. rewrite (with_plain _ _ _ _ Q) by (cbn [loc_index]; intros k [H|H]; injection H as <-; lia). f_equal. cbn [with_ends]. unfold end_at_vertex, end_at_edge. destruct (Nat.eqb_spec (Datatypes.S (length P) + length Q) i); [lia|]. destruct (Nat.eqb_spec (Datatypes.S (length P) + length Q) j); [|lia]. cbn [app]. rewrite (with_plain _ _ _ _ S) by (cbn [loc_index]; intros k [H|H]; injection H as <-; lia). auto. }
    rewrite W, E. unfold parc. rewrite (proj2 (Nat.leb_le i j)) by lia. rewrite (proj2 (Nat.leb_gt (Datatypes.S j) (Datatypes.S i))) by lia. split; [|split].
    + rewrite skipn_exact by auto. change (x :: Q ++ c :: S) with ((x :: Q) ++ c :: S). apply firstn_exact. cbn [length]. lia.
    + rewrite <- app_assoc. f_equal.
      * replace (P ++ x :: Q ++ c :: S) with ((P ++ x :: Q ++ [c]) ++ S) by (norm_app; auto). apply skipn_exact. rewrite app_length; cbn [length]; rewrite app_length; cbn [length]; lia.
      * replace (P ++ x :: Q ++ c :: S) with ((P ++ [x]) ++ Q ++ c :: S) by (norm_app; auto). apply firstn_exact. rewrite app_length; cbn [length]; lia.
    + eapply rot_trans; [apply rot_app|]. norm_app. apply rot_refl.
  - destruct (split2 pts j i) as (P & c & Q & a & S & E & LP & LQ); [lia|auto|]. assert (Ea : nth_error pts i = Some a). { rewrite E. replace (P ++ c :: Q ++ a :: S) with ((P ++ c :: Q) ++ a :: S) by (norm_app; auto). apply at_mid. rewrite app_length; cbn [length]; lia. } rewrite Ea in Ex. injection Ex as ->. exists (S ++ P), Q.
    assert (W : with_ends 0 (AtVertex i) x (AtVertex j) y pts = P ++ y :: Q ++ x :: S).
    { rewrite E, with_app. rewrite (with_plain _ _ _ _ P) by (cbn [loc_index]; intros k [H|H]; injection H as <-; lia). cbn [with_ends]. unfold end_at_vertex, end_at_edge. cbn [Nat.add]. destruct (Nat.eqb_spec (length P) i); [lia|]. destruct (Nat.eqb_spec (length P) j); [|lia]. cbn [app]. f_equal. f_equal.
      rewrite with_app. rewrite (with_plain _ _ _ _ Q) by (cbn [loc_index]; intros k [H|H]; injection H as <-; lia). f_equal. cbn [with_ends]. unfold end_at_vertex, end_at_edge. destruct (Nat.eqb_spec (Datatypes.S (length P) + length Q) i); [|lia]. cbn [app]. rewrite (with_plain _ _ _ _ S) by (cbn [loc_index]; intros k [H|H]; injection H as <-; lia). auto. }
    rewrite W, E. unfold parc. rewrite (proj2 (Nat.leb_gt i j)) by lia. rewrite (proj2 (Nat.leb_le (Datatypes.S j) (Datatypes.S i))) by lia. split; [|split].
    + replace (P ++ c :: Q ++ x :: S) with ((P ++ c :: Q) ++ x :: S) by (norm_app; auto). rewrite skipn_exact by (rewrite app_length; cbn [length]; lia). cbn [app]. f_equal. f_equal. norm_app. apply firstn_exact. auto.
    + replace (P ++ c :: Q ++ x :: S) with ((P ++ [c]) ++ (Q ++ [x]) ++ S) by (norm_app; auto). rewrite skipn_exact by (rewrite app_length; cbn [length]; lia). apply firstn_exact. rewrite app_length; cbn [length]; lia.
    + replace (P ++ y :: Q ++ x :: S) with ((P ++ y :: Q) ++ x :: S) by (norm_app; auto). eapply rot_trans; [apply rot_app|]. norm_app. apply rot_refl.
Qed.
