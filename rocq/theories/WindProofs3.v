(** Slicing and winding numbers. *)
From Coq Require Import Reals List ZArith Bool Arith Lia Lra Permutation.
From Verif Require Import Prelude VecModel VecProofs GeomModel GeomSpec GeomProofs1 GeomProofs2 GeomProofs3 GeomProofs4 TriModel TriSpec PolyModel PolySpec PolyProofs1 SliceModel SliceSpec SliceProofs1 SliceProofs2 SliceProofs3 CrossSpec InsideSpec RoomSpec RoomProofs1 WindSpec WindProofs1.
Import ListNotations.
Local Open Scope R_scope.

Lemma cut_winding n u q outline chain p1 p2 : cut outline chain p1 p2 -> (winding n u q p1 + winding n u q p2 = winding n u q outline)%Z.
Proof.
  intros C. pose proof (cut_edges _ _ _ _ C) as P. apply (Permutation_map (edge_turn n u q)), zsum_perm in P. rewrite !map_app, !zsum_app in P. unfold winding. rewrite P.
  change (fun e : vec * vec => (snd e, fst e)) with (@swap vec). rewrite turns_swap. lia.
Qed.
(** A point on the line of an edge can be put in. *)
Lemma on_line n a b x q : cross (vsub x a) (vsub b a) = vzero -> a <> b -> exists t, x = vadd a (smul t (vsub b a)) /\ left_of n a x q = t * left_of n a b q /\ left_of n x b q = (1 - t) * left_of n a b q.
Proof.
  intros H N. assert (L : dot (vsub b a) (vsub b a) <> 0).
  { intros Z. apply N. clear - Z. dvec a; dvec b. revert Z. vunf. intros Z. assert (S : forall s r w, s * s + r * r + w * w = 0 -> s = 0 /\ r = 0 /\ w = 0) by (intros s r w E; pose proof (Rle_0_sqr s); pose proof (Rle_0_sqr r); pose proof (Rle_0_sqr w); unfold Rsqr in *; repeat split; apply Rsqr_0_uniq; unfold Rsqr; lra).
    apply S in Z. destruct Z as (Z1 & Z2 & Z3). f_equal; lra. }
  set (t := dot (vsub x a) (vsub b a) / dot (vsub b a) (vsub b a)). exists t.
  assert (E : x = vadd a (smul t (vsub b a))).
  { assert (I : vsub (smul (dot (vsub b a) (vsub b a)) (vsub x a)) (smul (dot (vsub x a) (vsub b a)) (vsub b a)) = cross (vsub b a) (cross (vsub x a) (vsub b a))) by (clear; dvec a; dvec b; dvec x; vunf; f_equal; ring). rewrite H in I.
    assert (Et : dot (vsub x a) (vsub b a) = t * dot (vsub b a) (vsub b a)) by (unfold t; field; auto). rewrite Et in I. clear - I L. revert I L. clearbody t. generalize (dot (vsub b a) (vsub b a)). intros k I L. dvec a; dvec b; dvec x. revert I. vunf. unfold vzero. cbn [vx vy vz]. intros I. injection I as I1 I2 I3. f_equal; nra. }
  split; [exact E|]. rewrite E. clear. unfold left_of. dvec n; dvec a; dvec b; dvec q. vunf. split; ring.
Qed.
Lemma crossing_split x y s t : (crossing x (x + t * (y - x)) (t * s) + crossing (x + t * (y - x)) y ((1 - t) * s) = crossing x y s)%Z.
Proof.
  cross_cases; try reflexivity; exfalso;
  repeat match goal with H : ~ (_ <= _) |- _ => apply Rnot_le_lt in H | H : ~ (_ < _) |- _ => apply Rnot_lt_le in H end; try lra; destruct (Rle_lt_dec t 0); destruct (Rle_lt_dec 1 t); try lra; try nra.
Qed.
Lemma turn_on_line n u q a b x : cross (vsub x a) (vsub b a) = vzero -> (edge_turn n u q (a, x) + edge_turn n u q (x, b) = edge_turn n u q (a, b))%Z.
Proof.
  intros H. destruct (vec_eq_dec a b) as [<-|N].
  - change (x, a) with (swap (a, x)). rewrite turn_swap. pose proof (turn_swap n u q (a, a)) as E. unfold swap in E. cbn [fst snd] in E. lia.
  - destruct (on_line n a b x q H N) as (t & E & L1 & L2). rewrite !turn_crossing, L1, L2. rewrite <- (crossing_split (dot u a - dot u q) (dot u b - dot u q) (left_of n a b q) t).
    replace (dot u x - dot u q) with (dot u a - dot u q + t * (dot u b - dot u q - (dot u a - dot u q))); auto. rewrite E. dvec u; dvec a; dvec b; dvec q. vunf. ring.
Qed.
Lemma winding_insert_after n u q a x r b t : r ++ [a] = b :: t -> cross (vsub x a) (vsub b a) = vzero -> winding n u q (a :: x :: r) = winding n u q (a :: r).
Proof.
  intros E H. unfold winding. rewrite !cyc_open. cbn [app]. rewrite E. unfold open_pairs, zsum. cbn [tl combine map fold_right fst snd]. rewrite <- (turn_on_line n u q a b x H). lia.
Qed.

Lemma insert_winding n u q l k x a b : nth_error (cyc_pairs l) k = Some (a, b) -> cross (vsub x a) (vsub b a) = vzero -> winding n u q (insert_at k x l) = winding n u q l.
Proof.
  intros E H. assert (Lk : (k < length l)%nat) by (rewrite <- cyc_pairs_length; apply nth_error_Some; congruence). destruct (split1 l k Lk) as (P & a' & T & -> & LP).
  assert (Ea : nth_error (P ++ a' :: T) k = Some a') by (apply at_mid; auto). rewrite app_length in Lk. cbn [length] in Lk. set (m := length (P ++ a' :: T)). assert (Ln : (m = length P + 1 + length T)%nat) by (unfold m; rewrite app_length; cbn [length]; lia).
  assert (Lb : ((k + 1) mod m < m)%nat) by (apply Nat.mod_upper_bound; lia). destruct (nth_error (P ++ a' :: T) ((k + 1) mod m)) as [b'|] eqn:Eb; [|apply nth_error_None in Eb; unfold m in *; lia].
  rewrite (cyc_pairs_nth _ _ _ _ Ea Eb) in E. injection E as -> ->.
  unfold insert_at. replace (P ++ a :: T) with ((P ++ [a]) ++ T) by (norm_app; auto). rewrite firstn_exact, skipn_exact by (rewrite app_length; cbn [length]; lia). norm_app.
  rewrite <- (winding_rot n u q _ _ (rot_app P (a :: x :: T))), <- (winding_rot n u q _ _ (rot_app P (a :: T))). cbn [app].
  assert (Q : exists t, (T ++ P) ++ [a] = b :: t).
  { destruct T as [|s T'].
    - assert (E0 : ((k + 1) mod m = 0)%nat) by (cbn [length] in Ln; replace (k + 1)%nat with m by lia; apply Nat.mod_same; lia). rewrite E0 in Eb. cbn [app]. destruct P as [|p P']; cbn [app nth_error] in *; injection Eb as ->; eauto.
    - cbn [length] in Ln. rewrite Nat.mod_small in Eb by lia. replace (P ++ a :: s :: T') with ((P ++ [a]) ++ s :: T') in Eb by (norm_app; auto). rewrite (at_mid (P ++ [a]) T' s) in Eb by (rewrite app_length; cbn [length]; lia). injection Eb as ->. cbn [app]. eauto. }
  destruct Q as (t & Q). apply (winding_insert_after n u q a x (T ++ P) b t Q H).
Qed.
Lemma edges_winding n u q n1 n2 x y pts : (n1 < n2)%nat -> exact_end pts (AtEdge n1) x -> exact_end pts (AtEdge n2) y -> winding n u q (with_ends 0 (AtEdge n1) x (AtEdge n2) y pts) = winding n u q pts.
Proof.
  intros L (a & b & E1 & H1) (c & d & E2 & H2). assert (L2 : (n2 < length pts)%nat) by (rewrite <- cyc_pairs_length; apply nth_error_Some; congruence). rewrite with_edges by auto. rewrite (insert_winding n u q _ n1 x a b); [apply (insert_winding n u q _ n2 y c d); auto| |auto].
  apply (cyc_ext pts); auto; [lia| |]; apply insert_before; auto; lia.
Qed.
Lemma ends_winding n u q l1 l2 x y pts : l1 <> l2 -> exact_end pts l1 x -> exact_end pts l2 y -> winding n u q (with_ends 0 l1 x l2 y pts) = winding n u q pts.
Proof.
  assert (VX : forall v z, nth_error pts v = Some z -> forall p, nth_error pts (v - 0) = Some p -> (0 <= v)%nat -> p = z) by (intros v z E p; rewrite Nat.sub_0_r; congruence).
  assert (VE : forall v k x y, exact_end pts (AtVertex v) x -> exact_end pts (AtEdge k) y -> winding n u q (with_ends 0 (AtVertex v) x (AtEdge k) y pts) = winding n u q pts).
  { intros v k x0 y0 E (a & b & E2 & H2). rewrite with_exact_l; [|apply (VX v x0 E)|intros; left; discriminate]. rewrite with_edge by (rewrite <- cyc_pairs_length; apply nth_error_Some; congruence). apply (insert_winding n u q _ k y0 a b); auto. }
  intros N E1 E2. destruct l1 as [| |i|i]; try contradiction; destruct l2 as [| |j|j]; try contradiction.
  - rewrite with_exact_l; [|apply (VX i x E1)|intros k; destruct (Nat.eq_dec k i) as [->|]; [left; congruence|right; auto]]. rewrite with_exact2; auto. apply (VX j y E2).
  - auto.
  - rewrite with_swap by auto. auto.
  - destruct (Nat.lt_trichotomy i j) as [L|[->|L]]; [apply edges_winding; auto|congruence|rewrite with_swap by auto; apply edges_winding; auto].
Qed.
Lemma reverse_winding n u q l l' : reverse_loop l l' -> winding n u q l' = (- winding n u q l)%Z.
Proof. intros R. rewrite (winding_rot n u q _ _ R). apply winding_rev. Qed.
Lemma parts_winding n u q pts chain x l0 y l1 q1 q2 : l0 <> l1 -> exact_end pts l0 x -> exact_end pts l1 y -> parts_of pts chain x l0 y l1 q1 q2 ->
  match l0, l1 with AtVertex _, AtVertex _ => (winding n u q q1 - winding n u q q2)%Z | _, _ => (winding n u q q2 - winding n u q q1)%Z end = winding n u q pts.
Proof.
  intros N E1 E2 P. destruct l0 as [| |i|i]; try contradiction; destruct l1 as [| |j|j]; try contradiction; cbn [parts_of] in P.
  - destruct P as (v & p2 & Ev & C & R). cbn [exact_end] in E1. assert (v = x) by congruence. subst v. rewrite (reverse_winding n u q _ _ R). pose proof (cut_winding n u q _ _ _ _ C) as W. rewrite (ends_winding n u q _ _ x y pts N E1 E2) in W. lia.
  - destruct P as (p1 & C & R). rewrite (reverse_winding n u q _ _ R). pose proof (cut_winding n u q _ _ _ _ C) as W. rewrite (ends_winding n u q _ _ x y pts N E1 E2) in W. lia.
  - destruct P as (p1 & C & R). rewrite (reverse_winding n u q _ _ R). pose proof (cut_winding n u q _ _ _ _ C) as W. rewrite (ends_winding n u q _ _ x y pts N E1 E2) in W. lia.
  - destruct P as (p1 & C & R). rewrite (reverse_winding n u q _ _ R). pose proof (cut_winding n u q _ _ _ _ C) as W. rewrite (ends_winding n u q _ _ x y pts N E1 E2) in W. lia.
Qed.
