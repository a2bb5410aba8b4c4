(** Closed paths in the plane: how often they wind around a point. *)
From Coq Require Import Reals List ZArith Bool Arith Lia Lra Permutation.
From Verif Require Import Prelude GeomSpec GeomProofs3 WindSpec WindProofs1.
Import ListNotations.
Local Open Scope R_scope.

Definition p2 : Type := (R * R)%type.
Definition det (a b q : p2) : R := (fst b - fst a) * (snd q - snd a) - (snd b - snd a) * (fst q - fst a).
Definition ht (u q : p2) : R := fst u * fst q + snd u * snd q.
Definition turn2 (u q : p2) (e : p2 * p2) : Z := crossing (ht u (fst e) - ht u q) (ht u (snd e) - ht u q) (det (fst e) (snd e) q).
Definition at2 (a b : p2) (t : R) : p2 := (fst a + t * (fst b - fst a), snd a + t * (snd b - snd a)).
Definition seg (a b q : p2) : Prop := exists t, 0 <= t <= 1 /\ q = at2 a b t.
Definition wind (u q : p2) (l : list p2) : Z := zsum (map (turn2 u q) (cyc_pairs l)).
Definition nonzero (u : p2) : Prop := u <> (0, 0).
Ltac p2 := repeat match goal with p : p2 |- _ => destruct p as (?, ?) end.

Lemma crossing_swap x y s : crossing y x (- s) = (- crossing x y s)%Z.
Proof. cross_cases; try lia; exfalso; lra. Qed.
Lemma turn2_swap u q a b : turn2 u q (b, a) = (- turn2 u q (a, b))%Z.
Proof. unfold turn2. cbn [fst snd]. replace (det b a q) with (- det a b q) by (unfold det; p2; cbn; ring). apply crossing_swap. Qed.

(** ** Points on segments *)
Lemma seg_ends a b : seg a b a /\ seg a b b.
Proof. split; [exists 0|exists 1]; (split; [lra|]); p2; unfold at2; cbn; f_equal; ring. Qed.
Lemma at2_det a b c d t : det c d (at2 a b t) = det c d a + t * (det c d b - det c d a).
Proof. unfold det, at2. cbn. ring. Qed.
Lemma at2_ht u a b t : ht u (at2 a b t) = ht u a + t * (ht u b - ht u a).
Proof. unfold ht, at2. cbn. ring. Qed.
Lemma div_form k m a x y : k <> 0 -> (m - a) * k = x * y -> m = a + x / k * y.
Proof. intros K E. apply (Rmult_eq_reg_r k); auto. replace ((a + x / k * y) * k) with (a * k + x * y) by (field; auto). lra. Qed.
Lemma on_line u a b m : det a b m = 0 -> ht u a <> ht u b -> m = at2 a b ((ht u m - ht u a) / (ht u b - ht u a)).
Proof.
  destruct u as (u1, u2), a as (a1, a2), b as (b1, b2), m as (m1, m2). unfold det, ht, at2. cbn [fst snd]. intros D N.
  assert (K : u1 * b1 + u2 * b2 - (u1 * a1 + u2 * a2) <> 0) by lra. f_equal; apply div_form; auto.
  - replace ((m1 - a1) * (u1 * b1 + u2 * b2 - (u1 * a1 + u2 * a2))) with ((b1 - a1) * (u1 * m1 + u2 * m2 - (u1 * a1 + u2 * a2)) - u2 * ((b1 - a1) * (m2 - a2) - (b2 - a2) * (m1 - a1))) by ring. rewrite D. ring.
  - replace ((m2 - a2) * (u1 * b1 + u2 * b2 - (u1 * a1 + u2 * a2))) with ((b2 - a2) * (u1 * m1 + u2 * m2 - (u1 * a1 + u2 * a2)) + u1 * ((b1 - a1) * (m2 - a2) - (b2 - a2) * (m1 - a1))) by ring. rewrite D. ring.
Qed.
Lemma on_seg u a b m : det a b m = 0 -> ht u a <= ht u m -> ht u m < ht u b -> seg a b m.
Proof.
  intros D L1 L2. exists ((ht u m - ht u a) / (ht u b - ht u a)). split; [|apply on_line; auto; lra].
  split; [apply Rmult_le_pos; [lra|left; apply Rinv_0_lt_compat; lra]|]. apply (Rmult_le_reg_r (ht u b - ht u a)); [lra|]. unfold Rdiv. rewrite Rmult_assoc, Rinv_l; lra.
Qed.
Lemma seg_sym a b q : seg a b q -> seg b a q.
Proof. intros (t & T & ->). exists (1 - t). split; [lra|]. p2. unfold at2. cbn. f_equal; ring. Qed.
(** Strictly between. *)
Definition between (a b q : p2) : Prop := exists t, 0 < t < 1 /\ q = at2 a b t.
Lemma between_seg a b q : between a b q -> seg a b q.
Proof. intros (t & T & ->). exists t. split; [lra|auto]. Qed.
Lemma between_sym a b q : between a b q -> between b a q.
Proof. intros (t & T & ->). exists (1 - t). split; [lra|]. p2. unfold at2. cbn. f_equal; ring. Qed.
Lemma seg_det a b q : seg a b q -> det a b q = 0.
Proof. intros (t & _ & ->). unfold det, at2. cbn. ring. Qed.
Lemma seg_sign c d a b q : seg a b q -> (0 <= det c d a -> 0 <= det c d b -> 0 <= det c d q) /\ (det c d a <= 0 -> det c d b <= 0 -> det c d q <= 0) /\
  (0 < det c d a -> 0 <= det c d b -> det c d q = 0 -> q = b) /\ (det c d a < 0 -> det c d b <= 0 -> det c d q = 0 -> q = b).
Proof.
  intros (t & T & ->). rewrite at2_det. generalize (det c d a) (det c d b). intros x y. repeat split; intros; [nra|nra| |]; (assert (t = 1) by nra; subst; p2; unfold at2; cbn; f_equal; ring).
Qed.

(** ** Moving the point along the half-line *)
Lemma turn2_shift u q q' a b : ht u q = ht u q' -> (forall m, seg q q' m -> ~ seg a b m) -> turn2 u q (a, b) = turn2 u q' (a, b).
Proof.
  intros E N. unfold turn2. cbn [fst snd]. rewrite <- E.
  assert (X : forall s s', s = det a b q -> s' = det a b q' -> s <= 0 < s' \/ s' <= 0 < s \/ s < 0 <= s' \/ s' < 0 <= s -> ht u a <= ht u q < ht u b \/ ht u b <= ht u q < ht u a -> False).
  { intros s s' Es Es' S H. assert (Ns : s - s' <> 0) by lra. pose (k := s / (s - s')).
    assert (K : 0 <= k <= 1). { unfold k. destruct (Rlt_dec 0 (s - s')).
      - split; [apply Rmult_le_pos; [lra|left; apply Rinv_0_lt_compat; lra]|]. apply (Rmult_le_reg_r (s - s')); auto. unfold Rdiv. rewrite Rmult_assoc, Rinv_l; lra.
      - replace (s / (s - s')) with ((- s) / (s' - s)) by (field; lra). split; [apply Rmult_le_pos; [lra|left; apply Rinv_0_lt_compat; lra]|]. apply (Rmult_le_reg_r (s' - s)); [lra|]. unfold Rdiv. rewrite Rmult_assoc, Rinv_l; lra. }
    assert (D : det a b (at2 q q' k) = 0). { rewrite at2_det, <- Es, <- Es'. unfold k. field. auto. }
    assert (Hm : ht u (at2 q q' k) = ht u q) by (rewrite at2_ht, <- E; ring).
    apply (N (at2 q q' k)); [exists k; auto|]. destruct H as [H|H].
    - apply (on_seg u); auto; lra.
    - apply seg_sym, (on_seg u); try lra. revert D. unfold det. intros D. lra. }
  specialize (X _ _ eq_refl eq_refl). revert X. generalize (det a b q) (det a b q') (ht u a) (ht u b) (ht u q). clear. intros s s' x y h X. cross_cases; auto; exfalso; apply X; lra.
Qed.
Lemma wind_shift u q q' l : ht u q = ht u q' -> (forall m e, In e (cyc_pairs l) -> seg q q' m -> ~ seg (fst e) (snd e) m) -> wind u q l = wind u q' l.
Proof.
  intros E N. unfold wind. f_equal. apply map_ext_in. intros (a, b) I. apply turn2_shift; auto. intros m S. apply (N m (a, b) I S).
Qed.

(** ** The direction does not matter *)
Definition tri2 (u q a b c : p2) : Z := (turn2 u q (a, b) + (turn2 u q (b, c) + turn2 u q (c, a)))%Z.
Lemma det_sum a b c q : det a b q + det b c q + det c a q = det a b c.
Proof. unfold det. ring. Qed.
Lemma det_heights u a b c q : det b c q * (ht u a - ht u q) + det c a q * (ht u b - ht u q) + det a b q * (ht u c - ht u q) = 0.
Proof. unfold det, ht. ring. Qed.
Lemma det_level u a b c : nonzero u -> ht u a = ht u b -> ht u b = ht u c -> det a b c = 0.
Proof.
  destruct u as (u1, u2), a as (a1, a2), b as (b1, b2), c as (c1, c2). unfold nonzero, ht, det. cbn [fst snd]. intros N E1 E2.
  assert (X : u1 * (b1 - a1) + u2 * (b2 - a2) = 0) by lra. assert (Y : u1 * (c1 - a1) + u2 * (c2 - a2) = 0) by lra.
  destruct (Req_dec u1 0) as [Z|Z].
  - destruct (Req_dec u2 0) as [Z'|Z']; [subst; contradiction|]. apply (Rmult_eq_reg_l u2); auto. replace (u2 * ((b1 - a1) * (c2 - a2) - (b2 - a2) * (c1 - a1))) with ((b1 - a1) * (u1 * (c1 - a1) + u2 * (c2 - a2)) - (c1 - a1) * (u1 * (b1 - a1) + u2 * (b2 - a2))) by ring. rewrite X, Y. ring.
  - apply (Rmult_eq_reg_l u1); auto. replace (u1 * ((b1 - a1) * (c2 - a2) - (b2 - a2) * (c1 - a1))) with ((c2 - a2) * (u1 * (b1 - a1) + u2 * (b2 - a2)) - (b2 - a2) * (u1 * (c1 - a1) + u2 * (c2 - a2))) by ring. rewrite X, Y. ring.
Qed.
Lemma tri2_pos u q a b c : nonzero u -> 0 < det a b c -> (0 <= tri2 u q a b c <= 1)%Z /\ (det a b q < 0 \/ det b c q < 0 \/ det c a q < 0 -> tri2 u q a b c = 0%Z) /\ (0 < det a b q -> 0 < det b c q -> 0 < det c a q -> tri2 u q a b c = 1%Z).
Proof.
  intros N D. unfold tri2, turn2. cbn [fst snd]. destruct (triangle_crossings _ _ _ _ _ _ (det_heights u a b c q)) as (W1 & W2 & W3); [pose proof (det_sum a b c q); lra|]. split; [exact W1|]. split; [exact W2|].
  intros S1 S2 S3. apply W3; auto. intros (E1 & E2). assert (X : det a b c = 0) by (apply (det_level u); auto; lra). lra.
Qed.
Lemma flat_crossings x y z s1 s2 s3 : s2 * x + s3 * y + s1 * z = 0 -> s1 + s2 + s3 = 0 -> (crossing x y s1 + (crossing y z s2 + crossing z x s3))%Z = 0%Z.
Proof.
  intros E S. assert (E1 : s1 * (z - x) + s3 * (y - x) = 0) by (replace s2 with (- s1 - s3) in E by lra; lra).
  assert (E2 : s1 * (z - y) + s2 * (x - y) = 0) by (replace s3 with (- s1 - s2) in E by lra; lra).
  assert (E3 : s2 * (x - z) + s3 * (y - z) = 0) by (replace s1 with (- s2 - s3) in E by lra; lra).
  clear E. cross_cases; try lia; exfalso; nra.
Qed.
Lemma tri2_flat u q a b c : det a b c = 0 -> tri2 u q a b c = 0%Z.
Proof. intros D. unfold tri2, turn2. cbn [fst snd]. apply flat_crossings; [apply det_heights|rewrite det_sum; auto]. Qed.
Lemma tri2_rev u q a b c : tri2 u q a c b = (- tri2 u q a b c)%Z.
Proof. unfold tri2. rewrite (turn2_swap u q c a), (turn2_swap u q b c), (turn2_swap u q a b). lia. Qed.
(** On the boundary of a triangle: on one of its edges. *)
Lemma tri_edge a b c q : 0 < det a b c -> 0 <= det a b q -> 0 <= det b c q -> 0 <= det c a q -> det a b q = 0 -> seg a b q.
Proof.
  intros D S1 S2 S3 Z. pose proof (det_sum a b c q) as S. exists (det c a q / det a b c). split.
  - split; [apply Rmult_le_pos; [lra|left; apply Rinv_0_lt_compat; lra]|]. apply (Rmult_le_reg_r (det a b c)); auto. unfold Rdiv. rewrite Rmult_assoc, Rinv_l; lra.
  - destruct a as (a1, a2), b as (b1, b2), c as (c1, c2), q as (q1, q2). unfold det, at2 in *. cbn [fst snd] in *. clear S S1 S2 S3. f_equal; apply div_form; try lra.
    + replace ((q1 - a1) * ((b1 - a1) * (c2 - a2) - (b2 - a2) * (c1 - a1))) with (((a1 - c1) * (q2 - c2) - (a2 - c2) * (q1 - c1)) * (b1 - a1) + (c1 - a1) * ((b1 - a1) * (q2 - a2) - (b2 - a2) * (q1 - a1))) by ring. rewrite Z. ring.
    + replace ((q2 - a2) * ((b1 - a1) * (c2 - a2) - (b2 - a2) * (c1 - a1))) with (((a1 - c1) * (q2 - c2) - (a2 - c2) * (q1 - c1)) * (b2 - a2) + (c2 - a2) * ((b1 - a1) * (q2 - a2) - (b2 - a2) * (q1 - a1))) by ring. rewrite Z. ring.
Qed.
Lemma tri2_any u u' q a b c : nonzero u -> nonzero u' -> ~ seg a b q -> ~ seg b c q -> ~ seg c a q -> tri2 u q a b c = tri2 u' q a b c.
Proof.
  intros N N' H1 H2 H3. assert (P : forall a b c, 0 < det a b c -> ~ seg a b q -> ~ seg b c q -> ~ seg c a q -> tri2 u q a b c = tri2 u' q a b c).
  { clear - N N'. intros a b c D H1 H2 H3. destruct (tri2_pos u q a b c N D) as (_ & W0 & W1). destruct (tri2_pos u' q a b c N' D) as (_ & V0 & V1).
    assert (D2 : 0 < det b c a) by (replace (det b c a) with (det a b c) by (unfold det; ring); auto). assert (D3 : 0 < det c a b) by (replace (det c a b) with (det a b c) by (unfold det; ring); auto).
    destruct (Rlt_dec (det a b q) 0); [rewrite W0, V0; auto|]. destruct (Rlt_dec (det b c q) 0); [rewrite W0, V0; auto|]. destruct (Rlt_dec (det c a q) 0); [rewrite W0, V0; auto|].
    destruct (Req_dec (det a b q) 0) as [Z|Z]; [exfalso; apply H1, (tri_edge a b c q); auto; lra|]. destruct (Req_dec (det b c q) 0) as [Z'|Z']; [exfalso; apply H2, (tri_edge b c a q); auto; lra|]. destruct (Req_dec (det c a q) 0) as [Z2|Z2]; [exfalso; apply H3, (tri_edge c a b q); auto; lra|].
    rewrite W1, V1; auto; lra. }
  destruct (Rtotal_order (det a b c) 0) as [D|[D|D]].
  - assert (X : tri2 u q a c b = tri2 u' q a c b); [apply P|rewrite (tri2_rev u q a b c), (tri2_rev u' q a b c) in X; lia].
    + replace (det a c b) with (- det a b c) by (unfold det; ring). lra.
    + intros S. apply H3, seg_sym. auto.
    + intros S. apply H2, seg_sym. auto.
    + intros S. apply H1, seg_sym. auto.
  - rewrite !tri2_flat; auto.
  - apply P; auto.
Qed.

(** ** Paths *)
Fixpoint path (u q : p2) (l : list p2) : Z := match l with a :: ((b :: _) as r) => (turn2 u q (a, b) + path u q r)%Z | _ => 0%Z end.
Definition cycle (l : list p2) : list p2 := match l with [] => [] | x :: r => x :: r ++ [x] end.
Fixpoint steps (l : list p2) : list (p2 * p2) := match l with a :: ((b :: _) as r) => (a, b) :: steps r | _ => [] end.
Lemma path_steps u q l : path u q l = zsum (map (turn2 u q) (steps l)).
Proof. induction l as [|a [|b r] IH]; auto. cbn [path steps map] in *. unfold zsum in *. cbn [fold_right]. rewrite IH. auto. Qed.
Lemma steps_combine a r x : steps (a :: r ++ [x]) = combine (a :: r) (r ++ [x]).
Proof. revert a. induction r as [|b r IH]; intros a; auto. cbn [app]. change (steps (a :: b :: r ++ [x])) with ((a, b) :: steps (b :: r ++ [x])). rewrite IH. auto. Qed.
Lemma cycle_steps l : steps (cycle l) = cyc_pairs l.
Proof. destruct l as [|a r]; auto. cbn [cycle cyc_pairs]. apply steps_combine. Qed.
Lemma wind_path u q l : wind u q l = path u q (cycle l).
Proof. rewrite path_steps, cycle_steps. auto. Qed.
Lemma wind_perm u q l l' : Permutation (cyc_pairs l) (cyc_pairs l') -> wind u q l = wind u q l'.
Proof. intros P. unfold wind. apply zsum_perm, Permutation_map. auto. Qed.
(** A path is the sum of the triangles over it, seen from any point. *)
Fixpoint fan (u q o : p2) (es : list (p2 * p2)) : Z := match es with [] => 0%Z | (a, b) :: r => (tri2 u q o a b + fan u q o r)%Z end.
Lemma path_fan u q o a l : (path u q (a :: l) = fan u q o (steps (a :: l)) + turn2 u q (o, last (a :: l) a) - turn2 u q (o, a))%Z.
Proof.
  revert a. induction l as [|b l IH]; intros a; [cbn; lia|]. change (path u q (a :: b :: l)) with (turn2 u q (a, b) + path u q (b :: l))%Z. change (steps (a :: b :: l)) with ((a, b) :: steps (b :: l)). cbn [fan].
  replace (last (a :: b :: l) a) with (last (b :: l) b) by (clear; revert b; induction l as [|c l IH]; intros b; auto; cbn [last] in *; destruct l; auto). rewrite IH. unfold tri2. rewrite (turn2_swap u q o b). lia.
Qed.
Lemma wind_fan u q o l : wind u q l = fan u q o (cyc_pairs l).
Proof. rewrite wind_path, <- cycle_steps. destruct l as [|x r]; auto. cbn [cycle]. rewrite (path_fan u q o). replace (last (x :: r ++ [x]) x) with x; [lia|]. rewrite app_comm_cons, last_last. auto. Qed.
(** A point from which q is not behind any of the given points. *)
Lemma fresh (l : list R) : exists t, ~ In t l.
Proof.
  exists (1 + fold_right (fun x m => Rabs x + m) 0 l). assert (H : forall x, In x l -> x <= fold_right (fun x m => Rabs x + m) 0 l); [|intros I; apply H in I; lra].
  induction l as [|y l IH]; intros x I; [destruct I|]. cbn [fold_right]. assert (P : 0 <= fold_right (fun x m => Rabs x + m) 0 l) by (clear; induction l as [|z l IH]; cbn [fold_right]; [lra|pose proof (Rabs_pos z); lra]).
  destruct I as [->|I]; [pose proof (Rle_abs x); lra|]. apply IH in I. pose proof (Rabs_pos y). lra.
Qed.
Definition slope (q a : p2) : R := (snd a - snd q) / (fst a - fst q).
Lemma slope_of q a t : a <> q -> snd a - snd q = t * (fst a - fst q) -> slope q a = t.
Proof.
  destruct q as (q1, q2), a as (a1, a2). unfold slope. cbn [fst snd]. intros N E. rewrite E. field. intros Z. apply N. rewrite Z in E. f_equal; lra.
Qed.
Lemma viewpoint q l : ~ In q l -> exists o, forall a, In a l -> ~ seg o a q.
Proof.
  intros N. destruct (fresh (map (slope q) l)) as (t & F). exists (fst q + 1, snd q + t). intros a I (s & S & E). apply F, in_map_iff. exists a. split; auto.
  assert (Na : a <> q) by (intros ->; auto). apply slope_of; auto. destruct q as (q1, q2), a as (a1, a2). unfold at2 in E. cbn [fst snd] in *. injection E as E1 E2.
  assert (Sn : s <> 0) by (intros ->; lra). apply (Rmult_eq_reg_l s); auto. assert (X : s * (a1 - q1) = s - 1) by lra. assert (Y : s * (a2 - q2) = (s - 1) * t) by lra. rewrite Y. replace (s * (t * (a1 - q1))) with (t * (s * (a1 - q1))) by ring. rewrite X. ring.
Qed.
Definition off (l : list p2) (q : p2) : Prop := forall e, In e (cyc_pairs l) -> ~ seg (fst e) (snd e) q.
Lemma cyc_in (l : list p2) e : In e (cyc_pairs l) -> In (fst e) l /\ In (snd e) l.
Proof.
  destruct l as [|x r]; [intros []|]. cbn [cyc_pairs]. destruct e as (a, b). intros I. cbn [fst snd]. split; [eapply in_combine_l; eauto|]. apply in_combine_r, in_app_iff in I. destruct I as [I|[<-|[]]]; [right; auto|left; auto].
Qed.
Lemma cyc_starts (l : list p2) a : In a l -> exists b, In (a, b) (cyc_pairs l).
Proof.
  intros I. destruct (In_nth_error _ _ I) as (i & E). destruct (nth_error l ((i + 1) mod length l)) as [b|] eqn:E2.
  - exists b. eapply nth_error_In, cyc_pairs_nth; eauto.
  - exfalso. apply nth_error_None in E2. destruct l; [destruct I|]. pose proof (Nat.mod_upper_bound (i + 1) (length (p :: l)) ltac:(discriminate)). lia.
Qed.
Lemma off_vertex l q : off l q -> ~ In q l.
Proof. intros O I. destruct (cyc_starts l q I) as (b & E). apply (O _ E). apply seg_ends. Qed.
Lemma wind_any u u' q l : nonzero u -> nonzero u' -> off l q -> wind u q l = wind u' q l.
Proof.
  intros N N' O. destruct (viewpoint q l (off_vertex l q O)) as (o & V). rewrite !(wind_fan _ q o).
  assert (H : forall e, In e (cyc_pairs l) -> ~ seg (fst e) (snd e) q /\ ~ seg o (fst e) q /\ ~ seg o (snd e) q) by (intros e I; destruct (cyc_in l e I); auto).
  revert H. generalize (cyc_pairs l). intros es. induction es as [|(a, b) es IH]; intros H; auto. cbn [fan]. rewrite IH by (intros e I; apply H; right; auto). destruct (H _ (or_introl eq_refl)) as (H1 & H2 & H3). cbn [fst snd] in *.
  rewrite (tri2_any u u'); auto. intros S. apply H3, seg_sym. auto.
Qed.
Lemma wind_move u u' q q' l : nonzero u -> nonzero u' -> (forall m, seg q q' m -> off l m) -> wind u q l = wind u' q' l.
Proof.
  intros N N' O. destruct q as (x, y), q' as (x', y'). pose (v := (y - y', x' - x) : p2). assert (C : v = (0, 0) \/ nonzero v) by (unfold nonzero; destruct (Req_dec (y - y') 0) as [E|E], (Req_dec (x' - x) 0) as [E'|E']; unfold v; [left; congruence|right|right|right]; intros H; injection H as H1 H2; lra).
  destruct C as [C|C].
  - unfold v in C. injection C as C1 C2. replace x' with x in * by lra. replace y' with y in * by lra. apply wind_any; auto. apply O, seg_ends.
  - rewrite (wind_any u v), (wind_any u' v); auto; try (apply O, seg_ends). apply wind_shift; [unfold ht, v; cbn; ring|]. intros m e I S. apply (O m S e I).
Qed.
