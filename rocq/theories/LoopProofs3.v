(** Simple closed paths. *)
From Coq Require Import Reals List ZArith Bool Arith Lia Lra Permutation.
From Verif Require Import Prelude GeomSpec GeomProofs3 WindSpec WindProofs1 LoopProofs1 LoopProofs2.
Import ListNotations.
Local Open Scope R_scope.

(** Different edges meet only where one ends and the other starts. *)
Definition simple2 (l : list p2) : Prop := NoDup l /\ (3 <= length l)%nat /\
  forall e e' m, In e (cyc_pairs l) -> In e' (cyc_pairs l) -> e <> e' -> seg (fst e) (snd e) m -> seg (fst e') (snd e') m -> m = snd e /\ m = fst e' \/ m = fst e /\ m = snd e'.
Lemma cyc_fst {A} (l : list A) : map fst (cyc_pairs l) = l.
Proof.
  destruct l as [|x r]; auto. unfold cyc_pairs. assert (H : forall (l m : list A), length l = length m -> map fst (combine l m) = l); [|apply H; rewrite app_length; cbn; lia].
  clear. induction l as [|a l IH]; intros [|b m] E; try discriminate; auto. cbn [combine map fst]. rewrite IH; auto.
Qed.
Lemma cyc_nodup {A} (l : list A) : NoDup l -> NoDup (cyc_pairs l).
Proof. intros N. apply (NoDup_map_inv fst). rewrite cyc_fst. auto. Qed.
Lemma simple_rot a l : simple2 (a :: l) -> simple2 (l ++ [a]).
Proof.
  intros (N & L & H). pose proof (cyc_pairs_rot1 a l) as P. split; [apply (Permutation_NoDup (l := a :: l)); auto; apply Permutation_cons_append|]. split; [rewrite app_length; cbn in *; lia|].
  intros e e' m I I'. apply H; eapply Permutation_in; try apply Permutation_sym; eauto.
Qed.
Lemma simple_edge l a b : simple2 l -> In (a, b) (cyc_pairs l) -> a <> b.
Proof.
  intros (N & L & H) I E. subst b. destruct l as [|x [|y [|z r]]]; cbn in L; try lia. clear L H. unfold cyc_pairs in I.
  assert (G : forall l (m : list p2), (forall i a, nth_error l i = Some a -> nth_error m i = Some a -> False) -> ~ In (a, a) (combine l m)).
  { clear. induction l as [|c l IH]; intros [|d m] H I; try (destruct I; fail). destruct I as [E|I]; [injection E as -> ->; apply (H 0%nat a); auto|]. apply (IH m); auto. intros i b A B. apply (H (S i) b); auto. }
  apply (G _ _) in I; auto. intros i c A B. cbn [app] in B. rewrite NoDup_nth_error in N.
  assert (Li : (i < length (x :: y :: z :: r))%nat) by (apply nth_error_Some; congruence).
  destruct (Nat.eq_dec i (S (S (length r)))) as [Ei|Ei].
  - subst i. cbn [nth_error] in B. rewrite nth_error_app2 in B by lia. rewrite Nat.sub_diag in B. cbn in B. injection B as <-. specialize (N (S (S (length r))) 0%nat Li). rewrite A in N. specialize (N eq_refl). discriminate.
  - assert (B' : nth_error (x :: y :: z :: r) (S i) = Some c). { cbn [nth_error]. cbn [length] in Li. change (y :: z :: r ++ [x]) with ((y :: z :: r) ++ [x]) in B. rewrite nth_error_app1 in B by (cbn; lia). auto. }
    specialize (N i (S i) Li). rewrite A, B' in N. specialize (N eq_refl). lia.
Qed.
Lemma between_edge l e e' m : simple2 l -> In e (cyc_pairs l) -> In e' (cyc_pairs l) -> e <> e' -> between (fst e) (snd e) m -> ~ seg (fst e') (snd e') m.
Proof.
  intros S I I' N B S'. destruct e as (a, b). pose proof (simple_edge l a b S I) as Nab. destruct (between_ends a b m Nab B) as (Na & Nb). destruct S as (_ & _ & H). destruct (H _ _ m I I' N (between_seg _ _ _ B) S') as [(E & _)|(E & _)]; cbn [fst snd] in E; contradiction.
Qed.
Lemma first_along l : simple2 l -> exists v, along l v.
Proof.
  intros S. destruct l as [|a [|b r]]; try (destruct S as (_ & L & _); cbn in L; lia). pose proof (cycle_first a b r) as E.
  assert (N : NoDup (cyc_pairs (a :: b :: r))) by apply cyc_nodup, S. apply along_exists.
  - apply (simple_edge _ a b S). rewrite E. left. auto.
  - intros m e B I. apply (between_edge _ (a, b) e m S); auto; [rewrite E; left; auto|rewrite E; right; auto|]. intros <-. rewrite E in N. inversion N; auto.
Qed.
Lemma steps_fst a l e : In e (steps (a :: l)) -> In (fst e) (a :: removelast l).
Proof.
  revert a. induction l as [|b l IH]; intros a; [intros []|]. change (steps (a :: b :: l)) with ((a, b) :: steps (b :: l)). intros [<-|I]; [left; auto|]. right. destruct l as [|c l]; [destruct I|]. apply IH in I. exact I.
Qed.
Lemma along_rot a l v : simple2 (a :: l) -> along (a :: l) v -> along (l ++ [a]) v.
Proof.
  intros S A. destruct (first_along _ (simple_rot a l S)) as (v' & A'). enough (v' = v) by (subst; auto).
  destruct l as [|b [|c r]]; try (destruct S as (_ & L & _); cbn in L; lia). pose proof (cycle_first a b (c :: r)) as E. change (steps (b :: (c :: r) ++ [a])) with ((b, c) :: steps (c :: r ++ [a])) in E.
  assert (N : NoDup (cyc_pairs (a :: b :: c :: r))) by apply cyc_nodup, S. assert (Ie : forall e, In e [(a, b); (b, c)] \/ In e (steps (c :: r ++ [a])) -> In e (cyc_pairs (a :: b :: c :: r))) by (rewrite E; intros e [[<-|[<-|[]]]|I]; cbn [In]; auto).
  assert (Nd : NoDup (a :: b :: c :: r)) by apply S.
  apply (corner a b c r v v'); auto.
  - apply (simple_edge _ a b S). apply Ie. cbn. auto.
  - apply (simple_edge _ b c S). apply Ie. cbn. auto.
  - intros m B B2. apply (between_edge _ (a, b) (b, c) m S); auto; try (apply Ie; cbn; auto); [|apply between_seg; auto]. intros X. injection X as -> ->. inversion Nd; subst. cbn in *. tauto.
  - intros m e B I Sg. rewrite E in N. inversion N as [|? ? Na N']; subst. inversion N' as [|? ? Nb N'']; subst. destruct B as [B|[->|B]].
    + apply (between_edge _ (a, b) e m S); auto; try (apply Ie; cbn; auto). intros <-. apply Na. right. auto.
    + destruct S as (_ & _ & H). destruct (H (a, b) e b) as [(_ & X)|(X & _)]; auto; try (apply Ie; cbn; auto); try (apply seg_ends).
      * intros <-. apply Na. right. auto.
      * apply steps_fst in I. rewrite <- X in I. rewrite removelast_last in I. inversion Nd; subst. inversion H3; subst. auto.
      * cbn [fst] in X. subst b. inversion Nd; subst. apply H2. left. auto.
    + apply (between_edge _ (b, c) e m S); auto; try (apply Ie; cbn; auto). intros <-. auto.
Qed.
Lemma along_rotation l v : simple2 l -> along l v -> forall l', rotation_of l l' -> along l' v.
Proof.
  intros S A l' (x & y & -> & ->). revert y S A. induction x as [|p x IH]; intros y S A; [rewrite app_nil_r; auto|]. specialize (IH (y ++ [p])). rewrite <- app_assoc in IH. cbn [app] in IH. apply IH.
  - rewrite app_assoc. apply simple_rot. auto.
  - rewrite app_assoc. apply along_rot; auto.
Qed.
Lemma edge_rotation {A} (l : list A) a b : In (a, b) (cyc_pairs l) -> (2 <= length l)%nat -> exists r, rotation_of l (a :: b :: r).
Proof.
  intros I L. destruct l as [|x r]; [destruct I|]. rewrite cyc_pairs_split in I. apply in_app_iff in I. destruct I as [I|[I|[]]].
  - assert (H : exists l1 l2, x :: r = l1 ++ a :: b :: l2).
    { clear L. revert x I. induction r as [|y r IH]; intros x I; [destruct I|]. destruct I as [E|I]; [injection E as -> ->; exists [], r; auto|]. destruct (IH y I) as (l1 & l2 & E). exists (x :: l1), l2. rewrite E. auto. }
    destruct H as (l1 & l2 & E). exists (l2 ++ l1). exists l1, (a :: b :: l2). auto.
  - injection I as <- <-. destruct r as [|y r]; [cbn in L; lia|]. destruct (exists_last (l := y :: r)) as (r' & z & E); [discriminate|]. rewrite E. exists r'. exists (x :: r'), [z]. split; auto. change (x :: r' ++ [z]) with ((x :: r') ++ [z]). rewrite last_last. auto.
Qed.
(** All edges have the same value. *)
Lemma all_along l : simple2 l -> exists v, forall a b z u, In (a, b) (cyc_pairs l) -> between a b z -> (ht u a < ht u b -> wind u z l = v) /\ (ht u b < ht u a -> wind u z l = (v + 1)%Z).
Proof.
  intros S. destruct (first_along l S) as (v & A). exists v. intros a b z u I B. destruct (edge_rotation l a b I) as (r & R); [destruct S as (_ & L & _); lia|].
  pose proof (along_rotation l v S A _ R a b r z u eq_refl B) as H. rewrite (wind_perm u z l (a :: b :: r)); auto. apply cyc_pairs_rotation. auto.
Qed.

(** ** Along a half-line *)
Definition ray2 (u q : p2) (t : R) : p2 := (fst q + t * snd u, snd q - t * fst u).
Definition crosses2 (u q : p2) (e : p2 * p2) : Prop := (ht u (fst e) - ht u q) * (ht u (snd e) - ht u q) < 0.
Definition when (u q : p2) (e : p2 * p2) : R := det (fst e) (snd e) q / (ht u (snd e) - ht u (fst e)).
Lemma ray_ht u q t : ht u (ray2 u q t) = ht u q.
Proof. unfold ht, ray2. cbn. ring. Qed.
Lemma ray_det u q t a b : det a b (ray2 u q t) = det a b q - t * (ht u b - ht u a).
Proof. unfold det, ht, ray2. cbn. ring. Qed.
Lemma cross_signs u q e : crosses2 u q e -> ht u (fst e) < ht u q < ht u (snd e) \/ ht u (snd e) < ht u q < ht u (fst e).
Proof. unfold crosses2. generalize (ht u (fst e)) (ht u (snd e)) (ht u q). intros x y h H. destruct (Rlt_dec (x - h) 0); [left; split; [lra|]; destruct (Rlt_dec h y); auto; nra|]. right. assert (0 <= x - h) by lra. destruct (Req_dec x h) as [->|]; [replace (h - h) with 0 in H by ring; lra|]. split; [|lra]. destruct (Rlt_dec y h); auto. nra. Qed.
Lemma ray_turn u q t e : ht u (fst e) <> ht u q -> ht u (snd e) <> ht u q ->
  (~ crosses2 u q e -> turn2 u (ray2 u q t) e = 0%Z) /\ (crosses2 u q e -> when u q e <= t -> turn2 u (ray2 u q t) e = 0%Z) /\
  (crosses2 u q e -> t < when u q e -> (ht u (fst e) < ht u (snd e) -> turn2 u (ray2 u q t) e = 1%Z) /\ (ht u (snd e) < ht u (fst e) -> turn2 u (ray2 u q t) e = (-1)%Z)).
Proof.
  intros N1 N2. destruct e as (a, b). cbn [fst snd] in *. unfold turn2. cbn [fst snd]. rewrite ray_ht, ray_det. split; [|split].
  - unfold crosses2. cbn [fst snd]. generalize (ht u a) (ht u b) (ht u q) (det a b q) N1 N2. clear. intros x y h s N1 N2 C. cross_cases; auto; exfalso; apply C; nra.
  - intros C W. apply cross_signs in C. cbn [fst snd] in C. unfold when in W. cbn [fst snd] in W. assert (N : ht u b - ht u a <> 0) by lra. revert C W N. generalize (ht u a) (ht u b) (ht u q) (det a b q). clear. intros x y h s C W N.
    assert (E : s = s / (y - x) * (y - x)) by (field; auto). revert W E. generalize (s / (y - x)). intros k W E. cross_cases; auto; exfalso; nra.
  - intros C W. apply cross_signs in C. cbn [fst snd] in C. unfold when in W. cbn [fst snd] in W. assert (N : ht u b - ht u a <> 0) by lra. revert C W N. generalize (ht u a) (ht u b) (ht u q) (det a b q). clear. intros x y h s C W N.
    assert (E : s = s / (y - x) * (y - x)) by (field; auto). revert W E. generalize (s / (y - x)). intros k W E. split; intros L; cross_cases; auto; exfalso; nra.
Qed.
Lemma ray_between u q e : crosses2 u q e -> between (fst e) (snd e) (ray2 u q (when u q e)).
Proof.
  destruct e as (a, b). intros C. apply cross_signs in C. cbn [fst snd] in *. assert (N : ht u b - ht u a <> 0) by lra.
  assert (D : det a b (ray2 u q (when u q (a, b))) = 0) by (rewrite ray_det; unfold when; cbn [fst snd]; field; auto).
  pose proof (on_line u a b _ D ltac:(lra)) as E. rewrite ray_ht in E. eexists. split; [|exact E].
  destruct C as [C|C].
  - split; [apply Rmult_lt_0_compat; [lra|apply Rinv_0_lt_compat; lra]|]. apply (Rmult_lt_reg_r (ht u b - ht u a)); [lra|]. unfold Rdiv. rewrite Rmult_assoc, Rinv_l; lra.
  - replace ((ht u q - ht u a) / (ht u b - ht u a)) with ((ht u a - ht u q) / (ht u a - ht u b)) by (field; lra).
    split; [apply Rmult_lt_0_compat; [lra|apply Rinv_0_lt_compat; lra]|]. apply (Rmult_lt_reg_r (ht u a - ht u b)); [lra|]. unfold Rdiv. rewrite Rmult_assoc, Rinv_l; lra.
Qed.
Lemma ray_apart l u q e e' : simple2 l -> In e (cyc_pairs l) -> In e' (cyc_pairs l) -> e <> e' -> crosses2 u q e -> crosses2 u q e' -> when u q e <> when u q e'.
Proof.
  intros S I I' N C C' E. apply (between_edge l e e' (ray2 u q (when u q e)) S I I' N); [apply ray_between; auto|]. rewrite E. apply between_seg, ray_between. auto.
Qed.
Lemma argmax {A} (f : A -> R) (P : A -> Prop) (l : list A) : (forall x, P x \/ ~ P x) -> (exists x, In x l /\ P x) -> exists x, In x l /\ P x /\ forall y, In y l -> P y -> f y <= f x.
Proof.
  intros D. induction l as [|a l IH]; intros (x & I & Px); [destruct I|]. destruct (D a) as [Pa|Pa].
  - assert (C : (exists x, In x l /\ P x) \/ ~ exists x, In x l /\ P x). { clear - D. induction l as [|b l IH]; [right; intros (x & [] & _)|]. destruct (D b); [left; exists b; split; [left|]; auto|]. destruct IH as [(x & I & Px)|N]; [left; exists x; split; [right|]; auto|right]. intros (x & [<-|I] & Px); auto. apply N. eauto. }
    destruct C as [C|C].
    + destruct (IH C) as (m & Im & Pm & M). destruct (Rle_dec (f a) (f m)).
      * exists m. split; [right; auto|]. split; auto. intros y [<-|Iy] Py; auto.
      * exists a. split; [left; auto|]. split; auto. intros y [<-|Iy] Py; [lra|]. specialize (M y Iy Py). lra.
    + exists a. split; [left; auto|]. split; auto. intros y [<-|Iy] Py; [lra|]. exfalso. apply C. eauto.
  - destruct IH as (m & Im & Pm & M); [destruct I as [<-|I]; [contradiction|eauto]|]. exists m. split; [right; auto|]. split; auto. intros y [<-|Iy] Py; [contradiction|auto].
Qed.
Lemma cross_dec u q e : crosses2 u q e \/ ~ crosses2 u q e.
Proof. unfold crosses2. destruct (Rlt_dec ((ht u (fst e) - ht u q) * (ht u (snd e) - ht u q)) 0); auto. Qed.
Definition level (u q : p2) (l : list p2) : Prop := forall p, In p l -> ht u p <> ht u q.
Lemma zsum_zero {A} (f : A -> Z) l : (forall x, In x l -> f x = 0%Z) -> zsum (map f l) = 0%Z.
Proof. intros H. unfold zsum. induction l as [|x l IH]; auto. cbn [map fold_right]. rewrite IH by (intros y I; apply H; right; auto). rewrite (H x (or_introl eq_refl)). auto. Qed.
Section Value.
Context (l : list p2) (Sm : simple2 l) (v : Z) (Al : forall a b z u, In (a, b) (cyc_pairs l) -> between a b z -> (ht u a < ht u b -> wind u z l = v) /\ (ht u b < ht u a -> wind u z l = (v + 1)%Z)).
Lemma level_edge u q e : level u q l -> In e (cyc_pairs l) -> ht u (fst e) <> ht u q /\ ht u (snd e) <> ht u q.
Proof. intros L I. destruct (cyc_in l e I). split; apply L; auto. Qed.
(** The last crossing. *)
Lemma last_crossing u q : level u q l -> (exists e, In e (cyc_pairs l) /\ crosses2 u q e) -> v = 0%Z \/ v = (-1)%Z.
Proof.
  intros L X. destruct (argmax (when u q) (crosses2 u q) (cyc_pairs l) (cross_dec u q) X) as ((a, b) & I & C & M). pose proof (ray_between u q (a, b) C) as B. cbn [fst snd] in B.
  assert (W : wind u (ray2 u q (when u q (a, b))) l = 0%Z).
  { unfold wind. apply zsum_zero. intros e Ie. destruct (level_edge u q e L Ie) as (N1 & N2). destruct (ray_turn u q (when u q (a, b)) e N1 N2) as (T1 & T2 & _). destruct (cross_dec u q e) as [Ce|Ce]; auto. }
  destruct (Al a b _ u I B) as (A1 & A2). apply cross_signs in C. cbn [fst snd] in C. destruct C as [C|C]; [rewrite A1 in W by lra|rewrite A2 in W by lra]; lia.
Qed.
(** The first crossing. *)
Lemma first_crossing u q : level u q l -> wind u q l = 0%Z \/ wind u q l = v \/ wind u q l = (v + 1)%Z.
Proof.
  intros L. assert (Q0 : ray2 u q 0 = q) by (destruct q; unfold ray2; cbn; f_equal; ring).
  pose (P := fun e => crosses2 u q e /\ 0 < when u q e). assert (D : forall e, P e \/ ~ P e) by (intros e; unfold P; destruct (cross_dec u q e); [destruct (Rlt_dec 0 (when u q e)); [left|right]; tauto|right; tauto]).
  assert (C : (exists e, In e (cyc_pairs l) /\ P e) \/ forall e, In e (cyc_pairs l) -> ~ P e).
  { clear - D. induction (cyc_pairs l) as [|b es IH]; [right; intros e []|]. destruct (D b); [left; exists b; split; [left|]; auto|]. destruct IH as [(x & I & Px)|N]; [left; exists x; split; [right|]; auto|right]. intros e [<-|I]; auto. }
  destruct C as [C|C].
  - right. destruct (argmax (fun e => - when u q e) P (cyc_pairs l) D C) as ((a, b) & I & (Cr & Pos) & M). pose (k := when u q (a, b)). fold k in Pos. pose proof (ray_between u q (a, b) Cr) as B. fold k in B. cbn [fst snd] in B.
    assert (Nd : NoDup (cyc_pairs l)) by apply cyc_nodup, Sm. destruct (in_split _ _ I) as (l1 & l2 & E).
    assert (Others : forall e, In e (l1 ++ l2) -> turn2 u q e = turn2 u (ray2 u q k) e).
    { intros e Ie. assert (Ne : e <> (a, b)) by (intros ->; rewrite E in Nd; apply NoDup_remove_2 in Nd; auto). assert (Iu : In e (cyc_pairs l)) by (rewrite E; apply in_app_iff in Ie; apply in_app_iff; cbn [In]; tauto).
      destruct (level_edge u q e L Iu) as (N1 & N2). destruct (ray_turn u q k e N1 N2) as (T1 & T2 & T3). destruct (ray_turn u q 0 e N1 N2) as (T1' & T2' & T3'). rewrite Q0 in *.
      destruct (cross_dec u q e) as [Ce|Ce]; [|rewrite T1, T1'; auto]. destruct (Rlt_dec 0 (when u q e)) as [Po|Po].
      - specialize (M e Iu (conj Ce Po)). cbn beta in M. fold k in M. pose proof (ray_apart l u q e (a, b) Sm Iu I Ne Ce Cr) as Na. fold k in Na. specialize (T3 Ce ltac:(lra)). specialize (T3' Ce Po). destruct (cross_signs u q e Ce) as [G|G].
        + rewrite (proj1 T3), (proj1 T3'); auto; lra.
        + rewrite (proj2 T3), (proj2 T3'); auto; lra.
      - rewrite T2, T2'; auto; lra. }
    assert (W : (wind u q l = wind u (ray2 u q k) l + (turn2 u q (a, b) - turn2 u (ray2 u q k) (a, b)))%Z).
    { unfold wind. rewrite E, !map_app, !zsum_app. cbn [map]. unfold zsum. cbn [fold_right]. fold (zsum (map (turn2 u q) l2)) (zsum (map (turn2 u (ray2 u q k)) l2)). rewrite (map_ext_in (turn2 u q) (turn2 u (ray2 u q k)) l1) by (intros e Ie; apply Others, in_app_iff; auto). rewrite (map_ext_in (turn2 u q) (turn2 u (ray2 u q k)) l2) by (intros e Ie; apply Others, in_app_iff; auto). lia. }
    destruct (level_edge u q (a, b) L I) as (N1 & N2). destruct (ray_turn u q k (a, b) N1 N2) as (_ & T2 & _). destruct (ray_turn u q 0 (a, b) N1 N2) as (_ & _ & T3). rewrite Q0 in T3. rewrite (T2 Cr) in W by (unfold k; lra). specialize (T3 Cr Pos). cbn [fst snd] in T3.
    destruct (Al a b _ u I B) as (A1 & A2). apply cross_signs in Cr. cbn [fst snd] in Cr. destruct Cr as [G|G].
    + rewrite A1, (proj1 T3) in W by lra. lia.
    + rewrite A2, (proj2 T3) in W by lra. lia.
  - left. unfold wind. apply zsum_zero. intros e Ie. destruct (level_edge u q e L Ie) as (N1 & N2). destruct (ray_turn u q 0 e N1 N2) as (T1 & T2 & _). rewrite Q0 in *. destruct (cross_dec u q e) as [Ce|Ce]; auto. apply T2; auto. destruct (Rle_dec (when u q e) 0); auto. exfalso. apply (C e Ie). split; auto. lra.
Qed.
End Value.
Lemma level_exists q l : ~ In q l -> exists u, nonzero u /\ level u q l.
Proof.
  intros N. destruct (fresh (map (slope q) l)) as (t & F). exists (- t, 1). split; [intros E; injection E; lra|]. intros a I E. apply F, in_map_iff. exists a. split; auto. apply slope_of; [intros ->; auto|]. unfold ht in E. cbn [fst snd] in E. lra.
Qed.
(** A closed path that does not meet itself: one value on the right of all its
    edges, 0 or -1; one more on the left; and no others. *)
Lemma simple_values l : simple2 l -> exists v, (v = 0 \/ v = -1)%Z /\ (forall a b z u, In (a, b) (cyc_pairs l) -> between a b z -> (ht u a < ht u b -> wind u z l = v) /\ (ht u b < ht u a -> wind u z l = (v + 1)%Z)) /\
  forall q u, off l q -> nonzero u -> wind u q l = v \/ wind u q l = (v + 1)%Z.
Proof.
  intros S. destruct (all_along l S) as (v & A). exists v.
  assert (V : (v = 0 \/ v = -1)%Z).
  { destruct l as [|a [|b r]]; try (destruct S as (_ & L & _); cbn in L; lia). assert (I : In (a, b) (cyc_pairs (a :: b :: r))) by (rewrite cycle_first; left; auto). pose (z := at2 a b (1 / 2)). assert (B : between a b z) by (exists (1 / 2); split; [lra|auto]).
    assert (Nz : ~ In z (a :: b :: r)). { intros Iz. destruct (cyc_starts _ z Iz) as (c & Ic). destruct (between_ends a b z (simple_edge _ a b S I) B) as (Na & _). apply (between_edge _ (a, b) (z, c) z S I Ic); auto; [intros E; injection E as E _; auto|apply seg_ends]. }
    destruct (level_exists z _ Nz) as (u & Nu & L). apply (last_crossing _ v A u z L). exists (a, b). split; auto. unfold crosses2. cbn [fst snd]. pose proof (L a (or_introl eq_refl)) as Ha. unfold z in *. rewrite at2_ht in *. nra. }
  split; auto. split; auto. intros q u O Nu. destruct (level_exists q l (off_vertex l q O)) as (u' & Nu' & L). rewrite (wind_any u u' q l Nu Nu' O). destruct (first_crossing l S v A u' q L) as [E|[E|E]]; auto. rewrite E. lia.
Qed.
