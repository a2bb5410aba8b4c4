(** Ear clipping: structure of the result. *)
From Coq Require Import List Bool Arith Lia Permutation.
From Verif Require Import Prelude VecModel GeomSpec GeomProofs3 TriModel TriSpec.
Import ListNotations.

Section Tri.
Context {P : Type} (convex : P -> P -> P -> result bool) (inside : P -> P -> P -> P -> result bool).

Lemma at_index_ok {A} (l : list A) i x : at_index l i = Ok x <-> nth_error l i = Some x.
Proof. unfold at_index. destruct (nth_error l i); split; intros H; inversion H; auto. Qed.
Lemma at_index_lt {A} (l : list A) i : i < length l -> exists x, at_index l i = Ok x.
Proof. intros L. unfold at_index. destruct (nth_error l i) eqn:E; eauto. apply nth_error_None in E. lia. Qed.
Lemma pop_at_split {A} (l : list A) i x : nth_error l i = Some x -> exists a b, l = a ++ x :: b /\ length a = i /\ pop_at i l = Ok (a ++ b).
Proof.
  revert i. induction l as [|y l IH]; intros [|i] H; try discriminate; simpl in H.
  - inversion H; subst. exists [], l. auto.
  - destruct (IH i H) as (a & b & -> & L & E). exists (y :: a), b. simpl. rewrite E. simpl. auto.
Qed.

(** any_inside: false exactly when every other vertex tests outside. *)
Lemma any_inside_true pts a b c vs r : any_inside inside pts a b c vs true = Ok r -> r = true.
Proof.
  induction vs as [|(i, q) vs IH]; simpl; [intros H; inversion H; auto|]. destruct (_ || _); auto.
  destruct (at_index pts i); [|discriminate]. simpl. destruct (at_index pts a); [|discriminate]. simpl. destruct (at_index pts b); [|discriminate]. simpl.
  destruct (at_index pts c); [|discriminate]. simpl. destruct (inside _ _ _ _) as [[|]|]; simpl; auto; discriminate.
Qed.
Lemma any_inside_false pts a b c pa pb pc vs : nth_error pts a = Some pa -> nth_error pts b = Some pb -> nth_error pts c = Some pc ->
  (forall i, In i (map fst vs) -> i < length pts) ->
  any_inside inside pts a b c vs false = Ok false ->
  forall q pq, In q (map fst vs) -> q <> a -> q <> b -> q <> c -> nth_error pts q = Some pq -> inside pq pa pb pc = Ok false.
Proof.
  intros Ea Eb Ec. induction vs as [|(i, x) vs IH]; [contradiction|]. intros V H q pq I Na Nb Nc Eq.
  cbn [any_inside] in H. destruct ((i =? a) || (i =? b) || (i =? c)) eqn:T.
  - destruct I as [I|I]; [simpl in I; subst i; rewrite !orb_true_iff, !Nat.eqb_eq in T; tauto|]. apply (IH (fun j J => V j (or_intror J)) H q pq); auto.
  - rewrite (proj2 (at_index_ok pts a pa) Ea), (proj2 (at_index_ok pts b pb) Eb), (proj2 (at_index_ok pts c pc) Ec) in H.
    destruct (at_index pts i) as [pi|] eqn:Ei; [|discriminate]. cbn [rbind] in H. apply at_index_ok in Ei. destruct (inside pi pa pb pc) as [[|]|] eqn:Ei2; cbn [rbind] in H; try discriminate.
    + apply any_inside_true in H. discriminate.
    + destruct I as [I|I]; [simpl in I; subst i; congruence|]. apply (IH (fun j J => V j (or_intror J)) H q pq); auto.
Qed.
Lemma any_inside_total pts a b c vs acc : a < length pts -> b < length pts -> c < length pts -> (forall i, In i (map fst vs) -> i < length pts) ->
  (forall q pa pb pc, nth_error pts a = Some pa -> nth_error pts b = Some pb -> nth_error pts c = Some pc -> In q pts -> exists r, inside q pa pb pc = Ok r) ->
  exists r, any_inside inside pts a b c vs acc = Ok r.
Proof.
  intros La Lb Lc. revert acc. induction vs as [|(i, x) vs IH]; intros acc V T; simpl; eauto.
  destruct (_ || _); [apply IH; auto; intros; apply V; right; auto|].
  destruct (at_index_lt pts a La) as (pa & Ea), (at_index_lt pts b Lb) as (pb & Eb), (at_index_lt pts c Lc) as (pc & Ec), (at_index_lt pts i (V i (or_introl eq_refl))) as (q & Eq).
  rewrite Ea, Eb, Ec, Eq. cbn [rbind]. destruct (T q pa pb pc) as (r & E); try (apply at_index_ok; auto; fail).
  - apply at_index_ok in Eq. apply nth_error_In in Eq. auto.
  - rewrite E. cbn [rbind]. apply IH; auto. intros; apply V; right; auto.
Qed.
(** Errors come from the predicate. *)
Lemma any_inside_err pts a b c vs acc e : a < length pts -> b < length pts -> c < length pts -> (forall i, In i (map fst vs) -> i < length pts) ->
  any_inside inside pts a b c vs acc = Err e -> exists q pa pb pc, inside q pa pb pc = Err e.
Proof.
  intros La Lb Lc. revert acc. induction vs as [|(i, x) vs IH]; intros acc V H; simpl in H; [discriminate|].
  destruct (_ || _); [apply (IH acc); auto; intros; apply V; right; auto|].
  destruct (at_index_lt pts a La) as (pa & Ea), (at_index_lt pts b Lb) as (pb & Eb), (at_index_lt pts c Lc) as (pc & Ec), (at_index_lt pts i (V i (or_introl eq_refl))) as (q & Eq).
  rewrite Ea, Eb, Ec, Eq in H. cbn [rbind] in H. destruct (inside q pa pb pc) as [t|e'] eqn:E.
  - cbn [rbind] in H. apply (IH (if t then true else acc)); auto. intros; apply V; right; auto.
  - cbn [rbind] in H. inversion H; subst. eauto 6.
Qed.

(** Ids of the remaining vertices and their points. *)
Definition good (pts : list P) (vs : list (nat * P)) : Prop := forall i p, In (i, p) vs -> nth_error pts i = Some p.
Lemma good_lt pts vs : good pts vs -> forall i, In i (map fst vs) -> i < length pts.
Proof. intros G i I. apply in_map_iff in I. destruct I as ((j, p) & <- & I). apply G in I. apply nth_error_Some. simpl. congruence. Qed.
Lemma enumerate_good pts : good pts (enumerate pts).
Proof.
  intros i p I. unfold enumerate in I.
  assert (G : forall (l : list P) k, In (i, p) (combine (seq k (length l)) l) -> k <= i /\ nth_error l (i - k) = Some p).
  { induction l as [|x l IH]; intros k H; [contradiction|]. simpl in H. destruct H as [H|H].
    - inversion H; subst. rewrite Nat.sub_diag. auto.
    - destruct (IH _ H) as (L & E). split; [lia|]. replace (i - k) with (S (i - S k)) by lia. auto. }
  destruct (G pts 0 I) as (_ & E). rewrite Nat.sub_0_r in E. auto.
Qed.
Lemma enumerate_fst (pts : list P) : map fst (enumerate pts) = seq 0 (length pts).
Proof.
  unfold enumerate. generalize 0 at 1 2. induction pts as [|x l IH]; intros k; simpl; auto. f_equal. apply IH.
Qed.

(** Cyclic neighbours. *)
Lemma neighbours {A} (a b : list A) c p n :
  let vs := a ++ c :: b in 2 <= length vs ->
  nth_error vs (if 0 <? length a then length a - 1 else length vs - 1) = Some p ->
  nth_error vs (if length a <? length vs - 1 then length a + 1 else 0) = Some n ->
  (exists m, b ++ a = n :: m) /\ (exists m, b ++ a = m ++ [p]).
Proof.
  intros vs L Hp Hn. subst vs. split.
  - destruct b as [|y b].
    + destruct (length a <? length (a ++ [c]) - 1) eqn:E; [apply Nat.ltb_lt in E; rewrite app_length in E; simpl in E; lia|].
      destruct a as [|x a]; [simpl in L; lia|]. simpl in Hn. inversion Hn; subst. exists a. auto.
    + destruct (length a <? length (a ++ c :: y :: b) - 1) eqn:E; [|apply Nat.ltb_ge in E; rewrite app_length in E; simpl in E; lia].
      rewrite nth_error_app2 in Hn by lia. replace (length a + 1 - length a) with 1 in Hn by lia. simpl in Hn. inversion Hn; subst. exists (b ++ a). auto.
  - destruct (0 <? length a) eqn:E.
    + apply Nat.ltb_lt in E. destruct a as [|x a _] using rev_ind; [simpl in E; lia|]. rewrite app_length in Hp. cbn [length] in Hp.
      replace (length a + 1 - 1) with (length a) in Hp by lia. rewrite <- app_assoc in Hp. rewrite nth_error_app2 in Hp by lia. rewrite Nat.sub_diag in Hp. simpl in Hp. inversion Hp; subst.
      exists (b ++ a). rewrite app_assoc. auto.
    + apply Nat.ltb_ge in E. destruct a as [|x a]; [|simpl in E; lia]. cbn [app] in *. destruct b as [|y b _] using rev_ind; [simpl in L; lia|].
      assert (Q : length (c :: b ++ [y]) - 1 = S (length b)) by (simpl; rewrite app_length; simpl; lia). rewrite Q in Hp. cbn [nth_error] in Hp. rewrite nth_error_app2 in Hp by lia. rewrite Nat.sub_diag in Hp. simpl in Hp. inversion Hp; subst.
      exists b. rewrite app_nil_r. auto.
Qed.

(** One step of the loop, as a case analysis. *)
Lemma loop_step pts vs pos : 3 <= length vs -> let pos' := if length vs - 1 <? pos then 0 else pos in
  exists a b p c n, vs = a ++ c :: b /\ length a = pos' /\
    at_index vs (if 0 <? pos' then pos' - 1 else length vs - 1) = Ok p /\ at_index vs pos' = Ok c /\
    at_index vs (if pos' <? length vs - 1 then pos' + 1 else 0) = Ok n /\ pop_at pos' vs = Ok (a ++ b) /\
    (exists m, b ++ a = n :: m) /\ (exists m, b ++ a = m ++ [p]) /\ In p vs /\ In n vs /\ (good pts vs -> nth_error pts (fst p) = Some (snd p) /\ nth_error pts (fst c) = Some (snd c) /\ nth_error pts (fst n) = Some (snd n)).
Proof.
  intros L pos'. assert (Lp : pos' < length vs) by (unfold pos'; destruct (length vs - 1 <? pos) eqn:E; [|apply Nat.ltb_ge in E]; lia).
  destruct (at_index_lt vs pos' Lp) as (c & Ec). destruct (at_index_lt vs (if 0 <? pos' then pos' - 1 else length vs - 1)) as (p & Ep); [destruct (0 <? pos'); lia|].
  destruct (at_index_lt vs (if pos' <? length vs - 1 then pos' + 1 else 0)) as (n & En); [destruct (pos' <? length vs - 1) eqn:E; [apply Nat.ltb_lt in E|]; lia|].
  pose proof (proj1 (at_index_ok _ _ _) Ec) as Ec'. pose proof (proj1 (at_index_ok _ _ _) Ep) as Ep'. pose proof (proj1 (at_index_ok _ _ _) En) as En'.
  destruct (pop_at_split vs pos' c Ec') as (a & b & E & La & Epop). exists a, b, p, c, n.
  assert (NB : (exists m, b ++ a = n :: m) /\ (exists m, b ++ a = m ++ [p])). { apply (neighbours a b c p n). - rewrite <- E; lia. - rewrite <- E, La. auto. - rewrite <- E, La. auto. }
  destruct NB as (Nn & Np). pose proof (nth_error_In _ _ Ep'). pose proof (nth_error_In _ _ En'). pose proof (nth_error_In _ _ Ec') as Ic.
  repeat split; auto; intros; destruct p, c, n; simpl; auto.
Qed.

Lemma map_ex {A B} (f : A -> B) (b a : list A) n : (exists m, b ++ a = n :: m) -> exists m, map f b ++ map f a = f n :: m.
Proof. intros (m & E). exists (map f m). rewrite <- map_app, E. auto. Qed.
Lemma map_ex' {A B} (f : A -> B) (b a : list A) p : (exists m, b ++ a = m ++ [p]) -> exists m, map f b ++ map f a = m ++ [f p].
Proof. intros (m & E). exists (map f m). rewrite <- map_app, E, map_app. auto. Qed.

Lemma ear_loop_clipped pts fuel : forall vs tris pos nf r, good pts vs -> ear_loop convex inside fuel pts vs tris pos nf = Ok (Some r) ->
  exists ts, r = tris ++ ts /\ clipped (free_ear convex inside pts) (map fst vs) ts.
Proof.
  induction fuel as [|fuel IH]; intros vs tris pos nf r G H; [discriminate|]. cbn [ear_loop] in H.
  destruct (length vs <=? 2) eqn:E2.
  { inversion H; subst. exists []. rewrite app_nil_r. split; auto. constructor. apply Nat.leb_le in E2. rewrite map_length. auto. }
  apply Nat.leb_gt in E2. destruct (length pts <? nf); [discriminate|].
  destruct (loop_step pts vs pos) as (a & b & p & c & n & Evs & La & Ep & Ec & En & Epop & Nn & Np & Ip & In_ & Gp); [lia|].
  set (pos' := if length vs - 1 <? pos then 0 else pos) in *. cbn zeta in H. rewrite Ep, Ec, En in H. cbn [rbind] in H. destruct (Gp G) as (Pp & Pc & Pn).
  destruct (convex (snd p) (snd c) (snd n)) as [[|]|] eqn:Cv; cbn [rbind] in H; [|eauto|discriminate].
  destruct (any_inside inside pts (fst p) (fst c) (fst n) vs false) as [[|]|] eqn:Ai; cbn [rbind] in H; [eauto| |discriminate].
  rewrite Epop in H. cbn [rbind] in H.
  assert (G' : good pts (a ++ b)). { intros i q I. apply G. rewrite Evs. apply in_app_iff in I. apply in_app_iff. simpl. tauto. }
  destruct (IH _ _ _ _ _ G' H) as (ts & -> & Cl). exists ((fst p, fst c, fst n) :: ts). rewrite <- app_assoc. split; auto.
  rewrite Evs, map_app. cbn [map]. rewrite map_app in Cl. constructor; auto.
  - apply map_ex; auto.
  - apply map_ex'; auto.
  - rewrite app_length, map_length. cbn [length]. rewrite map_length. rewrite Evs, app_length in E2. simpl in E2. lia.
  - exists (snd p), (snd c), (snd n). repeat split; auto. intros q pq I N1 N2 N3 Eq.
    apply (any_inside_false pts (fst p) (fst c) (fst n) (snd p) (snd c) (snd n) vs) with (q := q); auto.
    + apply good_lt; auto.
    + rewrite Evs, map_app. auto.
Qed.

Lemma ear_loop_fuel pts fuel : forall vs tris pos nf, length vs + (length pts + 2 - nf) <= fuel -> 1 <= fuel -> good pts vs ->
  (forall a b c, convex a b c <> Err OutOfFuel) -> (forall q a b c, inside q a b c <> Err OutOfFuel) -> ear_loop convex inside fuel pts vs tris pos nf <> Err OutOfFuel.
Proof.
  induction fuel as [|fuel IH]; intros vs tris pos nf L L1 G C I; [lia|]. cbn [ear_loop]. destruct (length vs <=? 2) eqn:E2; [discriminate|]. apply Nat.leb_gt in E2.
  destruct (length pts <? nf) eqn:En0; [discriminate|]. apply Nat.ltb_ge in En0.
  destruct (loop_step pts vs pos) as (a & b & p & c & n & Evs & La & Ep & Ec & En & Epop & Nn & Np & Ip & In_ & Gp); [lia|].
  set (pos' := if length vs - 1 <? pos then 0 else pos) in *. cbn zeta. rewrite Ep, Ec, En. cbn [rbind]. destruct (Gp G) as (Pp & Pc & Pn).
  destruct (convex (snd p) (snd c) (snd n)) as [[|]|e] eqn:Cv; cbn [rbind]; [|apply IH; auto; lia|intros H; inversion H; subst; apply (C _ _ _ Cv)].
  destruct (any_inside inside pts (fst p) (fst c) (fst n) vs false) as [[|]|e] eqn:Ai; cbn [rbind]; [apply IH; auto; lia| |].
  - rewrite Epop. cbn [rbind]. apply IH; auto.
    + rewrite Evs in L. rewrite app_length in *. cbn [length] in L. lia.
    + lia.
    + intros i q J. apply G. rewrite Evs. apply in_app_iff in J. apply in_app_iff. simpl. tauto.
  - intros H; inversion H; subst. apply any_inside_err in Ai; try (apply nth_error_Some; congruence); [|apply good_lt; auto]. destruct Ai as (q & pa & pb & pc & Ai). apply (I _ _ _ _ Ai).
Qed.

(** With predicates that are defined wherever the loop calls them, there is no error. *)
Lemma ear_loop_total pts fuel : forall vs tris pos nf, good pts vs ->
  (forall a b c, In a pts -> In b pts -> In c pts -> exists r, convex a b c = Ok r) ->
  (forall q a b c, convex a b c = Ok true -> exists r, inside q a b c = Ok r) ->
  (exists r, ear_loop convex inside fuel pts vs tris pos nf = Ok r) \/ ear_loop convex inside fuel pts vs tris pos nf = Err OutOfFuel.
Proof.
  induction fuel as [|fuel IH]; intros vs tris pos nf G C I; [auto|]. cbn [ear_loop]. destruct (length vs <=? 2) eqn:E2; [eauto|]. apply Nat.leb_gt in E2.
  destruct (length pts <? nf) eqn:En0; [eauto|].
  destruct (loop_step pts vs pos) as (a & b & p & c & n & Evs & La & Ep & Ec & En & Epop & Nn & Np & Ip & In_ & Gp); [lia|].
  set (pos' := if length vs - 1 <? pos then 0 else pos) in *. cbn zeta. rewrite Ep, Ec, En. cbn [rbind]. destruct (Gp G) as (Pp & Pc & Pn).
  destruct (C (snd p) (snd c) (snd n)) as (cv & Cv); try (eapply nth_error_In; eauto; fail). rewrite Cv. cbn [rbind]. destruct cv; [|apply IH; auto].
  destruct (any_inside_total pts (fst p) (fst c) (fst n) vs false) as (bad & Ai); try (apply nth_error_Some; congruence); [apply good_lt; auto| |].
  - intros q pa pb pc E1 E3 E4 _. rewrite Pp in E1. rewrite Pc in E3. rewrite Pn in E4. inversion E1; inversion E3; inversion E4; subst. apply I; auto.
  - rewrite Ai. cbn [rbind]. destruct bad; [apply IH; auto|]. rewrite Epop. cbn [rbind]. apply IH; auto. intros i q J. apply G. rewrite Evs. apply in_app_iff in J. apply in_app_iff. simpl. tauto.
Qed.
Lemma enumerate_length (pts : list P) : length (enumerate pts) = length pts.
Proof. rewrite <- (map_length fst), enumerate_fst, seq_length. auto. Qed.
(** Only the predicates' errors are passed on. *)
Lemma ear_loop_err pts fuel : forall vs tris pos nf e, good pts vs -> ear_loop convex inside fuel pts vs tris pos nf = Err e ->
  e = OutOfFuel \/ (exists a b c, In a pts /\ In b pts /\ In c pts /\ convex a b c = Err e) \/ (exists q a b c, convex a b c = Ok true /\ inside q a b c = Err e).
Proof.
  induction fuel as [|fuel IH]; intros vs tris pos nf e G H; [inversion H; auto|]. cbn [ear_loop] in H. destruct (length vs <=? 2) eqn:E2; [discriminate|]. apply Nat.leb_gt in E2.
  destruct (length pts <? nf); [discriminate|].
  destruct (loop_step pts vs pos) as (a & b & p & c & n & Evs & La & Ep & Ec & En & Epop & Nn & Np & Ip & In_ & Gp); [lia|].
  set (pos' := if length vs - 1 <? pos then 0 else pos) in *. cbn zeta in H. rewrite Ep, Ec, En in H. cbn [rbind] in H. destruct (Gp G) as (Pp & Pc & Pn).
  destruct (convex (snd p) (snd c) (snd n)) as [[|]|e'] eqn:Cv; cbn [rbind] in H; [|eauto|].
  - destruct (any_inside inside pts (fst p) (fst c) (fst n) vs false) as [[|]|e'] eqn:Ai; cbn [rbind] in H; [eauto| |].
    + rewrite Epop in H. cbn [rbind] in H. apply IH in H; auto. intros i q J. apply G. rewrite Evs. apply in_app_iff in J. apply in_app_iff. simpl. tauto.
    + injection H as <-. right. right. clear - Ai Cv Pp Pc Pn G.
      assert (V : forall i, In i (map fst vs) -> i < length pts) by (apply good_lt; auto). clear G. revert Ai. generalize false. revert V.
      induction vs as [|(i, x) vs IH]; intros V acc H; simpl in H; [discriminate|]. destruct (_ || _); [apply (IH (fun j J => V j (or_intror J)) acc H)|].
      destruct (at_index_lt pts i (V i (or_introl eq_refl))) as (q & Eq). rewrite Eq in H. cbn [rbind] in H.
      rewrite (proj2 (at_index_ok _ _ _) Pp), (proj2 (at_index_ok _ _ _) Pc), (proj2 (at_index_ok _ _ _) Pn) in H. cbn [rbind] in H. destruct (inside q (snd p) (snd c) (snd n)) as [t|e2] eqn:E; cbn [rbind] in H.
      * apply (IH (fun j J => V j (or_intror J)) _ H).
      * inversion H; subst. eauto 7.
  - inversion H; subst. right. left. exists (snd p), (snd c), (snd n). repeat split; auto; eapply nth_error_In; eauto.
Qed.

Lemma triangulate_spec z pts pts' ts : triangulate convex inside z pts = Ok (pts', ts) ->
  z = false /\ (pts' = pts \/ pts' = rev pts) /\ clipped (free_ear convex inside pts') (seq 0 (length pts)) ts.
Proof.
  unfold triangulate, triangulate_from. destruct z; [discriminate|]. intros H. split; auto.
  destruct (ear_loop convex inside (2 * length pts + 2) pts (enumerate pts) [] 0 0) as [[r|]|] eqn:E; cbn [rbind] in H; try discriminate.
  - inversion H; subst. split; auto. destruct (ear_loop_clipped _ _ _ _ _ _ _ (enumerate_good pts') E) as (ts' & -> & C). rewrite enumerate_fst in C. auto.
  - destruct (ear_loop convex inside (2 * length (rev pts) + 2) (rev pts) (enumerate (rev pts)) [] 0 0) as [[r|]|] eqn:E'; cbn [rbind] in H; try discriminate.
    inversion H; subst. split; auto. destruct (ear_loop_clipped _ _ _ _ _ _ _ (enumerate_good (rev pts)) E') as (ts' & -> & C). rewrite enumerate_fst, rev_length in C. auto.
Qed.
Lemma triangulate_fuel z pts : (forall a b c, convex a b c <> Err OutOfFuel) -> (forall q a b c, inside q a b c <> Err OutOfFuel) -> triangulate convex inside z pts <> Err OutOfFuel.
Proof.
  intros C I. unfold triangulate, triangulate_from. destruct z; [discriminate|].
  assert (F : forall l, ear_loop convex inside (2 * length l + 2) l (enumerate l) [] 0 0 <> Err OutOfFuel) by (intros l; apply ear_loop_fuel; auto; rewrite ?enumerate_length; try lia; apply enumerate_good).
  pose proof (F pts) as F1. pose proof (F (rev pts)) as F2. destruct (ear_loop _ _ _ pts _ _ _ _) as [[r|]|e]; cbn [rbind]; try discriminate; [|congruence].
  destruct (ear_loop _ _ _ (rev pts) _ _ _ _) as [[r|]|e]; cbn [rbind]; try discriminate. congruence.
Qed.
Lemma triangulate_total z pts : (forall a b c, convex a b c <> Err OutOfFuel) -> (forall q a b c, inside q a b c <> Err OutOfFuel) ->
  (forall a b c, In a pts -> In b pts -> In c pts -> exists r, convex a b c = Ok r) ->
  (forall q a b c, convex a b c = Ok true -> exists r, inside q a b c = Ok r) ->
  (exists r, triangulate convex inside z pts = Ok r) \/ triangulate convex inside z pts = Err TriangulationError.
Proof.
  intros C I T U. unfold triangulate, triangulate_from. destruct z; [auto|].
  assert (F : forall l, (forall x, In x l -> In x pts) -> exists r, ear_loop convex inside (2 * length l + 2) l (enumerate l) [] 0 0 = Ok r).
  { intros l S. destruct (ear_loop_total l (2 * length l + 2) (enumerate l) [] 0 0 (enumerate_good l)) as [H|H]; auto.
    exfalso. revert H. apply ear_loop_fuel; auto; rewrite ?enumerate_length; try lia; apply enumerate_good. }
  destruct (F pts) as (r1 & ->); auto. destruct (F (rev pts)) as (r2 & ->); [intros x; rewrite <- in_rev; auto|]. cbn [rbind]. destruct r1; [eauto|]. cbn [rbind]. destruct r2; eauto.
Qed.
Lemma triangulate_err z pts e : triangulate convex inside z pts = Err e ->
  e = TriangulationError \/ e = OutOfFuel \/ (exists a b c, In a pts /\ In b pts /\ In c pts /\ convex a b c = Err e) \/ (exists q a b c, convex a b c = Ok true /\ inside q a b c = Err e).
Proof.
  unfold triangulate, triangulate_from. destruct z; [intros H; inversion H; auto|]. intros H.
  destruct (ear_loop convex inside (2 * length pts + 2) pts (enumerate pts) [] 0 0) as [[r|]|e1] eqn:E; cbn [rbind] in H; try discriminate.
  - destruct (ear_loop convex inside (2 * length (rev pts) + 2) (rev pts) (enumerate (rev pts)) [] 0 0) as [[r|]|e2] eqn:E'; cbn [rbind] in H; try discriminate; [inversion H; auto|].
    inversion H; subst. right. apply ear_loop_err in E'; [|apply enumerate_good]. destruct E' as [?|[(a & b & c & Ia & Ib & Ic & X)|?]]; auto. right. left. exists a, b, c. rewrite <- in_rev in Ia, Ib, Ic. auto.
  - inversion H; subst. right. apply ear_loop_err in E; [|apply enumerate_good]. auto.
Qed.
End Tri.

(** Consequences of the clipping relation. *)
Section Clip.
Context {A : Type} (ear : list A -> A -> A -> A -> Prop).

Lemma clipped_length ring ts : clipped ear ring ts -> length ts = length ring - 2.
Proof. induction 1; [simpl; lia|]. rewrite app_length in *. cbn [length] in *. lia. Qed.
Lemma ring_members (a b : list A) c p n : 3 <= length (a ++ c :: b) -> NoDup (a ++ c :: b) -> (exists m, b ++ a = n :: m) -> (exists m, b ++ a = m ++ [p]) ->
  p <> c /\ c <> n /\ p <> n /\ In p (a ++ b) /\ In n (a ++ b) /\ In c (a ++ c :: b) /\ ~ In c (a ++ b).
Proof.
  intros L N (m & E) (m' & E'). apply NoDup_remove in N. destruct N as (N & Nc). rewrite app_length in L. cbn [length] in L.
  assert (Pm : Permutation (a ++ b) (b ++ a)) by apply Permutation_app_comm.
  assert (In_ : In n (a ++ b)) by (apply (Permutation_in _ (Permutation_sym Pm)); rewrite E; left; auto).
  assert (Ip : In p (a ++ b)) by (apply (Permutation_in _ (Permutation_sym Pm)); rewrite E'; apply in_app_iff; right; left; auto).
  assert (N2 : NoDup (b ++ a)) by (apply (Permutation_NoDup Pm); auto). assert (L2 : 2 <= length (b ++ a)) by (rewrite app_length; lia).
  repeat split; auto; try (intros ->; tauto).
  - intros ->. destruct m as [|y m].
    + rewrite E in L2. simpl in L2. lia.
    + rewrite E in E', N2. assert (In n (y :: m)). { destruct m' as [|z m']; [inversion E'|]. inversion E'; subst. rewrite H1. apply in_app_iff. right. left. auto. } inversion N2; subst. tauto.
  - apply in_app_iff. right. left. auto.
Qed.
Lemma clipped_distinct ring ts : clipped ear ring ts -> NoDup ring -> forall a b c, In (a, b, c) ts -> a <> b /\ b <> c /\ a <> c /\ In a ring /\ In b ring /\ In c ring.
Proof.
  induction 1 as [|bf c af p n ts Hn Hp L E C IH]; intros N x y z I; [contradiction|].
  destruct (ring_members bf af c p n L N Hn Hp) as (A1 & A2 & A3 & A4 & A5 & A6 & _).
  assert (S : forall q, In q (bf ++ af) -> In q (bf ++ c :: af)) by (intros q; rewrite !in_app_iff; simpl; tauto).
  destruct I as [I|I]; [inversion I; subst; repeat split; auto|]. apply NoDup_remove in N. destruct (IH (proj1 N) _ _ _ I) as (B1 & B2 & B3 & B4 & B5 & B6). repeat split; auto.
Qed.
Lemma clipped_every ring ts : clipped ear ring ts -> 3 <= length ring -> NoDup ring -> forall v, In v ring -> exists a b c, In (a, b, c) ts /\ (v = a \/ v = b \/ v = c).
Proof.
  induction 1 as [|bf c af p n ts Hn Hp L E C IH]; intros L3 N v I; [lia|].
  destruct (ring_members bf af c p n L N Hn Hp) as (_ & _ & A3 & A4 & A5 & _ & _).
  destruct (le_lt_dec 3 (length (bf ++ af))) as [K|K].
  - apply in_app_iff in I. simpl in I. assert (D : v = c \/ In v (bf ++ af)) by (rewrite in_app_iff; intuition). destruct D as [->|D].
    + exists p, c, n. split; [left; auto|auto].
    + apply NoDup_remove in N. destruct (IH K (proj1 N) v D) as (x & y & z & J & Q). exists x, y, z. split; [right; auto|auto].
  - exists p, c, n. split; [left; auto|]. apply in_app_iff in I. simpl in I. assert (D : v = c \/ In v (bf ++ af)) by (rewrite in_app_iff; intuition). destruct D as [->|D]; auto.
    rewrite app_length in L. cbn [length] in L. rewrite app_length in K. apply NoDup_remove in N. destruct N as (N & _).
    destruct (bf ++ af) as [|u [|w [|t q]]] eqn:R; try (apply (f_equal (@length A)) in R; rewrite app_length in R; simpl in R; lia).
    simpl in *. intuition congruence.
Qed.
Lemma clipped_ears ring ts : clipped ear ring ts -> forall t, In t ts -> exists r, incl r ring /\ let '(a, b, c) := t in ear r a b c.
Proof.
  induction 1 as [|bf c af p n ts Hn Hp L E C IH]; intros t I; [contradiction|]. destruct I as [<-|I]; [eexists; split; [apply incl_refl|auto]|].
  destruct (IH t I) as (r & S & T). exists r. split; auto. intros x X. apply S in X. rewrite in_app_iff in *. simpl. tauto.
Qed.

(** Edges. *)
Lemma cyc_corner (a b : list A) c p n : (exists m, b ++ a = n :: m) -> (exists m, b ++ a = m ++ [p]) ->
  exists o, Permutation (cyc_pairs (a ++ c :: b)) ((p, c) :: (c, n) :: o) /\ Permutation (cyc_pairs (a ++ b)) ((p, n) :: o) /\ o = open_pairs (b ++ a).
Proof.
  intros (m & E) (m' & E'). exists (open_pairs (b ++ a)). split; [|split; auto].
  - eapply Permutation_trans; [apply (cyc_pairs_rotation (a ++ c :: b) ((c :: b) ++ a)); exists a, (c :: b); auto|].
    change ((c :: b) ++ a) with (c :: b ++ a). rewrite cyc_open. cbn [app]. rewrite E' at 1. rewrite <- app_assoc. cbn [app].
    assert (X : open_pairs (c :: m' ++ [p; c]) = open_pairs (c :: (b ++ a)) ++ [(p, c)]).
    { rewrite E'. change (c :: m' ++ [p; c]) with ((c :: m') ++ [p; c]). replace ((c :: m') ++ [p; c]) with (((c :: m') ++ [p]) ++ (c :: [])) by (rewrite <- app_assoc; auto).
      rewrite open_pairs_app. reflexivity. }
    rewrite X, E. change (open_pairs (c :: n :: m)) with ((c, n) :: open_pairs (n :: m)).
    eapply Permutation_trans; [apply Permutation_app_comm|]. cbn [app]. apply Permutation_refl.
  - eapply Permutation_trans; [apply (cyc_pairs_rotation (a ++ b) (b ++ a)); exists a, b; auto|]. rewrite E at 1. rewrite cyc_open. rewrite <- E. rewrite E' at 1. rewrite <- app_assoc. cbn [app].
    replace (m' ++ [p; n]) with ((m' ++ [p]) ++ (n :: [])) by (rewrite <- app_assoc; auto). rewrite open_pairs_app. rewrite <- E'. eapply Permutation_trans; [apply Permutation_app_comm|]. apply Permutation_refl.
Qed.
Lemma two_ring (l : list A) p n : length l = 2 -> (exists m, l = n :: m) -> (exists m, l = m ++ [p]) -> l = [n; p].
Proof. intros L (m & ->) (m' & E). destruct m as [|x [|y m]]; try (simpl in L; lia). destruct m' as [|z [|w m']]; inversion E; subst; auto. destruct m'; discriminate. Qed.

Lemma clipped_edges ring ts : clipped ear ring ts -> 3 <= length ring ->
  exists d, length d = length ring - 3 /\ incl (map fst d) ring /\ incl (map snd d) ring /\ Permutation (tri_edges ts) (cyc_pairs ring ++ both_ways d).
Proof.
  induction 1 as [|bf c af p n ts Hn Hp L E C IH]; intros L3; [lia|]. clear L3.
  destruct (cyc_corner bf af c p n Hn Hp) as (o & P1 & P2 & Eo).
  assert (M : Permutation (bf ++ af) (af ++ bf)) by apply Permutation_app_comm.
  assert (Ip : In p (bf ++ c :: af)). { destruct Hp as (m & Em). rewrite in_app_iff. simpl. assert (X : In p (af ++ bf)) by (rewrite Em, in_app_iff; simpl; auto). rewrite in_app_iff in X. tauto. }
  assert (In_ : In n (bf ++ c :: af)). { destruct Hn as (m & Em). rewrite in_app_iff. simpl. assert (X : In n (af ++ bf)) by (rewrite Em; simpl; auto). rewrite in_app_iff in X. tauto. }
  destruct (le_lt_dec 3 (length (bf ++ af))) as [K|K].
  - destruct (IH K) as (d & Ld & I1 & I2 & Pd). exists ((p, n) :: d). split; [cbn [length]; rewrite Ld; rewrite !app_length in *; cbn [length] in *; lia|].
    assert (S : incl (bf ++ af) (bf ++ c :: af)) by (intros x; rewrite !in_app_iff; simpl; tauto).
    split; [intros x [<-|X]; auto|]. split; [intros x [<-|X]; auto|].
    cbn [tri_edges flat_map both_ways app fst snd]. fold (tri_edges ts). fold (both_ways d).
    eapply Permutation_trans; [do 3 apply perm_skip; apply Pd|].
    eapply Permutation_trans; [do 3 apply perm_skip; apply Permutation_app_tail; apply P2|].
    eapply Permutation_trans; [|apply Permutation_app_tail; apply Permutation_sym; apply P1]. cbn [app]. do 2 apply perm_skip.
    eapply Permutation_trans; [|apply Permutation_middle]. eapply Permutation_trans; [apply perm_swap|]. apply perm_skip. apply Permutation_middle.
  - assert (L2 : length (af ++ bf) = 2) by (rewrite app_length in *; cbn [length] in *; lia).
    exists []. split; [rewrite app_length in *; cbn [length] in *; lia|]. split; [intros x []|]. split; [intros x []|].
    assert (T : ts = []). { apply clipped_length in C. rewrite app_length in *. destruct ts; auto. simpl in C. lia. } subst ts. cbn [tri_edges flat_map both_ways app]. rewrite app_nil_r.
    pose proof (two_ring _ p n L2 Hn Hp) as R. eapply Permutation_trans; [|apply Permutation_sym; apply P1]. rewrite Eo, R. apply Permutation_refl.
Qed.

Lemma cyc_fst (l : list A) : map fst (cyc_pairs l) = l.
Proof.
  destruct l as [|x r]; auto. unfold cyc_pairs. assert (G : forall (a b : list A), length a = length b -> map fst (combine a b) = a).
  { induction a as [|y a IH]; intros [|z b] L; simpl in *; try lia; auto. f_equal. apply IH. lia. }
  apply G. rewrite app_length. simpl. lia.
Qed.
Lemma cyc_members (l : list A) e : In e (cyc_pairs l) -> In (fst e) l /\ In (snd e) l.
Proof.
  intros I. split; [rewrite <- (cyc_fst l); apply in_map; auto|]. apply (Permutation_in _ (Permutation_sym (cyc_fst_snd l))) with (x := snd e) in I || idtac.
  rewrite <- (cyc_fst l). apply (Permutation_in _ (Permutation_sym (cyc_fst_snd l))). apply in_map. auto.
Qed.
Lemma nodup_fst {B C} (l : list (B * C)) a x y : NoDup (map fst l) -> In (a, x) l -> In (a, y) l -> x = y.
Proof.
  induction l as [|(b, z) l IH]; [contradiction|]. simpl. intros N. inversion N; subst. intros [E|I] [E'|J].
  - congruence.
  - inversion E; subst. exfalso. apply H1. apply (in_map fst) in J. auto.
  - inversion E'; subst. exfalso. apply H1. apply (in_map fst) in I. auto.
  - auto.
Qed.
Lemma clipped_vertices ring ts : clipped ear ring ts -> NoDup ring -> forall e, In e (tri_edges ts) -> In (fst e) ring /\ In (snd e) ring.
Proof.
  intros C N e I. unfold tri_edges in I. apply in_flat_map in I. destruct I as (((a, b), c) & I & J). destruct (clipped_distinct _ _ C N _ _ _ I) as (_ & _ & _ & A1 & A2 & A3).
  simpl in J. intuition subst; simpl; auto.
Qed.
Lemma clipped_edges_nodup ring ts : clipped ear ring ts -> NoDup ring -> NoDup (tri_edges ts).
Proof.
  induction 1 as [|bf c af p n ts Hn Hp L E C IH]; intros N; [constructor|].
  destruct (ring_members bf af c p n L N Hn Hp) as (A1 & A2 & A3 & A4 & A5 & A6 & A7). pose proof (NoDup_remove_1 _ _ _ N) as N'. specialize (IH N').
  cbn [tri_edges flat_map app]. fold (tri_edges ts). pose proof (clipped_vertices _ _ C N') as V.
  assert (B1 : ~ In (p, c) (tri_edges ts)) by (intros I; apply V in I; simpl in I; tauto). assert (B2 : ~ In (c, n) (tri_edges ts)) by (intros I; apply V in I; simpl in I; tauto).
  assert (B3 : ~ In (n, p) (tri_edges ts)).
  { intros I. destruct (le_lt_dec 3 (length (bf ++ af))) as [K|K].
    - destruct (clipped_edges _ _ C K) as (d & Ld & I1 & I2 & Pd). destruct (cyc_corner bf af c p n Hn Hp) as (o & _ & P2 & _).
      assert (Ic : In (p, n) (cyc_pairs (bf ++ af))) by (apply (Permutation_in _ (Permutation_sym P2)); left; auto).
      pose proof (Permutation_NoDup Pd IH) as ND. apply (Permutation_in _ Pd) in I. apply in_app_iff in I. destruct I as [I|I].
      + assert (M : Permutation (cyc_pairs (bf ++ af)) (cyc_pairs (af ++ bf))) by (apply cyc_pairs_rotation; exists bf, af; auto). apply (Permutation_in _ M) in I.
        assert (N2 : NoDup (af ++ bf)) by (apply (Permutation_NoDup (Permutation_app_comm bf af)); auto). destruct Hn as (m & Em), Hp as (m' & Em').
        destruct m as [|y m]. { rewrite app_length in K. apply (f_equal (@length A)) in Em. rewrite app_length in Em. simpl in Em. lia. }
        assert (Iy : In (n, y) (cyc_pairs (af ++ bf))) by (rewrite Em; left; auto). assert (F : NoDup (map fst (cyc_pairs (af ++ bf)))) by (rewrite cyc_fst; auto).
        pose proof (nodup_fst _ _ _ _ F I Iy) as Q. subst y. rewrite Em in N2, Em'. destruct m as [|z m].
        { rewrite app_length in K. apply (f_equal (@length A)) in Em. rewrite app_length in Em. simpl in Em. lia. }
        destruct m' as [|u [|w m']]; try discriminate. cbn [app] in Em'. injection Em' as _ _ Em'.
        inversion_clear N2 as [|? ? _ N3]. inversion_clear N3 as [|? ? Q _]. apply Q. rewrite Em'. apply in_app_iff. right. left. auto.
      + assert (J : In (p, n) (both_ways d)). { unfold both_ways in *. apply in_flat_map in I. destruct I as (e & De & [Q|[Q|[]]]); apply in_flat_map; exists e; split; auto; destruct e; simpl in *; inversion Q; subst; auto. }
        apply in_split in J. destruct J as (u & w & J). rewrite J in ND. rewrite app_assoc in ND. apply NoDup_remove_2 in ND. apply ND. rewrite !in_app_iff. auto.
    - apply clipped_length in C. rewrite app_length in *. destruct ts; [contradiction|simpl in C; lia]. }
  constructor; [simpl; intros [Q|[Q|Q]]; [inversion Q; congruence|inversion Q; congruence|tauto]|].
  constructor; [simpl; intros [Q|Q]; [inversion Q; congruence|tauto]|]. constructor; auto.
Qed.
End Clip.
