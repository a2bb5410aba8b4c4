(** Rounds of stitching. *)
From Coq Require Import Ascii String Reals List Bool Arith Lia Lra.
From Verif Require Import Prelude TreeModel VecModel VecProofs GeomModel GeomProofs1 GeomProofs2 GeomProofs3 GeomProofs4 TriModel PolyModel PolySpec SolidModel VisModel SliceModel SliceSpec SliceProofs6 PlanProofs3 StitchModel StitchSpec StitchProofs1.
Import ListNotations.
Local Open Scope R_scope.

(** A successful replacement. *)
Definition swap_in (old : str) (news : list npoly) (w : str * wall) : str * wall :=
  if memb old (map fst (snd w)) then (fst w, ddel (snd w) old ++ news) else w.
Lemma walls_ok old news : forall rest done s', replace_walls done rest old news = (s', Ok tt) -> s' = done ++ map (swap_in old news) rest.
Proof.
  induction rest as [|(wn, w) rest IH]; intros done s'; cbn [replace_walls map].
  - intros H. injection H as <-. rewrite app_nil_r. auto.
  - unfold swap_in at 1. cbn [fst snd]. destruct (memb old (map fst w)) eqn:M.
    + apply memb_true in M. destruct (wall_replace w old news) as (w', res) eqn:W. destruct (wall_replace_spec w old news w' res M W) as (dn & rs & E & Ew & _ & D). destruct res as [|e]; [|discriminate].
      intros H. rewrite (IH _ _ H), <- app_assoc. cbn [app]. destruct D as [(_ & ->)|(X & _)]; [|discriminate]. rewrite app_nil_r in E. subst dn. rewrite Ew. auto.
    + intros H. rewrite (IH _ _ H), <- app_assoc. auto.
Qed.
Lemma replace_ok s old news s' : unique_names s -> replace_polygon s old news = (s', Ok tt) -> s' = map (swap_in old news) s.
Proof. intros U H. rewrite replace_eq in H by auto. apply (walls_ok _ _ _ _ _ H). Qed.
Lemma replace_error s old news s' e : unique_names s -> replace_polygon s old news = (s', Err e) -> e = GeometryError.
Proof. intros U H. rewrite replace_eq in H by auto. destruct (walls_swapped _ _ _ _ _ _ H) as (r' & _ & _ & [X|X] & _); congruence. Qed.
Lemma replace_has s old news s' p q : unique_names s -> has_poly s p -> fst p = old -> In q news -> replace_polygon s old news = (s', Ok tt) -> has_poly s' q.
Proof.
  intros U (w & Iw & Ip) Ep Iq H. rewrite (replace_ok _ _ _ _ U H). exists (swap_in old news w). split; [apply in_map; auto|]. unfold swap_in. rewrite (proj2 (memb_true _ _)) by (apply in_map_iff; eauto). cbn [snd]. apply in_or_app. auto.
Qed.

Lemma piece_refl p : piece p p.
Proof. split; auto. exists []. split; [intros m []|]. cbn. rewrite app_nil_r. auto. Qed.
Lemma piece_trans p q r : piece p q -> piece q r -> piece p r.
Proof.
  intros ((m1 & A1 & E1) & V1) ((m2 & A2 & E2) & V2). split; [|congruence]. exists (m1 ++ m2). split; [intros m I; apply in_app_or in I; destruct I; auto|]. rewrite E2, E1, concat_app, app_assoc. auto.
Qed.
Lemma sliced_pieces rid p pts a b : slice_one rid p pts = Ok (Some (a, b)) -> piece p a /\ piece p b.
Proof.
  intros H. destruct (sliced_names _ _ _ _ _ H) as (N1 & N2 & V1 & V2 & _). split; (split; [|auto]).
  - exists [str_of "-main"]. split; [intros m [<-|[]]; auto|]. rewrite N1. cbn [concat]. rewrite app_nil_r. auto.
  - exists [str_of "-sup"]. split; [intros m [<-|[]]; auto|]. rewrite N2. cbn [concat]. rewrite app_nil_r. auto.
Qed.
Lemma refines_refl s : refines s s.
Proof. split; auto. split; auto. intros q H. exists q. split; auto. apply piece_refl. Qed.
Lemma refines_trans a b c : refines a b -> refines b c -> refines a c.
Proof.
  intros (K1 & U1 & P1) (K2 & U2 & P2). split; [congruence|]. split; auto. intros q H. destruct (P2 _ H) as (p & Hp & Q). destruct (P1 _ Hp) as (p0 & Hp0 & Q0). exists p0. split; auto. apply (piece_trans _ _ _ Q0 Q).
Qed.
(** How a solid may change in one step without an exception. *)
Definition grows {A} (s : solid) (r : solid * result A) : Prop :=
  refines s (fst r) /\ (forall x, snd r = Ok x -> fst r = s \/ (count_polys s < count_polys (fst r))%nat).
Lemma one_grows rid s p pts : unique_names s -> has_poly s p -> grows s (slice_one_and_replace rid s p pts) /\
  (forall a b, snd (slice_one_and_replace rid s p pts) = Ok (Some (a, b)) -> has_poly (fst (slice_one_and_replace rid s p pts)) a) /\
  (snd (slice_one_and_replace rid s p pts) = Ok None -> fst (slice_one_and_replace rid s p pts) = s).
Proof.
  intros U H. unfold slice_one_and_replace. destruct (slice_one rid p pts) as [[(a, b)|]|e] eqn:E.
  - destruct (sliced_pieces _ _ _ _ _ E) as (P1 & P2). destruct (replace_polygon s (fst p) [a; b]) as (s', [u|e]) eqn:R.
    + destruct u. cbn [fst snd]. split; [split|split].
      * apply (replace_refines _ _ _ _ _ U R). intros q [<-|[<-|[]]]; exists p; auto.
      * intros _ _. right. apply (replace_grows s (fst p) a b); auto. exists p. auto.
      * intros x y X. apply Ok_inj in X. injection X as <- <-. apply (replace_has s (fst p) [a; b] s' p a); auto. left. auto.
      * discriminate.
    + cbn [fst snd]. split; [split|split]; try discriminate. apply (replace_refines _ _ _ _ _ U R). intros q [<-|[<-|[]]]; exists p; auto.
  - cbn [fst snd]. split; [split; [apply refines_refl|auto]|split; [discriminate|auto]].
  - cbn [fst snd]. split; [split; [apply refines_refl|auto]|split; [discriminate|auto]].
Qed.
Lemma twice_grows rid s p cut pts : unique_names s -> has_poly s p -> grows s (slice_twice rid s p cut pts).
Proof.
  intros U H. unfold slice_twice. destruct (one_grows rid s p cut U H) as ((G1 & G2) & A & N). destruct (slice_one_and_replace rid s p cut) as (s', [[(main, sup)|]|e]); cbn [fst snd] in *; try (split; [auto|discriminate]).
  specialize (A _ _ eq_refl). specialize (G2 _ eq_refl). assert (U' : unique_names s') by (apply G1; auto). destruct (one_grows rid s' main pts U' A) as ((G3 & G4) & _). destruct (slice_one_and_replace rid s' main pts) as (s'', [x|e]); cbn [fst snd] in *.
  - split; [apply (refines_trans _ _ _ G1 G3)|]. intros _ _. cbn [fst]. destruct G2 as [->|G2], (G4 _ eq_refl) as [->|G5]; auto; right; lia.
  - split; [apply (refines_trans _ _ _ G1 G3)|discriminate].
Qed.
(** One round. *)
Lemma both_grows rid s1 p1 s2 p2 : unique_names s1 -> unique_names s2 -> has_poly s1 p1 -> has_poly s2 p2 ->
  let r := slice_both rid s1 p1 s2 p2 in
  refines s1 (fst (fst r)) /\ refines s2 (snd (fst r)) /\
  (snd r = Ok tt -> fst r = (s1, s2) \/ (count_polys s1 + count_polys s2 < count_polys (fst (fst r)) + count_polys (snd (fst r)))%nat).
Proof.
  intros U1 U2 H1 H2. cbn zeta. unfold slice_both. match goal with |- context [match ?t with Ok _ => _ | Err _ => _ end] => destruct t as [(((a, b), c), d)|] end; cbn [fst snd]; [|split; [apply refines_refl|split; [apply refines_refl|discriminate]]].
  assert (T1 : forall (r : solid * result Datatypes.unit), grows s1 r -> refines s1 (fst r) /\ refines s2 s2 /\ (snd r = Ok tt -> (fst r, s2) = (s1, s2) \/ (count_polys s1 + count_polys s2 < count_polys (fst r) + count_polys s2)%nat)).
  { intros r (G1 & G2). split; auto. split; [apply refines_refl|]. intros E. destruct (G2 _ E) as [->|G]; auto. right. lia. }
  assert (T2 : forall (r : solid * result Datatypes.unit), grows s2 r -> refines s1 s1 /\ refines s2 (fst r) /\ (snd r = Ok tt -> (s1, fst r) = (s1, s2) \/ (count_polys s1 + count_polys s2 < count_polys s1 + count_polys (fst r))%nat)).
  { intros r (G1 & G2). split; [apply refines_refl|]. split; auto. intros E. destruct (G2 _ E) as [->|G]; auto. right. lia. }
  assert (I : forall s A (r : solid * result A), grows s r -> grows s (ignore r)).
  { intros s A r (G1 & G2). split; auto. unfold ignore. cbn [fst snd]. intros x. destruct (snd r) as [y|] eqn:E; [|discriminate]. intros _. apply (G2 _ eq_refl). }
  destruct (a || b).
  - match goal with |- context [match ?t with Ok _ => _ | Err _ => _ end] => destruct t as [cut|] end; cbn [fst snd]; [|split; [apply refines_refl|]; split; [apply refines_refl|discriminate]].
    destruct a; cbn [fst snd]; [apply T1|apply T2]; apply twice_grows; auto.
  - destruct d; [cbn [fst snd]; apply T2, I; apply one_grows; auto|]. destruct c; [cbn [fst snd]; apply T1, I; apply one_grows; auto|].
    destruct (one_grows rid s1 p1 (p_pts (snd p2)) U1 H1) as ((G1 & G2) & _). destruct (one_grows rid s2 p2 (p_pts (snd p1)) U2 H2) as ((G3 & G4) & _).
    destruct (slice_one_and_replace rid s1 p1 (p_pts (snd p2))) as (s1', [x|e]); cbn [fst snd] in *; [|split; auto; split; [apply refines_refl|discriminate]].
    split; auto. split; auto. destruct (snd (slice_one_and_replace rid s2 p2 (p_pts (snd p1)))) as [y|] eqn:E; [|discriminate]. intros _. destruct (G2 _ eq_refl) as [->|G5], (G4 _ eq_refl) as [->|G6]; auto; right; lia.
Qed.

(** Adjacent polygons. *)
Lemma first_adjacent_none pairs : first_adjacent pairs = Ok None -> forall p q, In (p, q) pairs -> adjacent (snd p) (snd q) = Ok false.
Proof.
  induction pairs as [|(a, b) pairs IH]; cbn [first_adjacent]; [intros _ p q []|]. destruct (adjacent (snd a) (snd b)) as [[|]|] eqn:E; try discriminate. cbn [rbind]. intros H p q [X|X]; [injection X as <- <-; auto|]. apply IH; auto.
Qed.
Lemma first_adjacent_some pairs p q : first_adjacent pairs = Ok (Some (p, q)) -> exists A B, pairs = A ++ (p, q) :: B /\ adjacent (snd p) (snd q) = Ok true /\ forall x y, In (x, y) A -> adjacent (snd x) (snd y) = Ok false.
Proof.
  induction pairs as [|(a, b) pairs IH]; cbn [first_adjacent]; [discriminate|]. destruct (adjacent (snd a) (snd b)) as [[|]|] eqn:E; try discriminate; cbn [rbind]; intros H.
  - apply Ok_inj in H. injection H as <- <-. exists [], pairs. repeat split; auto. intros x y [].
  - destruct (IH H) as (A & B & -> & T & F). exists ((a, b) :: A), B. repeat split; auto. intros x y [X|X]; [injection X as <- <-; auto|auto].
Qed.
Lemma in_pairs {A B} (l1 : list A) (l2 : list B) x y : In (x, y) (concat (map (fun p => map (pair p) l2) l1)) <-> In x l1 /\ In y l2.
Proof.
  rewrite in_concat. split.
  - intros (l & H & I). apply in_map_iff in H. destruct H as (p & <- & Hp). apply in_map_iff in I. destruct I as (q & E & Hq). injection E as <- <-. auto.
  - intros (I1 & I2). exists (map (pair x) l2). split; apply in_map_iff; eauto.
Qed.
Lemma adjacent_false p q : adjacent p q = Ok false <-> apart p q.
Proof.
  unfold adjacent, apart. change (contains_polygon p q) with (contains_margin GEOM_ATOL p q). change (contains_polygon q p) with (contains_margin GEOM_ATOL q p). destruct (are_polygons_crossing _ _ _ _) as [o|]; cbn [rbind]; [|split; [discriminate|intros (X & _); discriminate]].
  destruct (contains_margin GEOM_ATOL p q) as [[|]|]; cbn [rbind]; [|destruct (contains_margin GEOM_ATOL q p) as [[|]|]; cbn [rbind]|]; rewrite ?orb_true_r, ?orb_false_r; (split; [intros X|intros (X & Y & Z)]); try discriminate; try congruence.
  apply Ok_inj in X. subst. auto.
Qed.
Lemma next_none s1 s2 : next_adjacent s1 s2 = Ok None -> forall p q, has_poly s1 p -> has_poly s2 q -> apart (snd p) (snd q).
Proof. intros H p q I1 I2. apply adjacent_false, (first_adjacent_none _ H). apply in_pairs. rewrite !in_polys. auto. Qed.
Lemma next_none_iff s1 s2 : next_adjacent s1 s2 = Ok None <-> forall p q, has_poly s1 p -> has_poly s2 q -> apart (snd p) (snd q).
Proof.
  split; [apply next_none|]. intros H. unfold next_adjacent. assert (G : forall p q, In (p, q) (concat (map (fun p => map (pair p) (polys s2)) (polys s1))) -> adjacent (snd p) (snd q) = Ok false) by (intros p q I; apply in_pairs in I; rewrite !in_polys in I; apply adjacent_false, H; tauto).
  induction (concat _) as [|(a, b) l IH]; cbn [first_adjacent]; auto. rewrite (G a b) by (left; auto). cbn [rbind]. apply IH. intros; apply G; right; auto.
Qed.
Lemma next_some s1 s2 p q : next_adjacent s1 s2 = Ok (Some (p, q)) -> has_poly s1 p /\ has_poly s2 q /\ ~ apart (snd p) (snd q).
Proof.
  intros H. destruct (first_adjacent_some _ _ _ H) as (A & B & E & T & _). assert (I : In (p, q) (concat (map (fun p => map (pair p) (polys s2)) (polys s1)))) by (rewrite E; apply in_or_app; right; left; auto). apply in_pairs in I. rewrite !in_polys in I. repeat split; try tauto. rewrite <- adjacent_false. congruence.
Qed.

(** The whole call. *)
Lemma stitch_returns rid n s1 s2 s1' s2' : stitch rid n s1 s2 = ((s1', s2'), Ok tt) -> forall p q, has_poly s1' p -> has_poly s2' q -> apart (snd p) (snd q).
Proof.
  revert s1 s2. induction n as [|n IH]; intros s1 s2; cbn [stitch]; [discriminate|]. destruct (next_adjacent s1 s2) as [[(p1, p2)|]|] eqn:N; [|intros H; injection H as <- <-; apply next_none; auto|discriminate]. destruct (slice_both rid s1 p1 s2 p2) as ((a, b), [x|e]); [|discriminate]. apply IH.
Qed.
Lemma stitch_refines rid n s1 s2 : unique_names s1 -> unique_names s2 -> refines s1 (fst (fst (stitch rid n s1 s2))) /\ refines s2 (snd (fst (stitch rid n s1 s2))).
Proof.
  revert s1 s2. induction n as [|n IH]; intros s1 s2 U1 U2; cbn [stitch]; [split; apply refines_refl|]. destruct (next_adjacent s1 s2) as [[(p1, p2)|]|] eqn:N; try (split; apply refines_refl). destruct (next_some _ _ _ _ N) as (H1 & H2 & _). destruct (both_grows rid s1 p1 s2 p2 U1 U2 H1 H2) as (R1 & R2 & _).
  destruct (slice_both rid s1 p1 s2 p2) as ((a, b), [x|e]); cbn [fst snd] in *; auto. destruct (IH a b) as (Q1 & Q2); [apply R1; auto|apply R2; auto|]. split; eapply refines_trans; eauto.
Qed.
Lemma stitch_more rid n s1 s2 r : stitch rid n s1 s2 = (r, Ok tt) -> forall m, (n <= m)%nat -> stitch rid m s1 s2 = (r, Ok tt).
Proof.
  revert s1 s2. induction n as [|n IH]; intros s1 s2; cbn [stitch]; [discriminate|]. intros H m L. destruct m as [|m]; [lia|]. cbn [stitch]. destruct (next_adjacent s1 s2) as [[(p1, p2)|]|]; auto. destruct (slice_both rid s1 p1 s2 p2) as ((a, b), [x|e]); auto. apply IH; auto. lia.
Qed.
Lemma stitch_stuck rid s1 s2 p q : next_adjacent s1 s2 = Ok (Some (p, q)) -> slice_both rid s1 p s2 q = ((s1, s2), Ok tt) -> forall n, stitch rid n s1 s2 = ((s1, s2), Err OutOfFuel).
Proof. intros N B n. induction n as [|n IH]; cbn [stitch]; auto. rewrite N, B. auto. Qed.
(** Rounds without progress never end; with progress the number of polygons grows. *)
Lemma stitch_rounds rid s1 s2 p q s1' s2' : unique_names s1 -> unique_names s2 -> next_adjacent s1 s2 = Ok (Some (p, q)) -> slice_both rid s1 p s2 q = ((s1', s2'), Ok tt) ->
  ((s1', s2') = (s1, s2) /\ never_returns rid s1 s2) \/ (count_polys s1 + count_polys s2 < count_polys s1' + count_polys s2')%nat.
Proof.
  intros U1 U2 N B. destruct (next_some _ _ _ _ N) as (H1 & H2 & _). destruct (both_grows rid s1 p s2 q U1 U2 H1 H2) as (_ & _ & G). rewrite B in G. cbn [fst snd] in G. destruct (G eq_refl) as [E|E]; auto. injection E as -> ->. left. split; auto. intros n. rewrite (stitch_stuck rid s1 s2 p q N B n). auto.
Qed.
(** The number of nested calls is at most the number of polygons gained plus one. *)
Lemma stitch_depth rid n s1 s2 s1' s2' : unique_names s1 -> unique_names s2 -> stitch rid n s1 s2 = ((s1', s2'), Ok tt) ->
  (count_polys s1 + count_polys s2 <= count_polys s1' + count_polys s2')%nat /\ stitch rid (S (count_polys s1' + count_polys s2' - (count_polys s1 + count_polys s2))) s1 s2 = ((s1', s2'), Ok tt).
Proof.
  revert s1 s2. induction n as [|n IH]; intros s1 s2 U1 U2; cbn [stitch]; [discriminate|]. destruct (next_adjacent s1 s2) as [[(p1, p2)|]|] eqn:N; [|intros H; injection H as <- <-; auto|discriminate].
  destruct (next_some _ _ _ _ N) as (H1 & H2 & _). destruct (both_grows rid s1 p1 s2 p2 U1 U2 H1 H2) as (R1 & R2 & _). destruct (slice_both rid s1 p1 s2 p2) as ((a, b), [x|e]) eqn:B; [|discriminate]. destruct x. cbn [fst snd] in *. intros H.
  destruct (stitch_rounds rid s1 s2 p1 p2 a b U1 U2 N B) as [(E & Nv)|C].
  - injection E as -> ->. specialize (Nv n). rewrite H in Nv. discriminate.
  - destruct (IH a b) as (L & F); [apply R1; auto|apply R2; auto|exact H|]. split; [lia|]. apply (stitch_more _ _ _ _ _ F). lia.
Qed.

(** A part's name already taken in the wall: the polygon is lost. *)
Lemma lost rid wn w p pts a b : NoDup (map fst w) -> In p w -> slice_one rid p pts = Ok (Some (a, b)) ->
  (In (fst p ++ str_of "-main") (map fst w) -> slice_one_and_replace rid [(wn, w)] p pts = ([(wn, ddel w (fst p))], Err GeometryError)) /\
  (~ In (fst p ++ str_of "-main") (map fst w) -> In (fst p ++ str_of "-sup") (map fst w) -> slice_one_and_replace rid [(wn, w)] p pts = ([(wn, ddel w (fst p) ++ [a])], Err GeometryError)).
Proof.
  intros N I E. destruct (sliced_names _ _ _ _ _ E) as (N1 & N2 & _). unfold slice_one_and_replace. rewrite E.
  assert (U : unique_names [(wn, w)]) by (split; [repeat constructor; intros []|intros v [<-|[]]; auto]). rewrite (replace_eq _ _ _ U). cbn [replace_walls]. assert (Ip : In (fst p) (map fst w)) by (apply in_map; auto). rewrite (proj2 (memb_true _ _) Ip). unfold wall_replace. rewrite (proj2 (memb_true _ _) Ip).
  assert (Ne : forall t, t <> [] -> fst p ++ t <> fst p). { intros t T X. apply T. apply (app_inv_head (fst p)). rewrite app_nil_r. auto. }
  assert (K : forall t, t <> [] -> (In (fst p ++ t) (map fst (ddel w (fst p))) <-> In (fst p ++ t) (map fst w))). { intros t T. pose proof (dkeys_ddel w (fst p) (fst p ++ t) N) as D. unfold dkeys in D. rewrite D. specialize (Ne t T). tauto. }
  cbn [add_polys]. split.
  - intros M. apply K in M; [|discriminate]. rewrite N1, (proj2 (memb_true _ _)) by exact M. auto.
  - intros M S. apply K in S; [|discriminate]. rewrite <- K in M by discriminate. rewrite N1, (proj2 (memb_false _ _)) by exact M. rewrite N2, (proj2 (memb_true _ _)); [auto|]. unfold dkeys. rewrite map_app. apply in_or_app. auto.
Qed.
