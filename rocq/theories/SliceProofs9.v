(** Names of the parts; removing redundant points. *)
From Coq Require Import Reals List Bool Arith Lia Lra ZArith Permutation.
From Verif Require Import Prelude TreeModel VecModel VecProofs GeomModel GeomSpec GeomProofs1 GeomProofs2 GeomProofs3 GeomProofs4 GeomProofs5 TriModel TriSpec PolyModel PolySpec PolyProofs1 SliceModel SliceSpec SliceProofs1 SliceProofs3 SliceProofs5 SliceProofs6 SliceProofs7.
Import ListNotations.
Local Open Scope R_scope.

Ltac inside_cases H := repeat match type of H with
  | context [inside_of ?p ?x] => let E := fresh "I" in destruct (inside_of p x) as [[|]|] eqn:E; cbn [rbind] in H; try discriminate
  end.
Lemma names_spec vn q1 q2 pt1 name1 pt2 name2 r1 r2 a b : make_polygons vn q1 q2 pt1 name1 pt2 name2 r1 r2 = Ok (a, b) -> or_random name1 r1 <> or_random name2 r2 ->
  (forall x, pt1 = Some x -> part_contains (snd a) x true) /\
  (forall y, pt2 = Some y -> part_contains (snd b) y true) /\
  (forall x y, pt1 = Some x -> pt2 = Some y -> part_contains (snd b) x false).
Proof.
  unfold make_polygons. destruct (make_polygon q1 None (Some vn)) as [p1|]; [|discriminate]. cbn [rbind]. destruct (make_polygon q2 None (Some vn)) as [p2|]; [|discriminate]. cbn [rbind]. intros H N. set (n1 := or_random name1 r1) in *. set (n2 := or_random name2 r2) in *. clearbody n1 n2.
  assert (E12 : eqb n1 n2 = false) by (apply Prelude.eqb_false; auto). assert (E21 : eqb n2 n1 = false) by (apply Prelude.eqb_false; auto). assert (E11 : eqb n1 n1 = true) by (apply Prelude.eqb_true; auto). assert (E22 : eqb n2 n2 = true) by (apply Prelude.eqb_true; auto).
  unfold assign_names in H. unfold part_contains. fold (inside_of (snd a)) (inside_of (snd b)) in *.
  destruct pt1 as [x|], pt2 as [y|]; inside_cases H; cbn [rbind fst snd] in H; rewrite ?E11, ?E22, ?E12, ?E21 in H; cbn [andb] in H; try discriminate; apply Ok_inj in H; injection H as <- <-; cbn [snd]; (split; [|split]); intros; try discriminate;
    repeat match goal with K : Some _ = Some _ |- _ => injection K as <- end; auto.
Qed.

(** Without reference points, or with equal names, the order of the arrays is kept. *)
Lemma names_order vn q1 q2 pt1 name1 pt2 name2 r1 r2 a b : make_polygons vn q1 q2 pt1 name1 pt2 name2 r1 r2 = Ok (a, b) ->
  or_random name1 r1 = or_random name2 r2 \/ (pt1 = None /\ pt2 = None) -> make_polygon q1 None (Some vn) = Ok (snd a) /\ make_polygon q2 None (Some vn) = Ok (snd b).
Proof.
  unfold make_polygons. destruct (make_polygon q1 None (Some vn)) as [p1|]; [|discriminate]. cbn [rbind]. destruct (make_polygon q2 None (Some vn)) as [p2|]; [|discriminate]. cbn [rbind]. intros H D. set (n1 := or_random name1 r1) in *. set (n2 := or_random name2 r2) in *. clearbody n1 n2.
  assert (E11 : eqb n1 n1 = true) by (apply Prelude.eqb_true; auto). assert (E22 : eqb n2 n2 = true) by (apply Prelude.eqb_true; auto). destruct D as [D|(-> & ->)].
  - subst n2. unfold assign_names in H. destruct pt1 as [x|], pt2 as [y|]; inside_cases H; cbn [rbind fst snd] in H; rewrite ?E11 in H; cbn [andb] in H; apply Ok_inj in H; injection H as <- <-; auto.
  - cbn [assign_names rbind fst snd] in H. rewrite E11, E22 in H. cbn [andb] in H. apply Ok_inj in H. injection H as <- <-. auto.
Qed.
(** What happens for every outcome of the containment tests. *)
Lemma names_table vn q1 q2 name1 name2 r1 r2 p1 p2 : make_polygon q1 None (Some vn) = Ok p1 -> make_polygon q2 None (Some vn) = Ok p2 -> let n1 := or_random name1 r1 in let n2 := or_random name2 r2 in n1 <> n2 ->
  (forall x i1 i2, part_contains p1 x i1 -> part_contains p2 x i2 ->
     make_polygons vn q1 q2 (Some x) name1 None name2 r1 r2 = (if i1 then Ok ((n1, p1), (n2, p2)) else if i2 then Ok ((n1, p2), (n2, p1)) else Err GeometryError) /\
     make_polygons vn q1 q2 None name1 (Some x) name2 r1 r2 = (if i1 then Ok ((n1, p2), (n2, p1)) else if i2 then Ok ((n1, p1), (n2, p2)) else Err GeometryError)) /\
  (forall x y i1 i2 j1 j2, part_contains p1 x i1 -> part_contains p2 x i2 -> part_contains p1 y j1 -> part_contains p2 y j2 ->
     make_polygons vn q1 q2 (Some x) name1 (Some y) name2 r1 r2 =
     (if negb (i1 || j1) || negb (i2 || j2) then Err GeometryError
      else match i1, i2 with
           | true, false => Ok ((n1, p1), (n2, p2))
           | false, true => Ok ((n1, p2), (n2, p1))
           | _, _ => Err RuntimeError
           end)).
Proof.
  intros M1 M2 n1 n2 N. unfold make_polygons. rewrite M1, M2. cbn [rbind]. fold n1 n2. clearbody n1 n2. clear M1 M2.
  assert (E12 : eqb n1 n2 = false) by (apply Prelude.eqb_false; auto). assert (E21 : eqb n2 n1 = false) by (apply Prelude.eqb_false; auto). assert (E11 : eqb n1 n1 = true) by (apply Prelude.eqb_true; auto). assert (E22 : eqb n2 n2 = true) by (apply Prelude.eqb_true; auto).
  unfold part_contains. fold (inside_of p1) (inside_of p2). split.
  - intros x i1 i2 I1 I2. unfold assign_names, inside_of. rewrite I1, I2. destruct i1, i2; cbn [rbind fst snd]; rewrite ?E11, ?E22, ?E12, ?E21; auto.
  - intros x y i1 i2 j1 j2 I1 I2 J1 J2. unfold assign_names, inside_of. rewrite I1, I2, J1, J2. destruct i1, i2, j1, j2; cbn [rbind fst snd orb negb]; rewrite ?E11, ?E22, ?E12, ?E21; auto.
Qed.
(** Removing redundant points. *)
Lemma keep_sub edges pts n zs : forall prev out, keep_loop edges pts n prev zs = Ok out -> exists kept, subseq kept zs /\ out = map fst kept /\ forall x, In x kept -> snd x <> Exterior.
Proof.
  induction zs as [|(p, l) zs IH]; intros prev out; cbn [keep_loop]; [intros H; apply Ok_inj in H; subst; exists []; split; [constructor|split; auto; intros ? []]|].
  destruct (decide edges pts n prev _ p l) as [v|] eqn:D; [|discriminate]. cbn [rbind]. assert (Ne : v <> Skip -> l <> Exterior) by (intros Nv ->; cbn [decide] in D; apply Ok_inj in D; congruence). destruct v.
  - intros H. destruct (IH _ _ H) as (k & S & E & X). exists k. split; [apply subseq_skip; auto|auto].
  - destruct (keep_loop edges pts n (Some l) zs) as [q|] eqn:K; [|discriminate]. cbn [rbind]. intros H. apply Ok_inj in H. subst out. destruct (IH _ _ K) as (k & S & -> & X). exists ((p, l) :: k). split; [apply subseq_keep; auto|]. split; auto. intros x [<-|I]; auto. apply Ne. discriminate.
  - intros H. apply Ok_inj in H. subst out. exists [(p, l)]. split; [apply subseq_keep; clear; induction zs; [constructor|apply subseq_skip; auto]|]. split; auto. intros x [<-|[]]. apply Ne. discriminate.
Qed.
Lemma filter_sub {A} (f : A -> bool) l : subseq (filter f l) l.
Proof. induction l as [|x l IH]; cbn [filter]; [constructor|]. destruct (f x); [apply subseq_keep|apply subseq_skip]; auto. Qed.
Lemma select_sub edges pts chain ls out : select_points edges pts chain ls = Ok out -> exists kept, subseq kept (combine chain ls) /\ out = map fst kept /\ forall x, In x kept -> snd x <> Exterior.
Proof.
  unfold select_points. destruct (_ && _ && _ && _); [|apply keep_sub]. intros H. apply Ok_inj in H. subst out. eexists. split; [apply filter_sub|]. split; auto. intros x I. apply filter_In in I. destruct I as (_ & I). intros E. rewrite E in I. discriminate.
Qed.
Lemma roll_snoc {A} (l : list A) x : roll_forward (l ++ [x]) = x :: l.
Proof. unfold roll_forward. destruct (l ++ [x]) as [|y r] eqn:E; [destruct l; discriminate|]. rewrite <- E, last_last, removelast_last. auto. Qed.
Lemma snoc_inv {A} (l : list A) : l <> [] -> exists r x, l = r ++ [x].
Proof. intros N. destruct (exists_last N) as (r & x & E). eauto. Qed.
Lemma roll_map {A B} (f : A -> B) l : roll_forward (map f l) = map f (roll_forward l).
Proof. destruct l as [|y t]; auto. destruct (snoc_inv (y :: t)) as (r & x & ->); [discriminate|]. rewrite map_app. cbn [map]. rewrite !roll_snoc. auto. Qed.

Fixpoint rolls {A} (k : nat) (l : list A) : list A := match k with O => l | S k' => rolls k' (roll_forward l) end.
Lemma rolls_succ {A} k (l : list A) : rolls (S k) l = rolls k (roll_forward l).
Proof. reflexivity. Qed.
Lemma rolls_app {A} (b a : list A) : rolls (length b) (a ++ b) = b ++ a.
Proof.
  revert a. induction b as [|x b IH] using rev_ind; intros a; [cbn; rewrite app_nil_r; auto|]. rewrite app_length. cbn [length]. rewrite Nat.add_1_r, rolls_succ, app_assoc, roll_snoc. change (x :: a ++ b) with ((x :: a) ++ b). rewrite IH, <- app_assoc. auto.
Qed.
Lemma rolls_rotation {A} k (l : list A) : rotation_of l (rolls k l).
Proof.
  revert l. induction k as [|k IH]; intros l; [apply rot_refl|]. rewrite rolls_succ. eapply rot_trans; [|apply IH]. destruct l as [|y t]; [apply rot_refl|]. destruct (snoc_inv (y :: t)) as (r & x & ->); [discriminate|]. rewrite roll_snoc. exists r, [x]. auto.
Qed.
Lemma rotation_rolls {A} (l l' : list A) : rotation_of l l' -> exists k, (k <= length l)%nat /\ l' = rolls k l.
Proof. intros (a & b & -> & ->). exists (length b). split; [rewrite app_length; lia|]. symmetry. apply rolls_app. Qed.
Section Remove.
Context (edges : list (vec * vec)) (pts : list vec) (ts : list tri).
Definition located (zs : list (vec * location)) : Prop := forall x, In x zs -> locate_point edges pts ts (fst x) = Ok (snd x).
Lemma located_list zs : zs <> [] -> located zs -> locate_points edges pts ts (map fst zs) = Ok (map snd zs).
Proof.
  intros N L. unfold locate_points. destruct (map fst zs) eqn:E; [destruct zs; [congruence|discriminate]|]. rewrite <- E. clear N E. induction zs as [|x zs IH]; cbn [map mapM]; auto. rewrite (L x) by (simpl; auto). cbn [rbind]. rewrite IH by (intros y I; apply L; simpl; auto). auto.
Qed.
Lemma list_located chain ls : locate_points edges pts ts chain = Ok ls -> length ls = length chain /\ located (combine chain ls).
Proof.
  unfold locate_points. destruct chain as [|c r] eqn:E; [discriminate|]. rewrite <- E. clear E c r. revert ls. induction chain as [|c chain IH]; intros ls; cbn [mapM]; [intros H; apply Ok_inj in H; subst; split; auto; intros ? []|].
  destruct (locate_point edges pts ts c) as [l|] eqn:L; [|discriminate]. cbn [rbind]. destruct (mapM _ chain) as [ls'|]; [|discriminate]. cbn [rbind]. intros H. apply Ok_inj in H. subst ls. destruct (IH _ eq_refl) as (Ln & Lo). split; [cbn [length]; lia|]. intros x [<-|I]; auto.
Qed.
Lemma ends_iff ls : ends_interior ls = true <-> interior_end ls.
Proof.
  unfold ends_interior, interior_end. destruct ls as [|l r]; [split; [discriminate|intros (? & ? & E & _); discriminate]|]. rewrite orb_true_iff. assert (I : forall x, is_interior x = true <-> x = Interior) by (intros []; cbn; split; congruence). rewrite !I. split.
  - intros H. exists l, r. auto.
  - intros (l' & r' & E & H). injection E as <- <-. auto.
Qed.
Lemma remove_cases tries : forall zs, zs <> [] -> located zs ->
  (exists k, (k <= tries)%nat /\ ends_interior (map snd (rolls k zs)) = false /\ remove_redundant_from edges pts ts tries (map fst zs) = select_points edges pts (map fst (rolls k zs)) (map snd (rolls k zs))) \/
  ((forall k, (k <= tries)%nat -> ends_interior (map snd (rolls k zs)) = true) /\ remove_redundant_from edges pts ts tries (map fst zs) = Ok (firstn 1 (map fst (rolls tries zs)))).
Proof.
  induction tries as [|tries IH]; intros zs N L; cbn [remove_redundant_from]; rewrite (located_list zs N L); cbn [rbind]; destruct (ends_interior (map snd zs)) eqn:E.
  - right. split; [|reflexivity]. intros k Hk. assert (k = 0)%nat by lia. subst. auto.
  - left. exists 0%nat. auto.
  - rewrite roll_map. assert (N' : roll_forward zs <> []) by (destruct zs; [congruence|discriminate]).
    assert (L' : located (roll_forward zs)). { intros x I. apply L. destruct (snoc_inv zs N) as (r & z & ->). rewrite roll_snoc in I. apply in_or_app. destruct I; [right; left; auto|left; auto]. }
    destruct (IH _ N' L') as [(k & Hk & Ek & Er)|(Ha & Er)].
    + left. exists (S k). rewrite rolls_succ. split; [lia|]. auto.
    + right. split; [|rewrite rolls_succ; auto]. intros [|k] Hk; auto. rewrite rolls_succ. apply Ha. lia.
  - left. exists 0%nat. split; [lia|]. auto.
Qed.
Lemma decide_total n prev next p l : (forall i, l = AtVertex i -> (i < length pts)%nat) -> (forall i, l = AtEdge i -> (i < length edges)%nat) ->
  (forall i, prev = Some (AtVertex i) \/ next = Some (AtVertex i) -> (i < length pts)%nat) -> (forall i, prev = Some (AtEdge i) \/ next = Some (AtEdge i) -> (i < length edges)%nat) -> exists v, decide edges pts n prev next p l = Ok v.
Proof.
  intros H1 H2 H3 H4. assert (Ae : forall i, (i < length edges)%nat -> exists e, edge_ends edges i = Ok e) by (intros i Hi; unfold edge_ends, at_index; destruct (nth_error edges i) eqn:E; [cbn [rbind]; eauto|apply nth_error_None in E; lia]).
  assert (Ap : forall i, (i < length pts)%nat -> exists e, at_index pts i = Ok e) by (intros i Hi; unfold at_index; destruct (nth_error pts i) eqn:E; [eauto|apply nth_error_None in E; lia]).
  destruct l as [| |i|i]; cbn [decide]; eauto; destruct next as [[| |j|j]|], prev as [[| |k|k]|]; eauto; destruct (n =? 0)%nat; cbn [andb]; eauto;
    first [destruct (Ae j ltac:(apply H4; auto)) as (e & ->); cbn [rbind]; eauto | destruct (Ae k ltac:(apply H4; auto)) as (e & ->); cbn [rbind]; eauto
          | destruct (Ap j ltac:(apply H3; auto)) as (q & ->); destruct (Ae i ltac:(apply H2; auto)) as (e & ->); cbn [rbind]; eauto | destruct (Ap k ltac:(apply H3; auto)) as (q & ->); destruct (Ae i ltac:(apply H2; auto)) as (e & ->); cbn [rbind]; eauto].
Qed.
Definition in_range (l : location) : Prop := match l with AtVertex i => (i < length pts)%nat | AtEdge i => (i < length edges)%nat | _ => True end.
Lemma keep_total n zs : (forall x, In x zs -> in_range (snd x)) -> forall prev, (forall l, prev = Some l -> in_range l) -> exists out, keep_loop edges pts n prev zs = Ok out.
Proof.
  induction zs as [|(p, l) zs IH]; intros R prev Hp; cbn [keep_loop]; eauto.
  assert (Rl : in_range l) by (apply (R (p, l)); simpl; auto). assert (Rn : forall l', match zs with [] => None | x :: _ => Some (snd x) end = Some l' -> in_range l') by (intros l'; destruct zs as [|x zs']; [discriminate|intros E; injection E as <-; apply R; simpl; auto]).
  destruct (decide_total n prev (match zs with [] => None | x :: _ => Some (snd x) end) p l) as (v & ->).
  - intros i ->. exact Rl.
  - intros i ->. exact Rl.
  - intros i [H|H]; [exact (Hp _ H)|exact (Rn _ H)].
  - intros i [H|H]; [exact (Hp _ H)|exact (Rn _ H)].
  - cbn [rbind]. destruct (IH ltac:(intros; apply R; simpl; auto) (Some l) ltac:(intros l' E; injection E as <-; auto)) as (out & E). rewrite E. destruct v; cbn [rbind]; eauto.
Qed.
Lemma first_index_range {A} (f : A -> bool) l i k : first_index f l i = Some k -> (k < i + length l)%nat.
Proof. revert i. induction l as [|x l IH]; intros i; cbn [first_index length]; [discriminate|]. destruct (f x); [intros E; injection E as <-; lia|]. intros E. apply IH in E. lia. Qed.
Lemma first_index_m_range {A} (f : A -> result bool) l i k : first_index_m f l i = Ok (Some k) -> (k < i + length l)%nat.
Proof. revert i. induction l as [|x l IH]; intros i; cbn [first_index_m length]; [discriminate|]. destruct (f x) as [[|]|]; cbn [rbind]; [intros E; apply Ok_inj in E; injection E as <-; lia| |discriminate]. intros E. apply IH in E. lia. Qed.
Lemma locate_range p l : locate_point edges pts ts p = Ok l -> in_range l.
Proof.
  unfold locate_point. destruct (is_point_inside _ _ _ _ _) as [[|]|]; cbn [rbind negb]; try discriminate; [|intros H; apply Ok_inj in H; subst; exact I]. destruct (first_index _ pts 0) as [v|] eqn:E1; [intros H; apply Ok_inj in H; subst; apply first_index_range in E1; exact E1|].
  destruct (first_index_m _ edges 0) as [[k|]|] eqn:E2; cbn [rbind]; try discriminate; intros H; apply Ok_inj in H; subst; [apply first_index_m_range in E2; exact E2|exact I].
Qed.
End Remove.
Lemma remove_open chain pts ts : pts <> [] -> remove_redundant_points chain pts ts = remove_redundant_from (cyc_pairs pts) pts ts (length chain + 1) chain.
Proof. intros N. unfold remove_redundant_points. rewrite polygon_edges_eq by auto. auto. Qed.
Lemma fst_combine {A B} (a : list A) (b : list B) : length b = length a -> map fst (combine a b) = a /\ map snd (combine a b) = b.
Proof. revert b. induction a as [|x a IH]; intros [|y b] L; try discriminate; cbn [combine map fst snd]; auto. destruct (IH b) as (E1 & E2); [cbn [length] in L; lia|]. rewrite E1, E2. auto. Qed.
Lemma removed_spec chain pts ts ls : pts <> [] -> locate_points (cyc_pairs pts) pts ts chain = Ok ls -> exists out, remove_redundant_points chain pts ts = Ok out /\
  ((exists zs kept, rotation_of (combine chain ls) zs /\ ~ interior_end (map snd zs) /\ subseq kept zs /\ out = map fst kept /\ forall x, In x kept -> snd x <> Exterior) \/
   ((forall zs, rotation_of (combine chain ls) zs -> interior_end (map snd zs)) /\ out = [last chain vzero])).
Proof.
  intros N H. rewrite remove_open by auto. pose proof (list_located _ _ _ _ _ H) as (Ln & Lo). destruct (fst_combine chain ls Ln) as (F1 & F2). assert (Nz : combine chain ls <> []). { intros E. rewrite E in F1. cbn [map] in F1. subst chain. discriminate. }
  set (zs0 := combine chain ls) in *. destruct (remove_cases (cyc_pairs pts) pts ts (length chain + 1) zs0 Nz Lo) as [(k & Hk & Ek & Er)|(Ha & Er)]; rewrite F1 in Er; rewrite Er.
  - pose proof (rolls_rotation k zs0) as Rt. set (zs := rolls k zs0) in *.
    assert (Tot : exists out, select_points (cyc_pairs pts) pts (map fst zs) (map snd zs) = Ok out).
    { unfold select_points. destruct (_ && _ && _ && _); eauto. apply keep_total; [|discriminate]. intros x I. apply (locate_range _ _ ts (fst x)). destruct (fst_combine (map fst zs) (map snd zs)) as (_ & _); [rewrite !map_length; auto|].
      assert (Ex : combine (map fst zs) (map snd zs) = zs) by (clear; induction zs as [|(a, b) zs IH]; cbn [map combine fst snd]; auto; rewrite IH; auto). rewrite Ex in I. apply Lo. destruct Rt as (a & b & E1 & E2). rewrite E1. rewrite E2 in I. apply in_app_iff in I. apply in_or_app. tauto. }
    destruct Tot as (out & Es). exists out. split; auto. left. destruct (select_sub _ _ _ _ _ Es) as (kept & S & Eo & X). exists zs, kept. split; auto. split; [rewrite <- ends_iff, Ek; discriminate|]. split; auto.
    assert (Ex : combine (map fst zs) (map snd zs) = zs) by (clear; induction zs as [|(a, b) zs IH]; cbn [map combine fst snd]; auto; rewrite IH; auto). rewrite Ex in S. auto.
  - eexists. split; [reflexivity|]. right. split.
    + intros zs R. apply rotation_rolls in R. destruct R as (k & Hk & ->). apply ends_iff. apply Ha. unfold zs0 in Hk. rewrite combine_length, Ln, Nat.min_id in Hk. lia.
    + replace (length chain + 1)%nat with (S (length zs0)) by (unfold zs0; rewrite combine_length, Ln, Nat.min_id; lia). rewrite rolls_succ.
      assert (Q : rolls (length zs0) (roll_forward zs0) = roll_forward zs0). { replace (length zs0) with (length (roll_forward zs0)); [|destruct (snoc_inv zs0 Nz) as (r & x & ->); rewrite roll_snoc, app_length; cbn [length]; lia]. rewrite <- (app_nil_l (roll_forward zs0)) at 2. rewrite rolls_app, app_nil_r. auto. }
      rewrite Q, <- roll_map, F1. destruct (snoc_inv chain) as (r & x & ->); [intros ->; discriminate|]. rewrite roll_snoc, last_last. auto.
Qed.
(** The first run of interior points with its two ends on the outline. *)
Lemma keep_before edges pts n A : (n <> 0)%nat -> forall prev x r, forallb (fun z => negb (is_interior (snd z))) A = true -> is_interior (snd x) = false -> prev <> Some Interior ->
  keep_loop edges pts n prev (A ++ x :: r) = keep_loop edges pts n (match rev A with [] => prev | z :: _ => Some (snd z) end) (x :: r).
Proof.
  intros Nn. induction A as [|(p, l) A IH]; intros prev x r F X Pv; auto. cbn [forallb] in F. apply andb_true_iff in F. destruct F as (Fl & F). cbn [snd] in Fl. cbn [app keep_loop].
  assert (D : decide edges pts n prev (match A ++ x :: r with [] => None | z :: _ => Some (snd z) end) p l = Ok Skip).
  { assert (Nx : exists l', match A ++ x :: r with [] => None | z :: _ => Some (snd z) end = Some l' /\ is_interior l' = false).
    { destruct A as [|z A']; cbn [app]; [exists (snd x); auto|]. exists (snd z). split; auto. cbn [forallb] in F. apply andb_true_iff in F. destruct F as (F & _). apply negb_true_iff in F. auto. }
    destruct Nx as (l' & -> & I'). assert (Z : (n =? 0)%nat = false) by (apply Nat.eqb_neq; auto). unfold decide. rewrite Z. destruct l as [| |i|i]; try discriminate; auto; destruct l' as [| |j|j]; try discriminate; destruct prev as [[| |k|k]|]; try congruence; auto. }
  rewrite D. cbn [rbind]. rewrite IH; auto; [|intros E; injection E as ->; discriminate]. cbn [rev]. destruct (rev A) as [|z t]; auto.
Qed.
Lemma keep_inside edges pts n M : forall prev y ly r, forallb (fun z => is_interior (snd z)) M = true -> boundary ly = true -> (match r with [] => true | z :: _ => negb (is_interior (snd z)) end) = true -> prev = Some Interior \/ M <> [] ->
  keep_loop edges pts n prev (M ++ (y, ly) :: r) = Ok (map fst M ++ [y]).
Proof.
  induction M as [|(p, l) M IH]; intros prev y ly r F B R Pv; cbn [app map].
  - destruct Pv as [->|X]; [|congruence]. cbn [keep_loop]. assert (D : decide edges pts n (Some Interior) (match r with [] => None | x :: _ => Some (snd x) end) y ly = Ok KeepAndStop).
    { destruct ly as [| |i|i]; try discriminate; cbn [decide]; destruct r as [|z r]; auto; apply negb_true_iff in R; destruct (snd z); try discriminate; auto. }
    rewrite D. auto.
  - cbn [forallb snd] in F. apply andb_true_iff in F. destruct F as (Fl & F). destruct l; try discriminate. cbn [keep_loop decide rbind fst]. rewrite IH; auto.
Qed.
Lemma count_app f a b : count_locs f (a ++ b) = (count_locs f a + count_locs f b)%nat.
Proof. unfold count_locs. rewrite filter_app, app_length. auto. Qed.
Lemma last_any {A} (l : list A) d d' : l <> [] -> last l d = last l d'.
Proof. induction l as [|x l IH]; [congruence|]. intros _. destruct l as [|y l]; auto. change (last (y :: l) d = last (y :: l) d'). apply IH. discriminate. Qed.
Lemma last_tail {A} (a b : list A) d d' : b <> [] -> last (a ++ b) d = last b d'.
Proof. intros N. induction a as [|x a IH]; [apply last_any; auto|]. cbn [app]. destruct (a ++ b) as [|y r] eqn:E; [destruct a; [cbn in E; congruence|discriminate]|]. rewrite <- IH. reflexivity. Qed.
Lemma first_run pts ts A x M y B LA lx LM ly LB : pts <> [] -> length A = length LA -> length M = length LM -> 
  locate_points (cyc_pairs pts) pts ts (A ++ x :: M ++ y :: B) = Ok (LA ++ lx :: LM ++ ly :: LB) ->
  forallb (fun l => negb (is_interior l)) LA = true -> boundary lx = true -> forallb is_interior LM = true -> M <> [] -> boundary ly = true -> is_interior (hd Exterior LB) = false -> is_interior (last (ly :: LB) Exterior) = false ->
  remove_redundant_points (A ++ x :: M ++ y :: B) pts ts = Ok (x :: M ++ [y]).
Proof.
  intros N LnA LnM H FA Bx FM NM By HB HE. rewrite remove_open by auto. replace (length (A ++ x :: M ++ y :: B) + 1)%nat with (S (length (A ++ x :: M ++ y :: B))) by lia. cbn [remove_redundant_from]. pose proof (list_located _ _ _ _ _ H) as (Ln & _). rewrite H. cbn [rbind].
  set (ls := LA ++ lx :: LM ++ ly :: LB) in *. assert (Ls : forall d, last ls d = last (ly :: LB) Exterior).
  { intros d. unfold ls. replace (LA ++ lx :: LM ++ ly :: LB) with ((LA ++ lx :: LM) ++ (ly :: LB)) by (rewrite <- app_assoc; auto). apply last_tail. discriminate. }
  assert (E : ends_interior ls = false). { unfold ends_interior. destruct ls as [|l0 r] eqn:El; auto. rewrite Ls, HE, orb_false_r. unfold ls in El. destruct LA as [|a LA]; cbn [app] in El; injection El as <- _; [destruct lx; auto; discriminate|]. cbn [forallb] in FA. apply andb_true_iff in FA. destruct FA as (FA & _). apply negb_true_iff in FA. auto. }
  rewrite E. unfold select_points. set (zsA := combine A LA). set (zsM := combine M LM). assert (Z : combine (A ++ x :: M ++ y :: B) ls = zsA ++ (x, lx) :: zsM ++ (y, ly) :: combine B LB).
  { unfold ls, zsA, zsM. assert (Ca : forall {P Q} (a c : list P) (b d : list Q), length a = length b -> combine (a ++ c) (b ++ d) = combine a b ++ combine c d) by (clear; intros P Q a; induction a as [|z a IH]; intros c [|w b] d L; try discriminate; cbn [app combine]; auto; rewrite IH; auto). rewrite (Ca _ _ A (x :: M ++ y :: B) LA (lx :: LM ++ ly :: LB)) by auto. cbn [combine]. rewrite (Ca _ _ M (y :: B) LM (ly :: LB)) by auto. auto. }
  assert (CI : (1 <= count_locs is_interior ls)%nat). { unfold ls. rewrite count_app. cbn [app]. change (lx :: LM ++ ly :: LB) with ([lx] ++ LM ++ ly :: LB). rewrite !count_app. destruct LM as [|m LM]; [destruct M; [congruence|discriminate]|]. cbn [forallb] in FM. apply andb_true_iff in FM. destruct FM as (Fm & _). unfold count_locs at 3. cbn [filter]. rewrite Fm. cbn [length]. lia. }
  assert (Sp : (length (A ++ x :: M ++ y :: B) =? 4)%nat && (length pts =? 4)%nat && (count_locs is_vertex ls =? 2)%nat && (count_locs is_edge ls =? 2)%nat = false).
  { apply not_true_is_false. rewrite !andb_true_iff, !Nat.eqb_eq. intros (((C1 & _) & C2) & C3). assert (T : forall l, (count_locs is_interior l + count_locs is_vertex l + count_locs is_edge l <= length l)%nat) by (clear; induction l as [|z l IH]; unfold count_locs in *; cbn [filter length]; auto; destruct z; cbn [is_interior is_vertex is_edge length]; lia). specialize (T ls). lia. }
  rewrite Sp, Z. rewrite keep_before; [| lia | unfold zsA; clear - FA LnA; revert LA FA LnA; induction A as [|a A IH]; intros [|b LA] F L; try discriminate; cbn [combine forallb snd] in *; auto; apply andb_true_iff in F; destruct F as (F1 & F2); rewrite F1; cbn [andb]; apply IH; auto | destruct lx; auto; discriminate | discriminate].
  assert (NI : zsM <> []) by (unfold zsM; destruct M, LM; try discriminate; congruence).
  assert (FI : forallb (fun z => is_interior (snd z)) zsM = true) by (unfold zsM; clear - FM LnM; revert LM FM LnM; induction M as [|a M IH]; intros [|b LM] F L; try discriminate; cbn [combine forallb snd] in *; auto; apply andb_true_iff in F; destruct F as (F1 & F2); rewrite F1; cbn [andb]; apply IH; auto).
  assert (FF : map fst zsM = M) by (unfold zsM; apply fst_combine; auto).
  cbn [keep_loop]. assert (D : forall pv, decide (cyc_pairs pts) pts (count_locs is_interior ls) pv (match zsM ++ (y, ly) :: combine B LB with [] => None | z :: _ => Some (snd z) end) x lx = Ok Keep).
  { intros pv. destruct zsM as [|z zsM']; [congruence|]. cbn [app]. cbn [forallb] in FI. apply andb_true_iff in FI. destruct FI as (Fz & _). destruct (snd z); try discriminate. destruct lx; try discriminate; reflexivity. }
  rewrite D. cbn [rbind]. rewrite keep_inside; auto; [rewrite FF; auto|]. destruct B as [|b B], LB as [|b' LB]; auto. cbn [combine snd hd] in *. rewrite HB. auto.
Qed.
(** A chain that crosses from one edge to another without interior points. *)
Lemma combine_app2 {P Q} (a c : list P) (b d : list Q) : length a = length b -> combine (a ++ c) (b ++ d) = combine a b ++ combine c d.
Proof. revert b. induction a as [|z a IH]; intros [|w b] L; try discriminate; cbn [app combine]; auto. rewrite IH; auto. Qed.
Lemma filter_none {P} (f : location -> bool) (a : list P) b : count_locs f b = 0%nat -> filter (fun x => f (snd x)) (combine a b) = [].
Proof. unfold count_locs. revert b. induction a as [|z a IH]; intros [|w b] H; auto. cbn [combine filter snd] in *. destruct (f w); [discriminate|]. auto. Qed.
Lemma straight_run pts ts A x y B LA i j LB : pts <> [] -> length A = length LA ->
  locate_points (cyc_pairs pts) pts ts (A ++ x :: y :: B) = Ok (LA ++ AtEdge i :: AtEdge j :: LB) ->
  forallb is_exterior LA = true -> i <> j -> forallb (fun l => negb (is_interior l)) LB = true -> is_edge (hd Exterior LB) = false ->
  remove_redundant_points (A ++ x :: y :: B) pts ts = Ok [x; y].
Proof.
  intros N LnA H FA Nij FB HB. rewrite remove_open by auto. replace (length (A ++ x :: y :: B) + 1)%nat with (S (length (A ++ x :: y :: B))) by lia. cbn [remove_redundant_from]. pose proof (list_located _ _ _ _ _ H) as (Ln & _). rewrite H. cbn [rbind].
  set (ls := LA ++ AtEdge i :: AtEdge j :: LB) in *. assert (NI : forall l, In l ls -> is_interior l = false).
  { intros l I. unfold ls in I. apply in_app_or in I. rewrite forallb_forall in FA, FB. destruct I as [I|[<-|[<-|I]]]; auto; [apply FA in I; destruct l; auto; discriminate|apply FB in I; apply negb_true_iff in I; auto]. }
  assert (E : ends_interior ls = false). { unfold ends_interior. destruct ls as [|l0 r] eqn:El; auto. rewrite (NI l0) by (simpl; auto). cbn [orb]. apply NI. destruct (exists_last (l := l0 :: r)) as (q & z & Eq); [discriminate|]. rewrite Eq, last_last. apply in_or_app. simpl. auto. }
  rewrite E. unfold select_points. assert (Z : combine (A ++ x :: y :: B) ls = combine A LA ++ (x, AtEdge i) :: (y, AtEdge j) :: combine B LB) by (unfold ls; rewrite combine_app2; auto). rewrite Z.
  assert (C0 : count_locs is_interior ls = 0%nat). { clear - NI. unfold count_locs. induction ls as [|l ls IH]; auto. cbn [filter]. rewrite (NI l) by (simpl; auto). apply IH. intros; apply NI; simpl; auto. }
  rewrite C0. destruct (_ && _ && _ && _) eqn:Sp.
  - apply andb_true_iff in Sp. destruct Sp as (_ & Sp). apply Nat.eqb_eq in Sp. unfold ls in Sp. rewrite count_app in Sp. change (AtEdge i :: AtEdge j :: LB) with ([AtEdge i; AtEdge j] ++ LB) in Sp. rewrite count_app in Sp. change (count_locs is_edge [AtEdge i; AtEdge j]) with 2%nat in Sp.
    rewrite filter_app. rewrite filter_none by lia. cbn [app filter snd is_edge]. rewrite filter_none by lia. auto.
  - assert (Pre : forall A LA prev, length A = length LA -> forallb is_exterior LA = true -> prev = None \/ prev = Some Exterior -> exists prev', (prev' = None \/ prev' = Some Exterior) /\ forall r, keep_loop (cyc_pairs pts) pts 0 prev (combine A LA ++ r) = keep_loop (cyc_pairs pts) pts 0 prev' r).
    { clear. induction A as [|a A IH]; intros [|l LA] prev L F P; try discriminate; [exists prev; split; auto; intros r; reflexivity|]. cbn [forallb] in F. apply andb_true_iff in F. destruct F as (Fl & F). destruct l; try discriminate. destruct (IH LA (Some Exterior)) as (p' & Hp & Hr); auto. exists p'. split; auto. }
    destruct (Pre A LA None LnA FA (or_introl eq_refl)) as (p' & Hp & Hr). rewrite Hr. cbn [keep_loop]. assert (D : decide (cyc_pairs pts) pts 0 p' (Some (AtEdge j)) x (AtEdge i) = Ok Keep). { apply Nat.eqb_neq in Nij. destruct Hp as [->| ->]; cbn [decide]; rewrite Nij; auto. }
    cbn [snd]. rewrite D. cbn [rbind]. assert (D2 : decide (cyc_pairs pts) pts 0 (Some (AtEdge i)) (match combine B LB with [] => None | z :: _ => Some (snd z) end) y (AtEdge j) = Ok KeepAndStop).
    { assert (Nji : (j =? i)%nat = false) by (apply Nat.eqb_neq; auto). destruct (combine B LB) as [|z r] eqn:Ec; [cbn [decide]; rewrite Nji; auto|]. destruct B as [|b B], LB as [|l LB]; try discriminate. cbn [combine] in Ec. injection Ec as <- _. cbn [snd hd] in *. cbn [forallb] in FB. apply andb_true_iff in FB. destruct FB as (Fl & _). destruct l; try discriminate; cbn [decide]; rewrite Nji; auto. }
    rewrite D2. cbn [rbind]. auto.
Qed.
