(** get_point_arrays: the parts, their areas, and the errors. *)
From Coq Require Import Reals List Bool Arith Lia Lra Permutation.
From Verif Require Import Prelude VecModel VecProofs GeomModel GeomSpec GeomProofs1 GeomProofs2 GeomProofs3 GeomProofs4 TriModel PolyModel PolySpec PolyProofs1 PolyProofs2 SliceModel SliceSpec SliceProofs1 SliceProofs2 SliceProofs3.
Import ListNotations.
Local Open Scope R_scope.

Lemma mapM_len {A B} (f : A -> result B) l r : mapM f l = Ok r -> length r = length l.
Proof. revert r. induction l as [|x l IH]; intros r; cbn [mapM]; [intros H; apply Ok_inj in H; subst; auto|]. destruct (f x); [|discriminate]. cbn [rbind]. destruct (mapM f l) as [r'|]; [|discriminate]. cbn [rbind]. intros H. apply Ok_inj in H. subst. cbn [length]. f_equal. apply IH. auto. Qed.
Lemma locs_len edges pts ts chain locs : locate_points edges pts ts chain = Ok locs -> length locs = length chain.
Proof. unfold locate_points. destruct chain; [discriminate|]. apply mapM_len. Qed.
Lemma arrays_eq pts ts chain locs : pts <> [] -> (2 <= length chain)%nat -> locate_points (cyc_pairs pts) pts ts chain = Ok locs -> get_point_arrays pts ts chain = point_arrays (cyc_pairs pts) pts chain locs.
Proof. intros N L E. unfold get_point_arrays. rewrite (proj2 (Nat.ltb_ge _ _) L), polygon_edges_eq by auto. cbn [rbind]. rewrite E. auto. Qed.

Definition edge_no (l : location) : list nat := match l with AtEdge i => [i] | _ => [] end.
Definition vertex_no (l : location) : list nat := match l with AtVertex i => [i] | _ => [] end.
Lemma inner_none (f : location -> bool) L : (forall l, f l = true -> boundary l = true) -> forallb (fun l => negb (boundary l)) L = true -> filter f L = [].
Proof.
  intros H. induction L as [|l L IH]; cbn [forallb filter]; auto. rewrite andb_true_iff, negb_true_iff. intros (B & R). destruct (f l) eqn:F; [apply H in F; congruence|auto].
Qed.
Lemma inner_nos L : forallb (fun l => negb (boundary l)) L = true -> concat (map edge_no L) = [] /\ concat (map vertex_no L) = [].
Proof. induction L as [|l L IH]; cbn [forallb map concat]; auto. rewrite andb_true_iff, negb_true_iff. intros (B & R). destruct (IH R) as (-> & ->). destruct l; try discriminate; auto. Qed.
Lemma count_ends f l0 L l1 : (forall l, f l = true -> boundary l = true) -> forallb (fun l => negb (boundary l)) L = true ->
  count_locs f (l0 :: L ++ [l1]) = ((if f l0 then 1 else 0) + (if f l1 then 1 else 0))%nat.
Proof. intros H B. unfold count_locs. cbn [filter]. rewrite filter_app, (inner_none f L H B). cbn [app filter]. destruct (f l0), (f l1); auto. Qed.
Lemma nos_ends l0 L l1 : forallb (fun l => negb (boundary l)) L = true ->
  edge_numbers (l0 :: L ++ [l1]) = nodup eq_dec (edge_no l0 ++ edge_no l1) /\ vertex_numbers (l0 :: L ++ [l1]) = nodup eq_dec (vertex_no l0 ++ vertex_no l1).
Proof.
  intros B. destruct (inner_nos L B) as (E1 & E2). unfold edge_numbers, vertex_numbers. fold edge_no. fold vertex_no. change (fun l => match l with AtEdge i => [i] | _ => [] end) with edge_no. change (fun l => match l with AtVertex i => [i] | _ => [] end) with vertex_no.
  cbn [map concat]. rewrite !map_app, !concat_app, E1, E2. cbn [map concat app]. rewrite !app_nil_r. auto.
Qed.
Lemma edge_b l : is_edge l = true -> boundary l = true. Proof. destruct l; auto. Qed.
Lemma vertex_b l : is_vertex l = true -> boundary l = true. Proof. destruct l; auto. Qed.
Lemma ends_at (x : vec) M y (l0 : location) L l1 : length (l0 :: L ++ [l1]) = length (x :: M ++ [y]) -> at_index (l0 :: L ++ [l1]) 0 = Ok l0 /\ at_index (l0 :: L ++ [l1]) (length (x :: M ++ [y]) - 1) = Ok l1.
Proof.
  intros E. split; [reflexivity|]. rewrite <- E. unfold at_index. cbn [length]. rewrite app_length. cbn [length]. replace (S (length L + 1) - 1)%nat with (S (length L)) by lia. cbn [nth_error]. rewrite nth_error_app2, Nat.sub_diag by lia. auto.
Qed.
Lemma nodup2 (i j : nat) : i <> j -> nodup eq_dec [i; j] = [i; j].
Proof. intros N. cbn [nodup]. destruct (in_dec eq_dec i [j]) as [[H|[]]|]; [congruence|]. auto. Qed.
Lemma nodup1 (i : nat) : nodup eq_dec [i; i] = [i].
Proof. cbn [nodup]. destruct (in_dec eq_dec i [i]) as [|H]; auto. exfalso. apply H. simpl. auto. Qed.

Lemma cut_same o c p1 p2 : cut o c p1 p2 -> forall o', rotation_of o' o -> cut o' c p1 p2.
Proof. intros (x & A & y & B & M & R & H) o' R'. exists x, A, y, B, M. split; auto. apply (rot_trans _ _ _ R' R). Qed.
Lemma known_lt pts l x i : known_end pts l x -> loc_index l = Some i -> (i < length pts)%nat.
Proof. destruct l; cbn; try contradiction; intros H E; injection E as ->; [apply H|auto]. Qed.
Lemma parts_spec pts ts x M y l0 L l1 : told_apart pts -> NoDup pts ->
  locate_points (cyc_pairs pts) pts ts (x :: M ++ [y]) = Ok (l0 :: L ++ [l1]) ->
  known_end pts l0 x -> known_end pts l1 y -> l0 <> l1 -> forallb (fun l => negb (boundary l)) L = true ->
  exists q1 q2, get_point_arrays pts ts (x :: M ++ [y]) = Ok (q1, q2) /\ parts_of pts (x :: M ++ [y]) x l0 y l1 q1 q2.
Proof.
  intros T N E K0 K1 Ne B. assert (Np : pts <> []). { intros ->. destruct l0; cbn in K0; try contradiction; [destruct K0|]; lia. }
  rewrite (arrays_eq pts ts _ (l0 :: L ++ [l1]) Np); auto; [|cbn [length]; rewrite app_length; cbn [length]; lia].
  destruct (ends_at x M y l0 L l1 (locs_len _ _ _ _ _ E)) as (A0 & A1). unfold point_arrays. rewrite A0, A1. cbn [rbind].
  rewrite (count_ends is_edge l0 L l1 edge_b B), (count_ends is_vertex l0 L l1 vertex_b B). destruct (nos_ends l0 L l1 B) as (-> & ->).
  destruct l0 as [| |i|i]; try contradiction; destruct l1 as [| |j|j]; try contradiction; cbn [is_edge is_vertex Nat.add edge_no vertex_no app].
  - assert (Nij : i <> j) by congruence. rewrite nodup2 by auto. destruct (nth_error pts i) as [v|] eqn:Ev; [|apply nth_error_None in Ev; destruct K0; lia]. destruct (case4_spec pts x M y i j v T N K0 K1 Nij Ev) as (p1 & q2 & p2 & -> & Hc & Hr). exists p1, q2. split; [reflexivity|]. exists v, p2. cbn [tl]. auto.
  - cbn [nodup in_dec]. cbn [nodup]. destruct (in_dec eq_dec j []) as [[]|]. destruct (case3_spec pts x M y i j (x :: M ++ [y]) (AtVertex i) (AtEdge j) T N K0 K1 (or_introl (conj eq_refl (conj eq_refl eq_refl)))) as (q1 & p1 & p2 & -> & Hc & Hr). exists q1, p2. split; [reflexivity|]. exists p1. auto.
  - cbn [nodup]. destruct (in_dec eq_dec i []) as [[]|].
    assert (R : x :: M ++ [y] = rev (y :: rev M ++ [x])) by (cbn [rev]; rewrite rev_app_distr; cbn [rev app]; rewrite rev_involutive; auto).
    destruct (case3_spec pts y (rev M) x j i (x :: M ++ [y]) (AtEdge i) (AtVertex j) T N K1 K0) as (q1 & p1 & p2 & -> & Hc & Hr); [right; auto|]. exists q1, p2. split; [reflexivity|]. exists p1. split; auto. rewrite with_swap by discriminate. cbn [rev]. rewrite rev_app_distr. cbn [rev app]. auto.
  - assert (Nij : i <> j) by congruence. rewrite nodup2 by auto. destruct (case1_spec pts x M y i j T N Nij K0 K1) as (q1 & p1 & p2 & -> & Hc & Hr). exists q1, p2. split; [reflexivity|]. exists p1. split; auto.
Qed.

Lemma reverse_area p q : reverse_loop p q -> vector_area2 q = vopp (vector_area2 p).
Proof. unfold reverse_loop. intros H. rewrite <- (vector_area2_rot _ _ H). apply vector_area2_rev. Qed.
Lemma parts_area pts chain x l0 y l1 q1 q2 : l0 <> l1 -> exact_end pts l0 x -> exact_end pts l1 y -> parts_of pts chain x l0 y l1 q1 q2 ->
  match l0, l1 with AtVertex _, AtVertex _ => vsub (vector_area2 q1) (vector_area2 q2) | _, _ => vsub (vector_area2 q2) (vector_area2 q1) end = vector_area2 pts.
Proof.
  intros N E0 E1 H. assert (S : forall a b c, vadd a b = c -> vsub b (vopp a) = c /\ vsub a (vopp b) = c) by (intros a b c <-; dvec a; dvec b; vunf; split; f_equal; ring).
  destruct l0 as [| |i|i]; try contradiction; destruct l1 as [| |j|j]; try contradiction; unfold parts_of in H.
  - destruct H as (v & p2 & Ev & Hc & Hr). cbn in E0. assert (v = x) by congruence. subst v. apply cut_area in Hc. rewrite (reverse_area _ _ Hr). rewrite <- (ends_area _ _ x y pts N E0 E1). apply (proj2 (S _ _ _ Hc)).
  - destruct H as (p1 & Hc & Hr). apply cut_area in Hc. rewrite (reverse_area _ _ Hr). rewrite <- (ends_area _ _ x y pts N E0 E1). apply (proj1 (S _ _ _ Hc)).
  - destruct H as (p1 & Hc & Hr). apply cut_area in Hc. rewrite (reverse_area _ _ Hr). rewrite <- (ends_area _ _ x y pts N E0 E1). apply (proj1 (S _ _ _ Hc)).
  - destruct H as (p1 & Hc & Hr). apply cut_area in Hc. rewrite (reverse_area _ _ Hr). rewrite <- (ends_area _ _ x y pts N E0 E1). apply (proj1 (S _ _ _ Hc)).
Qed.
Lemma polygon_area_all pts vn : polygon_area pts vn = Rabs (signed_area2 pts vn) / 2.
Proof.
  unfold signed_area2. destruct (Nat.lt_ge_cases (length pts) 3) as [L|L]; [|apply polygon_area_eq; auto]. unfold polygon_area. rewrite (proj2 (Nat.ltb_lt _ _) L). replace (dot (vector_area2 pts) vn) with 0; [rewrite Rabs_R0; lra|].
  destruct pts as [|a [|b [|c r]]]; cbn [length] in L; try lia; unfold vector_area2, cyc_pairs; cbn [combine app map fold_right fst snd]; unfold vzero; dvec vn; vunf; ring.
Qed.
Lemma abs_parts D1 D2 D : D2 - D1 = D -> Rabs D <= Rabs D1 + Rabs D2 /\ (Rabs D1 + Rabs D2 = Rabs D <-> D1 * D2 <= 0).
Proof.
  intros <-. split.
  - replace (D2 - D1) with (D2 + - D1) by ring. pose proof (Rabs_triang D2 (- D1)). rewrite Rabs_Ropp in H. lra.
  - unfold Rabs. destruct (Rcase_abs D1), (Rcase_abs D2), (Rcase_abs (D2 - D1)); split; intros; nra.
Qed.
Lemma parts_areas pts chain x l0 y l1 q1 q2 vn : l0 <> l1 -> exact_end pts l0 x -> exact_end pts l1 y -> parts_of pts chain x l0 y l1 q1 q2 ->
  polygon_area pts vn <= polygon_area q1 vn + polygon_area q2 vn /\
  (polygon_area q1 vn + polygon_area q2 vn = polygon_area pts vn <-> signed_area2 q1 vn * signed_area2 q2 vn <= 0).
Proof.
  intros N E0 E1 H. pose proof (parts_area _ _ _ _ _ _ _ _ N E0 E1 H) as A. rewrite !polygon_area_all.
  assert (Q : signed_area2 q2 vn - signed_area2 q1 vn = signed_area2 pts vn \/ signed_area2 q1 vn - signed_area2 q2 vn = signed_area2 pts vn).
  { unfold signed_area2. rewrite <- A. assert (S : forall a b, dot (vsub a b) vn = dot a vn - dot b vn) by (intros; dvec a; dvec b; dvec vn; vunf; ring). rewrite <- !S. destruct l0, l1; auto. }
  destruct Q as [Q|Q]; apply abs_parts in Q; destruct Q as (Q1 & Q2); split; lra.
Qed.
