(** get_point_arrays for a chain that returns to the same edge; errors;
    slice_polygon. *)
From Coq Require Import Reals List Bool Arith Lia Lra Permutation.
From Verif Require Import Prelude TreeModel VecModel VecProofs GeomModel GeomSpec GeomProofs1 GeomProofs2 GeomProofs3 GeomProofs4 TriModel TriSpec TriProofs TriProofs2 PolyModel PolySpec PolyProofs1 PolyProofs2 SolidModel SliceModel SliceSpec SliceProofs1 SliceProofs2 SliceProofs3 SliceProofs5.
Import ListNotations.
Local Open Scope R_scope.

Lemma insert_chain_at ends c pts : forall k, (k < length pts)%nat -> (forall j p, nth_error pts j = Some p -> (j < k)%nat -> is_point_in_array p ends = false) -> (forall p, nth_error pts k = Some p -> is_point_in_array p ends = true) ->
  insert_chain ends c pts = put_after k c pts.
Proof.
  induction pts as [|p r IH]; intros k L Hb Hk; [cbn [length] in L; lia|]. cbn [insert_chain]. destruct k as [|k].
  - rewrite (Hk p eq_refl). unfold put_after. cbn [firstn skipn app]. auto.
  - rewrite (Hb 0%nat p eq_refl) by lia. rewrite (IH k); [reflexivity|cbn [length] in L; lia| |].
    + intros j q E Lj. apply (Hb (S j) q E). lia.
    + intros q E. apply (Hk q E).
Qed.
Lemma in_ends pts i j a b p k : told_apart pts -> NoDup pts -> nth_error pts i = Some a -> nth_error pts j = Some b -> nth_error pts k = Some p ->
  is_point_in_array p [a; b] = ((k =? i) || (k =? j))%nat.
Proof.
  intros T N Ea Eb Ep. unfold is_point_in_array. cbn [existsb]. rewrite orb_false_r.
  assert (G : forall m q, nth_error pts m = Some q -> points_equal p q = (k =? m)%nat).
  { intros m q Eq. destruct (Nat.eqb_spec k m) as [->|Nm]; [rewrite Ep in Eq; injection Eq as ->; apply points_equal_refl|]. apply not_true_is_false. intros H. apply Nm. assert (p = q) by (apply T; [apply nth_error_In in Ep; auto|apply nth_error_In in Eq; auto|auto]). subst q. rewrite NoDup_nth_error in N. apply N; [apply nth_error_Some; congruence|congruence]. }
  rewrite (G i a Ea), (G j b Eb). auto.
Qed.
Definition put_index (n k : nat) : nat := if (k =? n - 1)%nat then 0%nat else k.
Lemma edge_insert pts c k : told_apart pts -> NoDup pts -> (k < length pts)%nat ->
  exists a b, nth_error (cyc_pairs pts) k = Some (a, b) /\ insert_chain [a; b] c pts = put_after (put_index (length pts) k) c pts.
Proof.
  intros T N L. assert (X : forall i, (i < length pts)%nat -> exists p, nth_error pts i = Some p). { intros i Li. destruct (nth_error pts i) eqn:E; eauto. apply nth_error_None in E. lia. }
  assert (Lm : ((k + 1) mod length pts < length pts)%nat) by (apply Nat.mod_upper_bound; lia). destruct (X k L) as (a & Ea), (X _ Lm) as (b & Eb). exists a, b. split; [apply cyc_pairs_nth; auto|].
  unfold put_index. destruct (Nat.eqb_spec k (length pts - 1)) as [E|E].
  - assert (E0 : ((k + 1) mod length pts = 0)%nat) by (replace (k + 1)%nat with (length pts) by lia; apply Nat.mod_same; lia). apply insert_chain_at; [lia|intros; lia|]. intros p Ep. rewrite (in_ends pts k _ a b p 0 T N Ea Eb Ep), E0. rewrite Nat.eqb_refl. apply orb_true_r.
  - rewrite Nat.mod_small in Eb by lia. apply insert_chain_at; auto.
    + intros j p Ep Lj. rewrite (in_ends pts k _ a b p j T N Ea Eb Ep). apply orb_false_iff. split; apply Nat.eqb_neq; lia.
    + intros p Ep. rewrite (in_ends pts k _ a b p k T N Ea Eb Ep), Nat.eqb_refl. auto.
Qed.
Lemma opp_not_close n : unit n -> allclose (vopp n) n RTOL ATOL8 = false.
Proof.
  intros U. apply not_true_is_false. intros H. apply allclose_unit_dot in H; [|unfold RTOL; lra|unfold ATOL8; lra|unfold unit in *; rewrite <- U; dvec n; vunf; ring|rewrite (unit_norm _ U); lra].
  unfold unit in U. replace (dot (vopp n) n) with (- dot n n) in H by (dvec n; vunf; ring). lra.
Qed.
Lemma case2_spec pts chain k s p n : told_apart pts -> NoDup pts -> (k < length pts)%nat -> first_three chain = Ok s -> first_three pts = Ok p -> unit n ->
  let '(sl, s0, s1) := s in let '(pl, p0, p1) := p in normal pl p0 p1 = Some n ->
  (normal sl s0 s1 = Some n -> slice_case2 (cyc_pairs pts) pts chain k = Ok (chain, put_after (put_index (length pts) k) (rev chain) pts)) /\
  (normal sl s0 s1 = Some (vopp n) -> slice_case2 (cyc_pairs pts) pts chain k = Ok (chain, put_after (put_index (length pts) k) chain pts)) /\
  (normal sl s0 s1 = None -> slice_case2 (cyc_pairs pts) pts chain k = Err ValueError).
Proof.
  intros T N L Fs Fp U. destruct s as ((sl, s0), s1), p as ((pl, p0), p1). intros Ep. unfold slice_case2. rewrite Fs, Fp. cbn [rbind]. rewrite Ep. repeat split; intros Es; rewrite Es; cbn [option_map opt_allclose].
  - rewrite opp_not_close by auto. rewrite allclose_refl by (unfold RTOL, ATOL8; lra). cbn [rbind]. destruct (edge_insert pts (rev chain) k T N L) as (a & b & E & I). unfold edge_ends. rewrite (at_ok _ _ _ E). cbn [rbind fst snd]. rewrite I. auto.
  - replace (vopp (vopp n)) with n by (dvec n; vunf; f_equal; ring). rewrite allclose_refl by (unfold RTOL, ATOL8; lra). cbn [rbind]. destruct (edge_insert pts chain k T N L) as (a & b & E & I). unfold edge_ends. rewrite (at_ok _ _ _ E). cbn [rbind fst snd]. rewrite I. auto.
  - auto.
Qed.
Lemma put_area pts k c x y a b : nth_error (cyc_pairs pts) k = Some (a, b) -> a <> b -> (exists M, c = x :: M ++ [y]) -> cross (vsub x a) (vsub b a) = vzero -> cross (vsub y a) (vsub b a) = vzero ->
  vector_area2 (put_after k c pts) = vadd (vector_area2 pts) (vector_area2 c).
Proof.
  intros E N (M & ->) Hx Hy. assert (Lk : (k < length pts)%nat) by (rewrite <- cyc_pairs_length; apply nth_error_Some; congruence). destruct (split1 pts k Lk) as (P & a' & S & -> & LP).
  assert (Ea : nth_error (P ++ a' :: S) k = Some a') by (apply at_mid; auto). rewrite app_length in Lk. cbn [length] in Lk. set (n := length (P ++ a' :: S)). assert (Ln : (n = length P + 1 + length S)%nat) by (unfold n; rewrite app_length; cbn [length]; lia).
  assert (Lb : ((k + 1) mod n < n)%nat) by (apply Nat.mod_upper_bound; lia). destruct (nth_error (P ++ a' :: S) ((k + 1) mod n)) as [b'|] eqn:Eb; [|apply nth_error_None in Eb; unfold n in *; lia].
  rewrite (cyc_pairs_nth _ _ _ _ Ea Eb) in E. injection E as -> ->.
  unfold put_after. replace (P ++ a :: S) with ((P ++ [a]) ++ S) by (norm_app; auto). rewrite firstn_exact, skipn_exact by (rewrite app_length; cbn [length]; lia). norm_app.
  rewrite (vector_area2_rot _ _ (rot_app P (a :: x :: M ++ y :: S))), (vector_area2_rot _ _ (rot_app P (a :: S))). cbn [app].
  assert (Q : exists t, (S ++ P) ++ [a] = b :: t).
  { destruct S as [|s S'].
    - assert (E0 : ((k + 1) mod n = 0)%nat) by (cbn [length] in Ln; replace (k + 1)%nat with n by lia; apply Nat.mod_same; lia). rewrite E0 in Eb. cbn [app]. destruct P as [|p P']; cbn [app nth_error] in *; injection Eb as ->; eauto.
    - cbn [length] in Ln. rewrite Nat.mod_small in Eb by lia. replace (P ++ a :: s :: S') with ((P ++ [a]) ++ s :: S') in Eb by (norm_app; auto). rewrite (at_mid (P ++ [a]) S' s) in Eb by (rewrite app_length; cbn [length]; lia). injection Eb as ->. cbn [app]. eauto. }
  destruct Q as (t & Q).
  assert (V2 : forall l, vector_area2 l = vtotal (map (fun e => cross (fst e) (snd e)) (cyc_pairs l))) by reflexivity. rewrite !V2, !cyc_open. cbn [app]. rewrite Q. norm_app.
  replace (a :: x :: M ++ y :: S ++ P ++ [a]) with ([a] ++ x :: (M ++ [y]) ++ S ++ P ++ [a]) by (norm_app; auto). replace (S ++ P ++ [a]) with (b :: t) by (rewrite <- Q; norm_app; auto).
  rewrite (open_join [a]). replace (x :: (M ++ [y]) ++ b :: t) with ((x :: M ++ [y]) ++ b :: t) by (norm_app; auto). rewrite (open_join (x :: M ++ [y])). replace ((x :: M ++ [y]) ++ [b]) with ((x :: M) ++ y :: [b]) by (norm_app; auto). rewrite (open_join (x :: M) [b] y).
  replace (x :: M ++ [y; x]) with ((x :: M) ++ y :: [x]) by (norm_app; auto). rewrite (open_join (x :: M) [x] y). change (a :: b :: t) with ([a] ++ b :: t). rewrite (open_join [a] t b). rewrite !map_app, !vtotal_app. cbn [app].
  set (T1 := vtotal (map (fun e : vec * vec => cross (fst e) (snd e)) (open_pairs (b :: t)))). set (T2 := vtotal (map (fun e : vec * vec => cross (fst e) (snd e)) (open_pairs (x :: M ++ [y])))).
  unfold open_pairs. cbn [tl combine map vtotal fold_right fst snd]. clearbody T1 T2.
  assert (K : cross (vsub y x) (vsub b x) = vzero).
  { assert (Pv : 0 < dot (vsub b a) (vsub b a)). { destruct (Rle_lt_or_eq_dec _ _ (dot_pos (vsub b a))) as [|E0]; auto. exfalso. symmetry in E0. apply dot_zero in E0. apply N. clear - E0. dvec a. dvec b. unfold vzero in E0. vunf. injection E0 as E1 E2 E3. f_equal; lra. }
    set (v := vsub b a) in *. set (ux := vsub x a) in *. set (uy := vsub y a) in *. assert (R : forall w, cross w v = vzero -> w = smul (dot w v / dot v v) v).
    { intros w Hw. assert (Z : smul (dot v v) w = smul (dot w v) v). { replace (smul (dot v v) w) with (vadd (smul (dot w v) v) (cross v (cross w v))) by (clear; dvec v; dvec w; vunf; f_equal; ring). rewrite Hw. clear. dvec v. dvec w. unfold vzero. vunf. f_equal; ring. }
      clear - Z Pv. set (d := dot v v) in *. set (e := dot w v) in *. clearbody d e. dvec v. dvec w. vunf. injection Z as Z1 Z2 Z3. f_equal; apply (Rmult_eq_reg_l d); try lra; rewrite ?Z1, ?Z2, ?Z3; field; lra. }
    replace (vsub y x) with (vsub uy ux) by (unfold ux, uy; clear; dvec x; dvec y; dvec a; vunf; f_equal; ring). replace (vsub b x) with (vsub v ux) by (unfold ux, v; clear; dvec x; dvec b; dvec a; vunf; f_equal; ring). rewrite (R ux Hx), (R uy Hy). clear. set (p := dot ux v / dot v v). set (q := dot uy v / dot v v). clearbody p q. dvec v. unfold vzero. vunf. f_equal; ring. }
  pose proof (area_on_line a b x Hx) as Ax. rewrite <- Ax. clear - K.
  assert (Y : cross y b = vadd (cross y x) (cross x b)). { dvec x. dvec y. dvec b. unfold vzero in *. vunf. injection K as K1 K2 K3. f_equal; lra. }
  rewrite Y. unfold vzero. generalize (cross a x) (cross y x) (cross x b). intros u v w. dvec T1. dvec T2. dvec u. dvec v. dvec w. vunf. f_equal; ring.
Qed.
(** get_point_arrays for such a chain. *)
Lemma same_edge_spec pts ts x M y k L s p n : told_apart pts -> NoDup pts -> (k < length pts)%nat ->
  locate_points (cyc_pairs pts) pts ts (x :: M ++ [y]) = Ok (AtEdge k :: L ++ [AtEdge k]) -> forallb (fun l => negb (boundary l)) L = true ->
  first_three (x :: M ++ [y]) = Ok s -> first_three pts = Ok p -> unit n ->
  let '(sl, s0, s1) := s in let '(pl, p0, p1) := p in normal pl p0 p1 = Some n ->
  let j := if (k =? length pts - 1)%nat then 0%nat else k in
  (normal sl s0 s1 = Some n -> get_point_arrays pts ts (x :: M ++ [y]) = Ok (x :: M ++ [y], put_after j (rev (x :: M ++ [y])) pts)) /\
  (normal sl s0 s1 = Some (vopp n) -> get_point_arrays pts ts (x :: M ++ [y]) = Ok (x :: M ++ [y], put_after j (x :: M ++ [y]) pts)) /\
  (normal sl s0 s1 = None -> get_point_arrays pts ts (x :: M ++ [y]) = Err ValueError).
Proof.
  intros T N Lk E B Fs Fp U. assert (Np : pts <> []) by (intros ->; cbn [length] in Lk; lia).
  assert (G : get_point_arrays pts ts (x :: M ++ [y]) = slice_case2 (cyc_pairs pts) pts (x :: M ++ [y]) k).
  { rewrite (arrays_eq pts ts _ (AtEdge k :: L ++ [AtEdge k]) Np); auto; [|cbn [length]; rewrite app_length; cbn [length]; lia].
    destruct (ends_at x M y _ L _ (locs_len _ _ _ _ _ E)) as (A0 & A1). unfold point_arrays. rewrite A0, A1. cbn [rbind].
    rewrite (count_ends is_edge _ L _ edge_b B), (count_ends is_vertex _ L _ vertex_b B). destruct (nos_ends (AtEdge k) L (AtEdge k) B) as (-> & ->). cbn [edge_no app]. rewrite nodup1. cbn [is_edge is_vertex Nat.add vertex_no app nodup]. reflexivity. }
  pose proof (case2_spec pts (x :: M ++ [y]) k s p n T N Lk Fs Fp U) as H. destruct s as ((sl, s0), s1), p as ((pl, p0), p1). rewrite G. exact H.
Qed.
(** The errors. *)
Lemma short_chain pts ts chain : (length chain < 2)%nat -> get_point_arrays pts ts chain = Err GeometryError.
Proof. intros L. unfold get_point_arrays. rewrite (proj2 (Nat.ltb_lt _ _) L). auto. Qed.
Lemma count_boundary ls : count_locs boundary ls = (count_locs is_vertex ls + count_locs is_edge ls)%nat.
Proof. unfold count_locs. induction ls as [|l ls IH]; auto. cbn [filter]. destruct l; cbn [boundary is_vertex is_edge orb length]; lia. Qed.
Lemma locs_ends (ls : list location) (chain : list vec) : length ls = length chain -> (2 <= length chain)%nat -> exists l0 l1, nth_error ls 0 = Some l0 /\ nth_error ls (length chain - 1) = Some l1.
Proof. intros E L. destruct (nth_error ls 0) as [l0|] eqn:E0; [|apply nth_error_None in E0; lia]. destruct (nth_error ls (length chain - 1)) as [l1|] eqn:E1; [|apply nth_error_None in E1; lia]. eauto. Qed.
Lemma nos_count ls : length (concat (map edge_no ls)) = count_locs is_edge ls /\ length (concat (map vertex_no ls)) = count_locs is_vertex ls.
Proof. unfold count_locs. induction ls as [|l ls (IH1 & IH2)]; auto. destruct l; cbn [map concat edge_no vertex_no app filter is_edge is_vertex length]; lia. Qed.
Lemma wrong_count pts ts chain ls : pts <> [] -> (2 <= length chain)%nat -> locate_points (cyc_pairs pts) pts ts chain = Ok ls -> count_locs boundary ls <> 2%nat -> get_point_arrays pts ts chain = Err NotImplementedError.
Proof.
  intros Np L E C. rewrite (arrays_eq pts ts chain ls Np L E). destruct (locs_ends ls chain (locs_len _ _ _ _ _ E) L) as (l0 & l1 & E0 & E1). unfold point_arrays. rewrite (at_ok _ _ _ E0), (at_ok _ _ _ E1). cbn [rbind]. rewrite count_boundary in C.
  destruct (count_locs is_edge ls) as [|[|[|]]], (count_locs is_vertex ls) as [|[|[|]]]; try lia; auto.
Qed.
Lemma count_in f l ls : In l ls -> f l = true -> (1 <= count_locs f ls)%nat.
Proof. intros I F. unfold count_locs. assert (X : In l (filter f ls)) by (apply filter_In; auto). destruct (filter f ls); [destruct X|cbn [length]; lia]. Qed.
Lemma edge_numbers_in ls i : In (AtEdge i) ls -> In i (concat (map edge_no ls)).
Proof. intros I. apply in_concat. exists [i]. split; [|simpl; auto]. apply in_map_iff. exists (AtEdge i). auto. Qed.
Lemma ends_inside pts ts chain ls i l0 l1 : pts <> [] -> (2 <= length chain)%nat -> locate_points (cyc_pairs pts) pts ts chain = Ok ls -> count_locs boundary ls = 2%nat ->
  In (AtEdge i) ls -> (exists j, In (AtVertex j) ls \/ j <> i /\ In (AtEdge j) ls) ->
  nth_error ls 0 = Some l0 -> nth_error ls (length chain - 1) = Some l1 -> boundary l0 = false \/ boundary l1 = false -> get_point_arrays pts ts chain = Err AssertionError.
Proof.
  intros Np L E C Ii (j & Hj) E0 E1 B. rewrite (arrays_eq pts ts chain ls Np L E). unfold point_arrays. rewrite (at_ok _ _ _ E0), (at_ok _ _ _ E1). cbn [rbind]. rewrite count_boundary in C. pose proof (count_in is_edge _ _ Ii eq_refl) as Ci. pose proof (nos_count ls) as (Le & _). pose proof (edge_numbers_in ls i Ii) as Ei.
  unfold edge_numbers. change (fun l => match l with AtEdge i => [i] | _ => [] end) with edge_no. destruct Hj as [Ij|(Nij & Ij)].
  - pose proof (count_in is_vertex _ _ Ij eq_refl) as Cj. assert (Ce : count_locs is_edge ls = 1%nat) by lia. assert (Cv : count_locs is_vertex ls = 1%nat) by lia. rewrite Ce in *. rewrite Cv. destruct (concat (map edge_no ls)) as [|k [|]] eqn:Ek; try discriminate. cbn [nodup]. destruct (in_dec eq_dec k []) as [[]|]. unfold slice_case3. destruct B as [B|B]; destruct l0, l1; try discriminate; reflexivity.
  - pose proof (edge_numbers_in ls j Ij) as Ej. assert (Ce : count_locs is_edge ls = 2%nat).
    { destruct (count_locs is_edge ls) as [|[|[|]]] eqn:Q; auto; try lia. exfalso. destruct (concat (map edge_no ls)) as [|k [|]]; try discriminate. destruct Ei as [->|[]], Ej as [->|[]]. congruence. }
    assert (Cv : count_locs is_vertex ls = 0%nat) by lia. rewrite Ce in *. rewrite Cv. destruct (concat (map edge_no ls)) as [|k [|k' [|]]] eqn:Ek; try discriminate. assert (Nk : k <> k') by (intros ->; simpl in Ei, Ej; destruct Ei as [->|[->|[]]], Ej as [->|[->|[]]]; congruence). rewrite nodup2 by auto.
    unfold slice_case1. destruct B as [B|B]; destruct l0, l1; try discriminate; reflexivity.
Qed.
Lemma same_vertex pts ts x M y i L : pts <> [] -> locate_points (cyc_pairs pts) pts ts (x :: M ++ [y]) = Ok (AtVertex i :: L ++ [AtVertex i]) -> get_point_arrays pts ts (x :: M ++ [y]) = Err NotImplementedError.
Proof.
  intros Np E. destruct (forallb (fun l => negb (boundary l)) L) eqn:B.
  - rewrite (arrays_eq pts ts _ (AtVertex i :: L ++ [AtVertex i]) Np); auto; [|cbn [length]; rewrite app_length; cbn [length]; lia].
    destruct (ends_at x M y _ L _ (locs_len _ _ _ _ _ E)) as (A0 & A1). unfold point_arrays. rewrite A0, A1. cbn [rbind].
    rewrite (count_ends is_edge _ L _ edge_b B), (count_ends is_vertex _ L _ vertex_b B). destruct (nos_ends (AtVertex i) L (AtVertex i) B) as (-> & ->). cbn [vertex_no app]. rewrite nodup1. reflexivity.
  - apply wrong_count with (ls := AtVertex i :: L ++ [AtVertex i]); auto; [cbn [length]; rewrite app_length; cbn [length]; lia|]. unfold count_locs. cbn [filter boundary is_vertex is_edge orb]. cbn [length]. rewrite filter_app, app_length. cbn [filter boundary is_vertex is_edge orb length].
    assert (Q : (1 <= length (filter boundary L))%nat); [|lia]. clear - B. induction L as [|l L IH]; [discriminate|]. cbn [forallb filter] in *. destruct (boundary l); cbn [length]; [lia|apply IH; auto].
Qed.

(** slice_polygon. *)
Lemma make_with_vn pts vn p : make_polygon pts None (Some vn) = Ok p -> p_vn p = vn /\ (p_pts p = pts \/ p_pts p = rev pts) /\ p_area p = polygon_area pts vn /\ 0 < signed_area2 (p_pts p) vn /\ triangulate_pts pts vn = Ok (p_pts p, p_tri p).
Proof.
  unfold make_polygon, check_polygon, build_polygon. destruct (are_points_coplanar pts GEOM_ATOL) as [[|]|]; try discriminate. cbn [rbind negb]. destruct (length pts <? 3)%nat eqn:L; [discriminate|]. apply Nat.ltb_ge in L. cbn [rbind].
  destruct (triangulate_pts pts vn) as [(pts', ts)|] eqn:T; [|discriminate]. cbn [rbind]. destruct (polygon_centroid pts' ts); [|discriminate]. cbn [rbind]. destruct (plane_coefficients pts'); [|discriminate]. cbn [rbind]. intros H. apply Ok_inj in H. subst p. cbn [p_vn p_pts p_area p_tri].
  split; auto. split; [apply (proj1 (tri_structure _ _ _ _ L T))|]. split; [apply (proj2 (tri_area_sum _ _ _ _ T L))|]. split; auto. apply (tri_orientation _ _ _ _ T L).
Qed.
Lemma make_polygons_parts vn q1 q2 pt1 n1 pt2 n2 r1 r2 a b : make_polygons vn q1 q2 pt1 n1 pt2 n2 r1 r2 = Ok (a, b) ->
  exists p1 p2, make_polygon q1 None (Some vn) = Ok p1 /\ make_polygon q2 None (Some vn) = Ok p2 /\ fst a = or_random n1 r1 /\ fst b = or_random n2 r2 /\ (snd a = p1 /\ snd b = p2 \/ snd a = p2 /\ snd b = p1).
Proof.
  unfold make_polygons. destruct (make_polygon q1 None (Some vn)) as [p1|]; [|discriminate]. cbn [rbind]. destruct (make_polygon q2 None (Some vn)) as [p2|]; [|discriminate]. cbn [rbind]. destruct (assign_names _ _ _ _ _ _) as [(m1, m2)|]; [|discriminate]. cbn [rbind fst snd].
  intros H. exists p1, p2. split; auto. split; auto. destruct (eqb m1 (or_random n1 r1) && eqb m2 (or_random n2 r2)) eqn:C1.
  - apply andb_true_iff in C1. rewrite !eqb_true in C1. destruct C1 as (-> & ->). apply Ok_inj in H. injection H as <- <-. cbn [fst snd]. auto.
  - destruct (eqb m1 (or_random n2 r2) && eqb m2 (or_random n1 r1)) eqn:C2; [|discriminate]. apply andb_true_iff in C2. rewrite !eqb_true in C2. destruct C2 as (-> & ->). apply Ok_inj in H. injection H as <- <-. cbn [fst snd]. auto.
Qed.
Lemma normal_kept vn np : p_vn (snd np) = vn -> check_normal vn np = Ok np.
Proof. intros <-. unfold check_normal. rewrite allclose_refl by (unfold GEOM_RTOL, ATOL8; lra). auto. Qed.
Lemma slice_parts p chain pt1 n1 pt2 n2 r1 r2 a b : slice_polygon p chain pt1 n1 pt2 n2 r1 r2 = Ok (a, b) ->
  exists o ch q1 q2, add_intersection_points (p_pts p) chain = Ok o /\ remove_redundant_points (snd o) (p_pts p) (p_tri p) = Ok ch /\ get_point_arrays (p_pts p) (p_tri p) ch = Ok (q1, q2) /\
    make_polygons (p_vn p) q1 q2 pt1 n1 pt2 n2 r1 r2 = Ok (a, b).
Proof.
  unfold slice_polygon. destruct (are_points_coplanar _ _) as [[|]|]; try discriminate. cbn [rbind negb]. destruct (add_intersection_points _ _) as [o|]; [|discriminate]. cbn [rbind]. destruct (remove_redundant_points _ _ _) as [ch|] eqn:Er; [|discriminate]. cbn [rbind]. destruct (length ch <? 2)%nat; [discriminate|]. destruct (get_point_arrays _ _ _) as [(q1, q2)|] eqn:Eg; [|discriminate]. cbn [rbind fst snd].
  destruct (make_polygons _ _ _ _ _ _ _ _ _) as [(a', b')|] eqn:Em; [|discriminate]. cbn [rbind fst snd]. destruct (make_polygons_parts _ _ _ _ _ _ _ _ _ _ _ Em) as (p1 & p2 & M1 & M2 & _ & _ & D). apply make_with_vn in M1, M2. destruct M1 as (V1 & _), M2 as (V2 & _).
  assert (W : p_vn (snd a') = p_vn p /\ p_vn (snd b') = p_vn p) by (destruct D as [(-> & ->)|(-> & ->)]; auto). rewrite (normal_kept _ _ (proj1 W)). cbn [rbind]. rewrite (normal_kept _ _ (proj2 W)). cbn [rbind]. intros H. apply Ok_inj in H. injection H as <- <-. exists o, ch, q1, q2. auto.
Qed.
Lemma slice_polygons p chain pt1 n1 pt2 n2 r1 r2 a b : slice_polygon p chain pt1 n1 pt2 n2 r1 r2 = Ok (a, b) ->
  exists o ch q1 q2, add_intersection_points (p_pts p) chain = Ok o /\ remove_redundant_points (snd o) (p_pts p) (p_tri p) = Ok ch /\ get_point_arrays (p_pts p) (p_tri p) ch = Ok (q1, q2) /\
    p_vn (snd a) = p_vn p /\ p_vn (snd b) = p_vn p /\
    ((p_pts (snd a) = q1 \/ p_pts (snd a) = rev q1) /\ (p_pts (snd b) = q2 \/ p_pts (snd b) = rev q2) \/ (p_pts (snd a) = q2 \/ p_pts (snd a) = rev q2) /\ (p_pts (snd b) = q1 \/ p_pts (snd b) = rev q1)) /\
    p_area (snd a) + p_area (snd b) = polygon_area q1 (p_vn p) + polygon_area q2 (p_vn p) /\ 0 < signed_area2 (p_pts (snd a)) (p_vn p) /\ 0 < signed_area2 (p_pts (snd b)) (p_vn p).
Proof.
  intros H. apply slice_parts in H. destruct H as (o & ch & q1 & q2 & Ho & Hc & Hg & Hm). exists o, ch, q1, q2. split; auto. split; auto. split; auto. destruct (make_polygons_parts _ _ _ _ _ _ _ _ _ _ _ Hm) as (p1 & p2 & M1 & M2 & _ & _ & D). apply make_with_vn in M1, M2. destruct M1 as (V1 & P1 & A1 & S1 & _), M2 as (V2 & P2 & A2 & S2 & _).
  destruct D as [(-> & ->)|(-> & ->)]; rewrite A1, A2, V1, V2; (split; [auto|split; [auto|split; [auto|split; [lra|auto]]]]).
Qed.
Lemma sliced_areas p chain pt1 n1 pt2 n2 r1 r2 a b : slice_polygon p chain pt1 n1 pt2 n2 r1 r2 = Ok (a, b) -> told_apart (p_pts p) -> NoDup (p_pts p) ->
  forall o x M y l0 L l1, add_intersection_points (p_pts p) chain = Ok o -> remove_redundant_points (snd o) (p_pts p) (p_tri p) = Ok (x :: M ++ [y]) ->
  locate_points (cyc_pairs (p_pts p)) (p_pts p) (p_tri p) (x :: M ++ [y]) = Ok (l0 :: L ++ [l1]) -> exact_end (p_pts p) l0 x -> exact_end (p_pts p) l1 y -> l0 <> l1 -> forallb (fun l => negb (boundary l)) L = true ->
  polygon_area (p_pts p) (p_vn p) <= p_area (snd a) + p_area (snd b) /\
  exists q1 q2, parts_of (p_pts p) (x :: M ++ [y]) x l0 y l1 q1 q2 /\ (p_area (snd a) + p_area (snd b) = polygon_area (p_pts p) (p_vn p) <-> signed_area2 q1 (p_vn p) * signed_area2 q2 (p_vn p) <= 0).
Proof.
  intros H T N o x M y l0 L l1 Eo Er El X0 X1 Ne B. apply slice_polygons in H. destruct H as (o' & ch & q1 & q2 & Ho & Hc & Hg & _ & _ & _ & Ha & _). rewrite Eo in Ho. apply Ok_inj in Ho. subst o'. rewrite Er in Hc. apply Ok_inj in Hc. subst ch.
  assert (K : forall l z, exact_end (p_pts p) l z -> known_end (p_pts p) l z).
  { intros l z. destruct l as [| |i|i]; cbn; auto.
    - intros E. split; [apply nth_error_Some; congruence|]. intros j q Eq. split; [|intros ->; assert (q = z) by congruence; subst; apply points_equal_refl]. intros P. assert (q = z) by (apply T; [apply nth_error_In in Eq; auto|apply nth_error_In in E; auto|auto]). subst q. rewrite NoDup_nth_error in N. apply N; [apply nth_error_Some; congruence|congruence].
    - intros (c & d & E & _). rewrite <- cyc_pairs_length. apply nth_error_Some. congruence. }
  destruct (parts_spec (p_pts p) (p_tri p) x M y l0 L l1 T N El (K _ _ X0) (K _ _ X1) Ne B) as (q1' & q2' & Eg & Pa). rewrite Eg in Hg. apply Ok_inj in Hg. injection Hg as -> ->. destruct (parts_areas _ _ _ _ _ _ _ _ (p_vn p) Ne X0 X1 Pa) as (I & Q). rewrite Ha. split; auto. exists q1, q2. auto.
Qed.
