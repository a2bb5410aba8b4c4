(** Ear clipping: geometry of the result. *)
From Coq Require Import Reals List Bool Arith Lia Lra ZArith Permutation.
From Verif Require Import Prelude VecModel VecProofs GeomModel GeomSpec GeomProofs1 GeomProofs2 GeomProofs3 GeomProofs4 TriModel TriSpec TriProofs.
Import ListNotations.
Local Open Scope R_scope.

Lemma free_ear_convex vn pts ring p c n : free_ear (ear_convex vn) ear_inside pts ring p c n ->
  0 < dot (tri_vec pts (p, c, n)) vn /\ 9 / 10 * norm (tri_vec pts (p, c, n)) < dot (tri_vec pts (p, c, n)) vn /\ 1 / 10000000000000 <= norm (tri_vec pts (p, c, n)).
Proof.
  intros (pp & pc & pn & Ep & Ec & En & C & _). unfold ear_convex in C. apply corner_convex_sound in C. destruct C as (C1 & C2).
  unfold tri_vec, corner. rewrite (nth_error_nth _ _ vzero Ep), (nth_error_nth _ _ vzero Ec), (nth_error_nth _ _ vzero En).
  replace (cross (vsub pc pp) (vsub pn pp)) with (cross (vsub pc pp) (vsub pn pc)) by (dvec pp; dvec pc; dvec pn; vunf; f_equal; ring).
  unfold GEOM_ATOL in C1. repeat split; lra.
Qed.

(** Sums. *)
Definition edge_vec (pts : list vec) (e : nat * nat) : vec := cross (corner pts (fst e)) (corner pts (snd e)).
Lemma vtotal_app a b : vtotal (a ++ b) = vadd (vtotal a) (vtotal b).
Proof. induction a as [|x a IH]; cbn [app]; unfold vtotal in *; cbn [fold_right]; [|rewrite IH]; vring. Qed.
Lemma tri_edges_total pts ts : vtotal (map (edge_vec pts) (tri_edges ts)) = vtotal (map (tri_vec pts) ts).
Proof.
  induction ts as [|((a, b), c) ts IH]; auto. unfold tri_edges. cbn [flat_map]. fold (tri_edges ts). rewrite map_app, vtotal_app, IH. unfold vtotal. cbn [map fold_right].
  unfold edge_vec, tri_vec. cbn [fst snd]. generalize (corner pts a) (corner pts b) (corner pts c). intros x y z. vring.
Qed.
Lemma both_ways_total pts d : vtotal (map (edge_vec pts) (both_ways d)) = vzero.
Proof.
  induction d as [|(a, b) d IH]; auto. unfold both_ways. cbn [flat_map]. fold (both_ways d). rewrite map_app, vtotal_app, IH. unfold vtotal. cbn [map fold_right fst snd]. unfold edge_vec. cbn [fst snd].
  generalize (corner pts a) (corner pts b). intros x y. vring.
Qed.
Lemma corners pts : map (corner pts) (seq 0 (length pts)) = pts.
Proof.
  apply nth_error_ext. intros i. destruct (Nat.lt_ge_cases i (length pts)) as [L|L].
  - rewrite (nth_error_nth' _ vzero) by (rewrite map_length, seq_length; auto). rewrite (nth_error_nth' pts vzero L). f_equal.
    rewrite (nth_indep _ vzero (corner pts 0)) by (rewrite map_length, seq_length; auto). rewrite map_nth, seq_nth by auto. reflexivity.
  - rewrite !(proj2 (nth_error_None _ _)); auto. rewrite map_length, seq_length. auto.
Qed.
Lemma ring_total pts : vtotal (map (edge_vec pts) (cyc_pairs (seq 0 (length pts)))) = vector_area2 pts.
Proof. rewrite <- (corners pts) at 3. unfold vector_area2. rewrite cyc_pairs_map, map_map. reflexivity. Qed.

Lemma clipped_area ear pts ts : (3 <= length pts)%nat -> clipped ear (seq 0 (length pts)) ts -> vtotal (map (tri_vec pts) ts) = vector_area2 pts.
Proof.
  intros L C. destruct (clipped_edges _ _ _ C) as (d & _ & _ & _ & P); [rewrite seq_length; auto|]. rewrite <- tri_edges_total, (vtotal_perm _ _ (Permutation_map (edge_vec pts) P)).
  rewrite map_app, vtotal_app, both_ways_total, ring_total. vring.
Qed.
Lemma dot_vtotal l vn : dot (vtotal l) vn = Rsum (map (fun v => dot v vn) l).
Proof. induction l as [|x l IH]; unfold vtotal in *; cbn [fold_right map]; [vunf; unfold Rsum; cbn; ring|]. rewrite Rsum_cons, <- IH. generalize (fold_right vadd vzero l). intros v. dvec x; dvec v; dvec vn. vunf. ring. Qed.
Lemma Rsum_pos l : (forall x, In x l -> 0 < x) -> l <> [] -> 0 < Rsum l.
Proof.
  induction l as [|x l IH]; [congruence|]. intros H _. rewrite Rsum_cons. pose proof (H x (or_introl eq_refl)). destruct l as [|y l]; [unfold Rsum; cbn; lra|].
  assert (0 < Rsum (y :: l)) by (apply IH; [intros; apply H; right; auto|discriminate]). lra.
Qed.

Lemma tri_pts_ok pts vn pts' ts : triangulate_pts pts vn = Ok (pts', ts) -> (3 <= length pts)%nat ->
  (pts' = pts \/ pts' = rev pts) /\ length pts' = length pts /\ clipped (free_ear (ear_convex vn) ear_inside pts') (seq 0 (length pts')) ts.
Proof.
  intros H L. apply triangulate_spec in H. destruct H as (_ & D & C). assert (E : length pts' = length pts) by (destruct D as [->| ->]; rewrite ?rev_length; auto). rewrite E. auto.
Qed.
Lemma tri_positive pts vn pts' ts : triangulate_pts pts vn = Ok (pts', ts) -> (3 <= length pts)%nat ->
  forall t, In t ts -> 0 < dot (tri_vec pts' t) vn /\ 9 / 10 * norm (tri_vec pts' t) < dot (tri_vec pts' t) vn /\ 1 / 10000000000000 <= norm (tri_vec pts' t).
Proof.
  intros H L t I. destruct (tri_pts_ok _ _ _ _ H L) as (_ & _ & C). destruct (clipped_ears _ _ _ C t I) as (r & _ & E). destruct t as ((a, b), c). apply (free_ear_convex _ _ _ _ _ _ E).
Qed.
Lemma tri_vector_area pts vn pts' ts : triangulate_pts pts vn = Ok (pts', ts) -> (3 <= length pts)%nat -> fold_right vadd vzero (map (tri_vec pts') ts) = vector_area2 pts'.
Proof. intros H L. destruct (tri_pts_ok _ _ _ _ H L) as (_ & E & C). refine (clipped_area _ _ _ _ C). lia. Qed.
Lemma tri_nonempty pts vn pts' ts : triangulate_pts pts vn = Ok (pts', ts) -> (3 <= length pts)%nat -> ts <> [].
Proof. intros H L. destruct (tri_pts_ok _ _ _ _ H L) as (_ & E & C). apply clipped_length in C. rewrite seq_length in C. intros ->. simpl in C. lia. Qed.
Lemma tri_orientation pts vn pts' ts : triangulate_pts pts vn = Ok (pts', ts) -> (3 <= length pts)%nat -> 0 < dot (vector_area2 pts') vn.
Proof.
  intros H L. rewrite <- (tri_vector_area _ _ _ _ H L). fold (vtotal (map (tri_vec pts') ts)). rewrite dot_vtotal, map_map. apply Rsum_pos.
  - intros x I. apply in_map_iff in I. destruct I as (t & <- & I). apply (tri_positive _ _ _ _ H L t I).
  - pose proof (tri_nonempty _ _ _ _ H L). destruct ts; [congruence|discriminate].
Qed.
Lemma tri_order pts vn pts' ts : triangulate_pts pts vn = Ok (pts', ts) -> (3 <= length pts)%nat ->
  (0 < dot (vector_area2 pts) vn -> pts' = pts) /\ (dot (vector_area2 pts) vn <= 0 -> pts' = rev pts /\ dot (vector_area2 pts) vn < 0).
Proof.
  intros H L. pose proof (tri_orientation _ _ _ _ H L) as O. destruct (tri_pts_ok _ _ _ _ H L) as ([->| ->] & _).
  - split; auto. intros; exfalso; lra.
  - rewrite vector_area2_rev, dot_vopp_l in O. split; [intros; exfalso; lra|]. intros; split; auto. lra.
Qed.
Lemma tri_area_sum pts vn pts' ts : triangulate_pts pts vn = Ok (pts', ts) -> (3 <= length pts)%nat ->
  polygon_area pts vn = Rsum (map (fun t => dot (tri_vec pts' t) vn / 2) ts) /\ polygon_area pts' vn = polygon_area pts vn.
Proof.
  intros H L. destruct (tri_pts_ok _ _ _ _ H L) as (D & E & _). assert (A : polygon_area pts' vn = polygon_area pts vn) by (destruct D as [->| ->]; [auto|apply area_rev]).
  split; auto. rewrite <- A, polygon_area_eq by lia. pose proof (tri_orientation _ _ _ _ H L) as O. rewrite Rabs_pos_eq by lra. rewrite <- (tri_vector_area _ _ _ _ H L).
  fold (vtotal (map (tri_vec pts') ts)). rewrite dot_vtotal, map_map. induction ts as [|t ts IH]; [unfold Rsum; cbn; lra|]. cbn [map]. rewrite !Rsum_cons. clear - IH.
  revert IH. clear. intros IH. assert (G : forall l, Rsum (map (fun x => dot (tri_vec pts' x) vn) l) / 2 = Rsum (map (fun x => dot (tri_vec pts' x) vn / 2) l)).
  { induction l as [|y l IHl]; [unfold Rsum; cbn; lra|]. cbn [map]. rewrite !Rsum_cons, <- IHl. lra. }
  rewrite <- G. lra.
Qed.
(** In a plane with unit normal vn the signed areas are the areas. *)
Lemma parallel_dot w vn : unit vn -> cross w vn = vzero -> 0 < dot w vn -> dot w vn = norm w.
Proof.
  intros U Z D. assert (E : norm w * norm w = dot w vn * dot w vn).
  { rewrite norm_sq. pose proof (f_equal (fun v => dot v v) Z) as Q. assert (I : dot (cross w vn) (cross w vn) = dot w w * dot vn vn - dot w vn * dot w vn) by (dvec w; dvec vn; vunf; ring).
    unfold unit in U. cbv beta in Q. rewrite I, U in Q. assert (Z0 : dot vzero vzero = 0) by (vunf; ring). lra. }
  pose proof (norm_pos w). nra.
Qed.
Lemma in_plane_cross vn c p q r : dot vn p = c -> dot vn q = c -> dot vn r = c -> cross (cross (vsub q p) (vsub r p)) vn = vzero.
Proof.
  intros A B C. assert (I : cross (cross (vsub q p) (vsub r p)) vn = vsub (smul (dot (vsub q p) vn) (vsub r p)) (smul (dot (vsub r p) vn) (vsub q p))) by (dvec p; dvec q; dvec r; dvec vn; vunf; f_equal; ring).
  rewrite I. assert (D1 : dot (vsub q p) vn = 0). { transitivity (dot vn q - dot vn p); [dvec p; dvec q; dvec vn; vunf; ring|lra]. }
  assert (D2 : dot (vsub r p) vn = 0). { transitivity (dot vn r - dot vn p); [dvec p; dvec r; dvec vn; vunf; ring|lra]. }
  rewrite D1, D2. dvec p; dvec q; dvec r. vunf. f_equal; ring.
Qed.
Lemma tri_area_true pts vn pts' ts c : triangulate_pts pts vn = Ok (pts', ts) -> (3 <= length pts)%nat -> unit vn -> (forall p, In p pts -> dot vn p = c) ->
  polygon_area pts vn = Rsum (map (fun t => norm (tri_vec pts' t) / 2) ts).
Proof.
  intros H L U P. rewrite (proj1 (tri_area_sum _ _ _ _ H L)). f_equal. apply map_ext_in. intros t I. pose proof (tri_positive _ _ _ _ H L t I) as (D & _).
  f_equal. apply parallel_dot; auto. destruct (tri_pts_ok _ _ _ _ H L) as (R & E & C). destruct t as ((a, b), d). destruct (clipped_distinct _ _ _ C (seq_NoDup _ _) _ _ _ I) as (_ & _ & _ & A1 & A2 & A3).
  assert (M : forall i, In i (seq 0 (length pts')) -> dot vn (corner pts' i) = c).
  { intros i Ii. apply in_seq in Ii. apply P. assert (X : In (corner pts' i) pts') by (apply nth_In; lia). destruct R as [->| ->]; auto. apply in_rev; auto. }
  apply (in_plane_cross vn c); auto.
Qed.

(** Errors. *)
Lemma ear_not_fuel vn : (forall a b c, ear_convex vn a b c <> Err OutOfFuel) /\ (Rabs (norm vn - 1) < GEOM_ATOL -> forall pts, (exists r, triangulate_pts pts vn = Ok r) \/ triangulate_pts pts vn = Err TriangulationError).
Proof.
  assert (A : forall a b c, ear_convex vn a b c <> Err OutOfFuel) by (intros a b c H; apply corner_convex_err in H; destruct H; discriminate). split; auto.
  intros U pts. assert (T : forall a b c, exists r, ear_convex vn a b c = Ok r). { intros a b c. destruct (ear_convex vn a b c) as [r|e] eqn:E; eauto. apply corner_convex_err in E. lra. }
  assert (I : forall q a b c, ear_convex vn a b c = Ok true -> exists r, ear_inside q a b c = Ok r) by (intros q a b c E; apply (convex_inside_total _ _ _ vn); auto).
  unfold triangulate_pts. destruct (triangulate (ear_convex vn) ear_inside (isclose (norm vn) 0 RTOL ATOL8) pts) as [r|e] eqn:E; eauto. right.
  destruct (triangulate_err _ _ _ _ _ E) as [->|[->|[(a & b & c & _ & _ & _ & Q)|(q & a & b & c & Q1 & Q2)]]]; auto.
  - exfalso. revert E. unfold triangulate, triangulate_from. destruct (isclose _ _ _ _); [discriminate|].
    assert (F : forall l, exists r, ear_loop (ear_convex vn) ear_inside (2 * length l + 2) l (enumerate l) [] 0 0 = Ok r).
    { intros l. destruct (ear_loop_total (ear_convex vn) ear_inside l (2 * length l + 2) (enumerate l) [] 0 0 (enumerate_good l)) as [H|H]; auto. exfalso. revert H.
      pose (ins := fun q a b c => match ear_convex vn a b c with Ok true => ear_inside q a b c | _ => Ok false end).
      assert (X : forall fuel vs tris pos nf, good l vs -> ear_loop (ear_convex vn) ear_inside fuel l vs tris pos nf = ear_loop (ear_convex vn) ins fuel l vs tris pos nf).
      { induction fuel as [|fuel IH]; intros vs tris pos nf G; auto. cbn [ear_loop]. destruct (length vs <=? 2)%nat eqn:E2; auto. apply Nat.leb_gt in E2. destruct (length l <? nf)%nat; auto.
        destruct (loop_step l vs pos) as (a & b & p & c & n & Evs & La & Ep & Ec & En & Epop & _ & _ & _ & _ & Gp); [lia|]. destruct (Gp G) as (Pp & Pc & Pn).
        rewrite Ep, Ec, En. cbn [rbind]. destruct (ear_convex vn (snd p) (snd c) (snd n)) as [[|]|] eqn:Cv; cbn [rbind]; auto.
        assert (Y : forall ws acc, (forall i, In i (map fst ws) -> (i < length l)%nat) -> any_inside ear_inside l (fst p) (fst c) (fst n) ws acc = any_inside ins l (fst p) (fst c) (fst n) ws acc).
        { induction ws as [|(i, x) ws IHw]; intros acc V; auto. cbn [any_inside]. destruct (_ || _); [apply IHw; intros; apply V; right; auto|].
          rewrite (proj2 (at_index_ok _ _ _) Pp), (proj2 (at_index_ok _ _ _) Pc), (proj2 (at_index_ok _ _ _) Pn). destruct (at_index l i); auto. cbn [rbind]. unfold ins at 1. rewrite Cv.
          destruct (ear_inside _ _ _ _); auto. cbn [rbind]. apply IHw. intros; apply V; right; auto. }
        rewrite Y by (apply good_lt; auto). destruct (any_inside ins l (fst p) (fst c) (fst n) vs false) as [[|]|]; cbn [rbind]; auto.
        rewrite Epop. cbn [rbind]. apply IH. intros i q J. apply G. rewrite Evs. apply in_app_iff in J. apply in_app_iff. simpl. tauto. }
      rewrite X by apply enumerate_good. apply ear_loop_fuel; rewrite ?enumerate_length; try lia; auto; [apply enumerate_good|].
      intros q a b c. unfold ins. destruct (ear_convex vn a b c) as [[|]|] eqn:Cv; try discriminate. destruct (I q a b c Cv) as (r & ->). discriminate. }
    destruct (F pts) as ([r|] & ->); cbn [rbind]; [discriminate|]. destruct (F (rev pts)) as ([r|] & ->); cbn [rbind]; discriminate.
  - destruct (T a b c) as (r & Q'). congruence.
  - destruct (I q a b c Q1) as (r & Q'). congruence.
Qed.
Lemma tri_bad_normal pts vn : GEOM_ATOL <= Rabs (norm vn - 1) -> (3 <= length pts)%nat ->
  (norm vn <= 1 / 100000000 -> triangulate_pts pts vn = Err TriangulationError) /\ (1 / 100000000 < norm vn -> triangulate_pts pts vn = Err AssertionError).
Proof.
  intros N L. unfold triangulate_pts, triangulate, triangulate_from, isclose. rewrite Rminus_0_r, Rabs_R0, (Rabs_pos_eq _ (norm_pos vn)). unfold RTOL, ATOL8. split; intros H.
  - rewrite (proj2 (Rleb_true _ _)) by lra. reflexivity.
  - rewrite (proj2 (Rleb_false _ _)) by lra. replace (2 * length pts + 2)%nat with (S (2 * length pts + 1)) by lia. cbn [ear_loop]. rewrite (proj2 (Nat.leb_gt _ _)) by (rewrite enumerate_length; lia).
    replace (length pts <? 0)%nat with false by (symmetry; apply Nat.ltb_ge; lia). destruct (loop_step pts (enumerate pts) 0) as (a & b & p & c & n & Evs & La & Ep & Ec & En & _); [rewrite enumerate_length; lia|].
    rewrite Ep, Ec, En. cbn [rbind]. assert (E : ear_convex vn (snd p) (snd c) (snd n) = Err AssertionError) by (apply corner_convex_err; auto). rewrite E. reflexivity.
Qed.

Lemma tri_structure pts vn pts' ts : (3 <= length pts)%nat -> triangulate_pts pts vn = Ok (pts', ts) ->
  (pts' = pts \/ pts' = rev pts) /\ length ts = (length pts - 2)%nat /\
  (forall a b c, In (a, b, c) ts -> a <> b /\ b <> c /\ a <> c /\ (a < length pts)%nat /\ (b < length pts)%nat /\ (c < length pts)%nat) /\
  (forall v, (v < length pts)%nat -> exists a b c, In (a, b, c) ts /\ (v = a \/ v = b \/ v = c)) /\
  clipped (free_ear (ear_convex vn) ear_inside pts') (seq 0 (length pts)) ts.
Proof.
  intros L H. destruct (tri_pts_ok _ _ _ _ H L) as (R & E & C). rewrite E in C. split; auto. split; [rewrite (clipped_length _ _ _ C), seq_length; auto|]. split; [|split; auto].
  - intros a b c I. destruct (clipped_distinct _ _ _ C (seq_NoDup _ _) _ _ _ I) as (N1 & N2 & N3 & A1 & A2 & A3). apply in_seq in A1, A2, A3. repeat split; auto; lia.
  - intros v V. apply (clipped_every _ _ _ C); [rewrite seq_length; auto|apply seq_NoDup|apply in_seq; lia].
Qed.
Lemma tri_boundary pts vn pts' ts : (3 <= length pts)%nat -> triangulate_pts pts vn = Ok (pts', ts) -> NoDup (tri_edges ts) /\
  exists d, length d = (length pts - 3)%nat /\ Permutation (tri_edges ts) (cyc_pairs (seq 0 (length pts)) ++ both_ways d).
Proof.
  intros L H. destruct (tri_pts_ok _ _ _ _ H L) as (R & E & C). rewrite E in C. split; [apply (clipped_edges_nodup _ _ _ C), seq_NoDup|].
  destruct (clipped_edges _ _ _ C) as (d & Ld & _ & _ & P); [rewrite seq_length; auto|]. rewrite seq_length in Ld. eauto.
Qed.
