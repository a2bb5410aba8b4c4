(** Proofs about intersections, visibility and close pairs. *)
From Coq Require Import Reals List Bool Arith Lia Lra Sorting Permutation.
From Verif Require Import Prelude VecModel VecProofs GeomModel GeomSpec GeomProofs1 GeomProofs2 GeomProofs3 GeomProofs4 TriModel PolyModel PolySpec PolyProofs1 VisModel VisSpec.
Import ListNotations.
Local Open Scope R_scope.

(** Lines. *)
Lemma gram_pos d1 d2 : ~ seem_zero d1 -> ~ seem_zero d2 -> ~ seem_parallel d1 d2 -> 0 < dot d1 d1 * dot d2 d2 - dot d1 d2 * dot d1 d2.
Proof.
  intros Z1 Z2 NP. assert (I : dot d1 d1 * dot d2 d2 - dot d1 d2 * dot d1 d2 = dot (cross d2 d1) (cross d2 d1)) by (dvec d1; dvec d2; vunf; ring). rewrite I.
  assert (Zr : allclose vzero vzero RTOL ATOL8 = true) by (apply allclose_refl; unfold RTOL, ATOL8; lra).
  assert (N1 : norm d1 <> 0) by (rewrite norm_zero; intros ->; apply Z1; exact Zr). assert (N2 : norm d2 <> 0) by (rewrite norm_zero; intros ->; apply Z2; exact Zr).
  destruct (Rle_lt_dec (dot (cross d2 d1) (cross d2 d1)) 0) as [L|L]; auto. exfalso. apply NP. clear NP. pose proof (dot_pos (cross d2 d1)). assert (C : cross d2 d1 = vzero) by (apply dot_zero; lra).
  set (u := vdiv d1 (norm d1)). assert (U : unit u) by (apply unit_vdiv; auto). assert (E : d2 = smul (dot d2 u) u).
  { apply parallel_eq; auto. unfold u. rewrite vdiv_smul. transitivity (smul (/ norm d1) (cross d2 d1)); [dvec d2; dvec d1; vunf; f_equal; ring|]. rewrite C. vunf; f_equal; ring. }
  set (k := dot d2 u) in *. assert (Nk : norm d2 = Rabs k) by (rewrite E, norm_smul, (unit_norm u U); ring). rewrite Nk in *. unfold seem_parallel. fold u. rewrite Nk. unfold Rabs in *. destruct (Rcase_abs k) as [K|K].
  - right. replace (vdiv (vopp d2) (- k)) with u; [apply allclose_refl; unfold RTOL, ATOL8; lra|]. rewrite E. clear - K. dvec u. vunf. f_equal; field; lra.
  - left. replace (vdiv d2 k) with u; [apply allclose_refl; unfold RTOL, ATOL8; lra|]. rewrite E. clear - N2. dvec u. vunf. f_equal; field; lra.
Qed.
Lemma intersection_guard p1 d1 p2 d2 : seem_zero d1 \/ seem_zero d2 \/ seem_parallel d1 d2 -> line_intersection p1 d1 p2 d2 = None.
Proof.
  unfold seem_zero, seem_parallel, line_intersection. intros [->|[->|[->| ->]]]; rewrite ?orb_true_r; auto; destruct (_ || _); auto. destruct (allclose (vdiv d1 (norm d1)) (vdiv d2 (norm d2)) RTOL ATOL8); auto.
Qed.
Lemma not_true b : b = false <-> ~ b = true.
Proof. destruct b; split; intros; congruence || (exfalso; auto). Qed.
Lemma intersection_eq p1 d1 p2 d2 : ~ seem_zero d1 -> ~ seem_zero d2 -> ~ seem_parallel d1 d2 -> exists t s, let q1 := vadd p1 (smul t d1) in let q2 := vadd p2 (smul s d2) in
  dot (vsub q2 q1) d1 = 0 /\ dot (vsub q2 q1) d2 = 0 /\ line_intersection p1 d1 p2 d2 = if allclose q1 q2 RTOL ATOL8 then Some q1 else None.
Proof.
  intros Z1 Z2 NP. pose proof (gram_pos d1 d2 Z1 Z2 NP) as G. unfold line_intersection.
  assert (A1 : allclose d1 vzero RTOL ATOL8 = false) by (apply not_true; exact Z1). assert (A2 : allclose d2 vzero RTOL ATOL8 = false) by (apply not_true; exact Z2). rewrite A1, A2. cbn [orb].
  assert (A3 : allclose (vdiv d1 (norm d1)) (vdiv d2 (norm d2)) RTOL ATOL8 = false) by (apply not_true; intros X; apply NP; left; auto). assert (A4 : allclose (vdiv d1 (norm d1)) (vdiv (vopp d2) (norm d2)) RTOL ATOL8 = false) by (apply not_true; intros X; apply NP; right; auto).
  rewrite A3, A4. set (w := vsub p2 p1). set (den := dot d1 d1 * dot d2 d2 - dot d1 d2 * dot d1 d2) in *.
  exists ((dot d2 d2 * dot d1 w - dot d1 d2 * dot d2 w) / den), ((dot d1 d2 * dot d1 w - dot d1 d1 * dot d2 w) / den). cbn zeta.
  assert (E : forall t s e, dot (vsub (vadd p2 (smul s d2)) (vadd p1 (smul t d1))) e = dot w e + s * dot d2 e - t * dot d1 e) by (intros t s e; unfold w; dvec p1; dvec p2; dvec d1; dvec d2; dvec e; vunf; ring).
  rewrite !E. rewrite (dot_comm w d1), (dot_comm w d2), (dot_comm d2 d1). split; [|split; [|reflexivity]]; unfold den in *; field; lra.
Qed.
(** The returned point lies on the first line, and its partner on the second
    line is equal within the tolerance; both are the closest points. *)
Lemma intersection_sound p1 d1 p2 d2 q : line_intersection p1 d1 p2 d2 = Some q ->
  ~ seem_zero d1 /\ ~ seem_zero d2 /\ ~ seem_parallel d1 d2 /\ on_line p1 d1 q /\
  exists q', on_line p2 d2 q' /\ allclose q q' RTOL ATOL8 = true /\ forall a b, on_line p1 d1 a -> on_line p2 d2 b -> dist q q' <= dist a b.
Proof.
  intros H. assert (G : ~ (seem_zero d1 \/ seem_zero d2 \/ seem_parallel d1 d2)) by (intros X; rewrite (intersection_guard p1 d1 p2 d2 X) in H; discriminate).
  assert (Z1 : ~ seem_zero d1) by tauto. assert (Z2 : ~ seem_zero d2) by tauto. assert (NP : ~ seem_parallel d1 d2) by tauto. split; auto. split; auto. split; auto.
  destruct (intersection_eq p1 d1 p2 d2 Z1 Z2 NP) as (t & s & P1 & P2 & E). cbn zeta in *. rewrite E in H. clear E. set (q1 := vadd p1 (smul t d1)) in *. set (q2 := vadd p2 (smul s d2)) in *. destruct (allclose q1 q2 RTOL ATOL8) eqn:A; [|discriminate]. injection H as <-.
  split; [exists t; auto|]. exists q2. split; [exists s; auto|]. split; auto. intros a b (ta & ->) (tb & ->). unfold dist, norm. apply sqrt_le_1_alt.
  replace (vsub (vadd p2 (smul tb d2)) (vadd p1 (smul ta d1))) with (vadd (vsub q2 q1) (vsub (smul (tb - s) d2) (smul (ta - t) d1))) by (unfold q1, q2; dvec p1; dvec p2; dvec d1; dvec d2; vunf; f_equal; ring).
  set (r := vsub q2 q1) in *. set (v := vsub (smul (tb - s) d2) (smul (ta - t) d1)). assert (X : dot r v = 0) by (unfold v; transitivity ((tb - s) * dot r d2 - (ta - t) * dot r d1); [clear; dvec r; dvec d1; dvec d2; vunf; ring|rewrite P1, P2; ring]).
  assert (Y : dot (vadd r v) (vadd r v) = dot r r + 2 * dot r v + dot v v) by (clear; dvec r; clearbody v; dvec v; vunf; ring). pose proof (dot_pos v). lra.
Qed.
(** Lines that meet and are not taken for parallel. *)
Lemma intersection_complete p1 d1 p2 d2 q : ~ seem_zero d1 -> ~ seem_zero d2 -> ~ seem_parallel d1 d2 -> on_line p1 d1 q -> on_line p2 d2 q -> line_intersection p1 d1 p2 d2 = Some q.
Proof.
  intros Z1 Z2 NP (t0 & E1) (s0 & E2). pose proof (gram_pos d1 d2 Z1 Z2 NP) as G. destruct (intersection_eq p1 d1 p2 d2 Z1 Z2 NP) as (t & s & P1 & P2 & ->). cbn zeta in *.
  assert (Q : vsub (vadd p2 (smul s d2)) (vadd p1 (smul t d1)) = vsub (smul (s - s0) d2) (smul (t - t0) d1)).
  { transitivity (vadd (vsub (vadd p2 (smul s0 d2)) (vadd p1 (smul t0 d1))) (vsub (smul (s - s0) d2) (smul (t - t0) d1))); [dvec p1; dvec p2; dvec d1; dvec d2; vunf; f_equal; ring|]. rewrite <- E1, <- E2. dvec q; dvec d1; dvec d2; vunf; f_equal; ring. }
  rewrite Q in P1, P2. assert (L1 : (s - s0) * dot d1 d2 - (t - t0) * dot d1 d1 = 0) by (rewrite <- P1; clear; dvec d1; dvec d2; vunf; ring). assert (L2 : (s - s0) * dot d2 d2 - (t - t0) * dot d1 d2 = 0) by (rewrite <- P2; clear; dvec d1; dvec d2; vunf; ring).
  set (A := dot d1 d1) in *. set (B := dot d1 d2) in *. set (C := dot d2 d2) in *. assert (T : (t - t0) * (A * C - B * B) = 0) by (replace ((t - t0) * (A * C - B * B)) with (B * ((s - s0) * C - (t - t0) * B) - C * ((s - s0) * B - (t - t0) * A)) by ring; rewrite L1, L2; ring).
  assert (S : (s - s0) * (A * C - B * B) = 0) by (replace ((s - s0) * (A * C - B * B)) with (A * ((s - s0) * C - (t - t0) * B) - B * ((s - s0) * B - (t - t0) * A)) by ring; rewrite L1, L2; ring).
  assert (t = t0) by (apply Rmult_integral in T; destruct T; lra). assert (s = s0) by (apply Rmult_integral in S; destruct S; lra). subst t s. rewrite <- E1, <- E2. rewrite allclose_refl by (unfold RTOL, ATOL8; lra). auto.
Qed.
(** Segments. *)
Lemma segment_meet_sound a1 b1 a2 b2 q : line_segment_intersection a1 b1 a2 b2 = Some q ->
  line_intersection a1 (vsub b1 a1) a2 (vsub b2 a2) = Some q /\ is_point_on_segment q a1 b1 GEOM_ATOL = true /\ is_point_on_segment q a2 b2 GEOM_ATOL = true.
Proof.
  unfold line_segment_intersection. destruct (line_intersection _ _ _ _) as [p|]; [|discriminate]. destruct (_ && _) eqn:E; [|discriminate]. intros H. injection H as <-. apply andb_true_iff in E. tauto.
Qed.
Lemma segment_line p1 p2 q : on_segment p1 p2 q -> on_line p1 (vsub p2 p1) q.
Proof. intros (t & _ & ->). exists t. auto. Qed.
Lemma segment_meet_complete a1 b1 a2 b2 q : ~ seem_zero (vsub b1 a1) -> ~ seem_zero (vsub b2 a2) -> ~ seem_parallel (vsub b1 a1) (vsub b2 a2) -> on_segment a1 b1 q -> on_segment a2 b2 q ->
  line_segment_intersection a1 b1 a2 b2 = Some q.
Proof.
  intros Z1 Z2 NP O1 O2. unfold line_segment_intersection. rewrite (intersection_complete _ _ _ _ q Z1 Z2 NP (segment_line _ _ _ O1) (segment_line _ _ _ O2)).
  rewrite (on_segment_accepted a1 b1 q), (on_segment_accepted a2 b2 q) by (auto; unfold GEOM_ATOL; lra). auto.
Qed.
(** Long segments crossing at a small angle count as parallel. *)
Lemma small_angle : let a1 := V 0 0 0 in let b1 := V 100000 100000 0 in let a2 := V 0 (-1 / 2) 0 in let b2 := V 100000 (200001 / 2) 0 in
  on_segment a1 b1 (V 50000 50000 0) /\ on_segment a2 b2 (V 50000 50000 0) /\ line_segment_intersection a1 b1 a2 b2 = None.
Proof.
  cbn zeta. split; [exists (1 / 2); split; [lra|unfold seg_point; vunf; f_equal; lra]|]. split; [exists (1 / 2); split; [lra|unfold seg_point; vunf; f_equal; lra]|].
  unfold line_segment_intersection. rewrite intersection_guard; auto. right. right. left.
  replace (vsub (V 100000 100000 0) (V 0 0 0)) with (V 100000 100000 0) by (vunf; f_equal; ring). replace (vsub (V 100000 (200001 / 2) 0) (V 0 (-1 / 2) 0)) with (V 100000 100001 0) by (vunf; f_equal; lra).
  set (n1 := norm (V 100000 100000 0)). set (n2 := norm (V 100000 100001 0)). assert (Q1 : n1 * n1 = 20000000000) by (unfold n1; rewrite norm_sq; vunf; ring). assert (Q2 : n2 * n2 = 20000200001) by (unfold n2; rewrite norm_sq; vunf; ring).
  assert (P1 : 0 <= n1) by apply norm_pos. assert (P2 : 0 <= n2) by apply norm_pos. clearbody n1 n2. assert (L1 : n1 <= n2) by nra. assert (L2 : n2 <= n1 * (100001 / 100000)) by nra. assert (S1 : 0 < n1) by nra. assert (S2 : 0 < n2) by nra.
  unfold allclose, isclose, vdiv, RTOL, ATOL8. cbn [vx vy vz]. assert (I1 : 0 < / n1) by (apply Rinv_0_lt_compat; auto). assert (I2 : 0 < / n2) by (apply Rinv_0_lt_compat; auto). assert (E1 : n1 * / n1 = 1) by (field; lra). assert (E2 : n2 * / n2 = 1) by (field; lra).
  assert (B1 : / n2 <= / n1) by (apply Rinv_le_contravar; auto). assert (B2 : / n1 <= / n2 * (100001 / 100000)). { apply (Rmult_le_reg_l (n1 * n2)); [apply Rmult_lt_0_compat; auto|]. replace (n1 * n2 * / n1) with n2 by (field; lra). replace (n1 * n2 * (/ n2 * (100001 / 100000))) with (n1 * (100001 / 100000)) by (field; lra). auto. }
  unfold Rdiv. rewrite !andb_true_iff. split; [split|]; apply Rleb_true.
  - rewrite (Rabs_pos_eq (100000 * / n2)) by lra. rewrite Rabs_pos_eq by lra. lra.
  - rewrite (Rabs_pos_eq (100001 * / n2)) by lra. rewrite Rabs_left1 by lra. lra.
  - replace (0 * / n1 - 0 * / n2) with 0 by ring. rewrite Rabs_R0. pose proof (Rabs_pos (0 * / n2)). lra.
Qed.
Lemma small_angle_witness : ~ (forall a1 b1 a2 b2 q, a1 <> b1 -> a2 <> b2 -> cross (vsub b1 a1) (vsub b2 a2) <> vzero -> on_segment a1 b1 q -> on_segment a2 b2 q -> line_segment_intersection a1 b1 a2 b2 = Some q).
Proof.
  intros H. destruct small_angle as (O1 & O2 & E). rewrite (H _ _ _ _ _) with (4 := O1) (5 := O2) in E; [discriminate|..]; intros X; vunf; injection X; intros; lra.
Qed.
Lemma exact_parallel p1 d1 p2 k : k <> 0 -> line_intersection p1 d1 p2 (smul k d1) = None.
Proof.
  intros K. destruct (Req_dec (norm d1) 0) as [Z|N]. { apply norm_zero in Z. subst. apply intersection_guard. left. apply allclose_refl; unfold RTOL, ATOL8; lra. }
  apply intersection_guard. right. right. unfold seem_parallel. rewrite norm_smul. unfold Rabs. destruct (Rcase_abs k) as [L|L].
  - right. replace (vdiv (vopp (smul k d1)) (- k * norm d1)) with (vdiv d1 (norm d1)); [apply allclose_refl; unfold RTOL, ATOL8; lra|]. dvec d1. unfold vopp. vunf. f_equal; field; split; lra.
  - left. replace (vdiv (smul k d1) (k * norm d1)) with (vdiv d1 (norm d1)); [apply allclose_refl; unfold RTOL, ATOL8; lra|]. dvec d1. vunf. f_equal; field; split; lra.
Qed.

(** Visibility. *)
Lemma visible_spec p q blocks : (are_points_visible p q blocks = 0%nat \/ are_points_visible p q blocks = 1%nat) /\
  (are_points_visible p q blocks = 0%nat <-> exists es e, In es blocks /\ In e es /\
     points_equal (fst e) p = false /\ points_equal (fst e) q = false /\ points_equal (snd e) p = false /\ points_equal (snd e) q = false /\
     exists x, line_segment_intersection p q (fst e) (snd e) = Some x).
Proof.
  unfold are_points_visible. split; [destruct (existsb _ _); auto|]. destruct (existsb (existsb (edge_blocks p q)) blocks) eqn:E; split; intros H; try discriminate; auto.
  - apply existsb_exists in E. destruct E as (es & I & E). apply existsb_exists in E. destruct E as (e & J & E). exists es, e. split; auto. split; auto. unfold edge_blocks in E.
    destruct (points_equal (fst e) p), (points_equal (fst e) q), (points_equal (snd e) p), (points_equal (snd e) q); cbn [orb] in E; try discriminate. destruct (line_segment_intersection p q (fst e) (snd e)) as [x|]; [|discriminate]. repeat split; auto. exists x; auto.
  - exfalso. destruct H as (es & e & I & J & A & B & C & D & x & X). assert (existsb (existsb (edge_blocks p q)) blocks = true); [|congruence]. apply existsb_exists. exists es. split; auto. apply existsb_exists. exists e. split; auto. unfold edge_blocks. rewrite A, B, C, D, X. auto.
Qed.
Lemma blocked_complete p q blocks es e x : In es blocks -> In e es -> points_equal (fst e) p = false -> points_equal (fst e) q = false -> points_equal (snd e) p = false -> points_equal (snd e) q = false ->
  ~ seem_zero (vsub q p) -> ~ seem_zero (vsub (snd e) (fst e)) -> ~ seem_parallel (vsub q p) (vsub (snd e) (fst e)) -> on_segment p q x -> on_segment (fst e) (snd e) x -> are_points_visible p q blocks = 0%nat.
Proof.
  intros I J A B C D Z1 Z2 NP O1 O2. apply visible_spec. exists es, e. repeat (split; auto). exists x. apply segment_meet_complete; auto.
Qed.

(** The matrix. *)
Definition nat2_dec (p q : nat * nat) : {p = q} + {p <> q}.
Proof. decide equality; apply Nat.eq_dec. Defined.
Lemma set_nth_length {A} i (x : A) l : length (set_nth i x l) = length l.
Proof. revert i. induction l as [|y l IH]; intros [|i]; simpl; auto. Qed.
Lemma set_nth_nth {A} i (x : A) l d j : (i < length l)%nat -> nth j (set_nth i x l) d = if (j =? i)%nat then x else nth j l d.
Proof. revert i j. induction l as [|y l IH]; intros [|i] [|j] L; simpl in *; try lia; auto. rewrite IH by lia. auto. Qed.
Lemma set_nth_In {A} i (x : A) l y : In y (set_nth i x l) -> y = x \/ In y l.
Proof. revert i. induction l as [|z l IH]; intros [|i]; simpl; auto; intros [H|H]; auto. destruct (IH _ H); auto. Qed.
Lemma set_entry_square n m i j v : square n m -> (i < n)%nat -> square n (set_entry m i j v).
Proof.
  intros (L & R) I. unfold set_entry. split; [rewrite set_nth_length; auto|]. intros r Ir. apply set_nth_In in Ir. destruct Ir as [->|Ir]; auto. rewrite set_nth_length. apply R. apply nth_In. lia.
Qed.
Lemma set_entry_get n m i j v a b : square n m -> (i < n)%nat -> (j < n)%nat -> entry (set_entry m i j v) a b = if (a =? i)%nat && (b =? j)%nat then v else entry m a b.
Proof.
  intros (L & R) I J. unfold entry, set_entry. rewrite set_nth_nth by lia. destruct (a =? i)%nat eqn:E; auto. apply Nat.eqb_eq in E. subst a. cbn [andb]. rewrite set_nth_nth; auto. rewrite (R (nth i m [])); auto. apply nth_In. lia.
Qed.
Lemma fill_spec n f l : forall m, square n m -> (forall ij, In ij l -> (fst ij < n)%nat /\ (snd ij < n)%nat) ->
  let m' := fold_left (fun m ij => set_entry m (fst ij) (snd ij) (f (fst ij) (snd ij))) l m in
  square n m' /\ (forall a b, In (a, b) l -> entry m' a b = f a b) /\ (forall a b, ~ In (a, b) l -> entry m' a b = entry m a b).
Proof.
  induction l as [|(i, j) l IH]; intros m S B; cbn [fold_left]; [cbn zeta; split; [auto|split; [intros ? ? []|auto]]|]. cbn zeta. destruct (B (i, j) ltac:(simpl; auto)) as (Bi & Bj). cbn [fst snd] in *.
  destruct (IH (set_entry m i j (f i j)) (set_entry_square n m i j _ S Bi) ltac:(intros; apply B; simpl; auto)) as (S' & H1 & H2). split; auto. split.
  - intros a b I. destruct (in_dec nat2_dec (a, b) l) as [I'|N]; auto. destruct I as [E|I]; [|contradiction]. injection E as -> ->. rewrite H2 by auto. rewrite (set_entry_get n) by auto. rewrite !Nat.eqb_refl. auto.
  - intros a b N. simpl in N. rewrite H2 by tauto. rewrite (set_entry_get n) by auto. destruct ((a =? i)%nat && (b =? j)%nat) eqn:E; auto. apply andb_true_iff in E. destruct E as (E1 & E2). apply Nat.eqb_eq in E1, E2. subst. tauto.
Qed.
Lemma reflect_spec n l : forall m, square n m -> (forall ij, In ij l -> (snd ij < fst ij < n)%nat) ->
  let m' := fold_left (fun m ij => set_entry m (fst ij) (snd ij) (entry m (snd ij) (fst ij))) l m in
  square n m' /\ (forall a b, In (a, b) l -> entry m' a b = entry m b a) /\ (forall a b, ~ In (a, b) l -> entry m' a b = entry m a b).
Proof.
  induction l as [|(i, j) l IH]; intros m S B; cbn [fold_left]; [cbn zeta; split; [auto|split; [intros ? ? []|auto]]|]. cbn zeta. pose proof (B (i, j) ltac:(simpl; auto)) as Bi. cbn [fst snd] in *.
  destruct (IH (set_entry m i j (entry m j i)) (set_entry_square n m i j _ S ltac:(lia)) ltac:(intros; apply B; simpl; auto)) as (S' & H1 & H2).
  assert (G : forall a b, entry (set_entry m i j (entry m j i)) a b = if (a =? i)%nat && (b =? j)%nat then entry m j i else entry m a b) by (intros; apply (set_entry_get n); auto; lia).
  split; auto. split.
  - intros a b I. destruct (in_dec nat2_dec (a, b) l) as [I'|N].
    + rewrite H1, G by auto. pose proof (B (a, b) ltac:(simpl; auto)) as Ba. cbn [fst snd] in Ba. destruct ((b =? i)%nat && (a =? j)%nat) eqn:E; auto. apply andb_true_iff in E. destruct E as (E1 & E2). apply Nat.eqb_eq in E1, E2. lia.
    + destruct I as [E|I]; [|contradiction]. injection E as -> ->. rewrite H2, G by auto. rewrite !Nat.eqb_refl. auto.
  - intros a b N. simpl in N. rewrite H2, G by tauto. destruct ((a =? i)%nat && (b =? j)%nat) eqn:E; auto. apply andb_true_iff in E. destruct E as (E1 & E2). apply Nat.eqb_eq in E1, E2. subst. tauto.
Qed.
Lemma eye_square n : square n (eye n) /\ forall a b, (a < n)%nat -> (b < n)%nat -> entry (eye n) a b = if (a =? b)%nat then 1%nat else 0%nat.
Proof.
  unfold eye. split; [split; [rewrite map_length, seq_length; auto|]|].
  - intros r I. apply in_map_iff in I. destruct I as (i & <- & _). rewrite map_length, seq_length. auto.
  - intros a b A B. unfold entry. rewrite (nth_indep _ [] (map (fun j => if (0 =? j)%nat then 1%nat else 0%nat) (seq 0 n))) by (rewrite map_length, seq_length; auto).
    rewrite (map_nth (fun i => map (fun j => if (i =? j)%nat then 1%nat else 0%nat) (seq 0 n))), seq_nth by auto. rewrite (nth_indep _ 0%nat (if (0 + a =? 0)%nat then 1%nat else 0%nat)) by (rewrite map_length, seq_length; auto).
    rewrite (map_nth (fun j => if (0 + a =? j)%nat then 1%nat else 0%nat)), seq_nth by auto. auto.
Qed.
Lemma in_upper n a b : In (a, b) (concat (map (fun i => map (fun j => (i, j)) (seq (i + 1) (n - (i + 1)))) (seq 0 n))) <-> (a < b < n)%nat.
Proof.
  rewrite in_concat. split.
  - intros (l & I & J). apply in_map_iff in I. destruct I as (i & <- & I). apply in_seq in I. apply in_map_iff in J. destruct J as (j & E & J). injection E as -> ->. apply in_seq in J. lia.
  - intros H. exists (map (fun j => (a, j)) (seq (a + 1) (n - (a + 1)))). split; [apply in_map_iff; exists a; split; auto; apply in_seq; lia|]. apply in_map_iff. exists b. split; auto. apply in_seq. lia.
Qed.
Lemma in_lower n a b : In (a, b) (concat (map (fun i => map (fun j => (i, j)) (seq 0 i)) (seq 0 n))) <-> (b < a < n)%nat.
Proof.
  rewrite in_concat. split.
  - intros (l & I & J). apply in_map_iff in I. destruct I as (i & <- & I). apply in_seq in I. apply in_map_iff in J. destruct J as (j & E & J). injection E as -> ->. apply in_seq in J. lia.
  - intros H. exists (map (fun j => (a, j)) (seq 0 a)). split; [apply in_map_iff; exists a; split; auto; apply in_seq; lia|]. apply in_map_iff. exists b. split; auto. apply in_seq. lia.
Qed.
Lemma matrix_spec pts blocks m : visibility_matrix pts blocks = Ok m -> square (length pts) m /\
  (forall i, (i < length pts)%nat -> entry m i i = 1%nat) /\
  (forall i j p q, (i < j)%nat -> nth_error pts i = Some p -> nth_error pts j = Some q -> entry m i j = are_points_visible p q blocks /\ entry m j i = entry m i j).
Proof.
  unfold visibility_matrix. destruct (are_points_coplanar pts GEOM_ATOL) as [[|]|]; try discriminate. cbn [rbind negb]. set (n := length pts). set (up := concat (map (fun i => map (fun j => (i, j)) (seq (i + 1) (n - (i + 1)))) (seq 0 n))). set (lo := concat (map (fun i => map (fun j => (i, j)) (seq 0 i)) (seq 0 n))).
  intros H. apply Ok_inj in H. subst m. destruct (eye_square n) as (S0 & E0).
  destruct (fill_spec n (fun i j => are_points_visible (nth i pts vzero) (nth j pts vzero) blocks) up (eye n) S0) as (S1 & A1 & B1). { intros (a, b) I. apply in_upper in I. cbn [fst snd]. lia. }
  set (m1 := fold_left _ up (eye n)) in *. destruct (reflect_spec n lo m1 S1) as (S2 & A2 & B2). { intros (a, b) I. apply in_lower in I. cbn [fst snd]. lia. }
  split; auto. split.
  - intros i I. rewrite B2 by (unfold lo; rewrite in_lower; lia). rewrite B1 by (unfold up; rewrite in_upper; lia). rewrite E0 by auto. rewrite Nat.eqb_refl. auto.
  - intros i j p q L Ei Ej. assert (Lj : (j < n)%nat) by (apply nth_error_Some; congruence). assert (X : entry (fold_left (fun m ij => set_entry m (fst ij) (snd ij) (entry m (snd ij) (fst ij))) lo m1) i j = entry m1 i j) by (apply B2; unfold lo; rewrite in_lower; lia).
    split.
    + rewrite X, A1 by (unfold up; rewrite in_upper; lia). rewrite (nth_error_nth _ _ _ Ei), (nth_error_nth _ _ _ Ej). auto.
    + rewrite X. apply A2. unfold lo. rewrite in_lower. lia.
Qed.
Lemma matrix_error pts blocks : are_points_coplanar pts GEOM_ATOL = Ok false -> visibility_matrix pts blocks = Err AssertionError.
Proof. unfold visibility_matrix. intros ->. auto. Qed.
Lemma matrix_total pts blocks : are_points_coplanar pts GEOM_ATOL = Ok true -> exists m, visibility_matrix pts blocks = Ok m.
Proof. unfold visibility_matrix. intros ->. eexists. reflexivity. Qed.

(** Close pairs. *)
Lemma pair_le_spec a b : pair_le a b = true <-> fst a < fst b \/ (fst a = fst b /\ ((fst (snd a) < fst (snd b))%nat \/ (fst (snd a) = fst (snd b) /\ (snd (snd a) <= snd (snd b))%nat))).
Proof.
  unfold pair_le. rewrite orb_true_iff, andb_true_iff, orb_true_iff, andb_true_iff, Rltb_true, Reqb_true, Nat.ltb_lt, Nat.eqb_eq, Nat.leb_le. tauto.
Qed.
Lemma pair_le_total a b : pair_le a b = false -> pair_le b a = true.
Proof.
  intros H. apply pair_le_spec. destruct (Rtotal_order (fst a) (fst b)) as [L|[E|G]].
  - exfalso. assert (pair_le a b = true) by (apply pair_le_spec; auto). congruence.
  - right. split; auto. destruct (lt_eq_lt_dec (fst (snd a)) (fst (snd b))) as [[L|E']|G]; auto.
    + exfalso. assert (pair_le a b = true) by (apply pair_le_spec; auto). congruence.
    + right. split; auto. destruct (le_lt_dec (snd (snd a)) (snd (snd b))); [|lia]. exfalso. assert (pair_le a b = true) by (apply pair_le_spec; auto). congruence.
  - auto.
Qed.
Lemma pair_le_trans a b c : pair_le a b = true -> pair_le b c = true -> pair_le a c = true.
Proof.
  rewrite !pair_le_spec. intros [L|(E & [L|(E' & L)])] [M|(F & [M|(F' & M)])]; try (left; lra); right; split; try lra; try (left; lia); right; split; lia.
Qed.
Lemma insert_perm x l : Permutation (insert_pair x l) (x :: l).
Proof. induction l as [|y l IH]; simpl; auto. destruct (pair_le x y); auto. rewrite IH. apply perm_swap. Qed.
Lemma sort_perm l : Permutation (sort_pairs l) l.
Proof. induction l as [|x l IH]; simpl; auto. rewrite insert_perm. auto. Qed.
Lemma insert_sorted x l : StronglySorted (fun a b => pair_le a b = true) l -> StronglySorted (fun a b => pair_le a b = true) (insert_pair x l).
Proof.
  intros S. induction S as [|y l S IH F]; simpl; [repeat constructor|]. destruct (pair_le x y) eqn:E.
  - constructor; [constructor; auto|]. constructor; auto. rewrite Forall_forall in *. intros z I. eapply pair_le_trans; eauto.
  - constructor; auto. rewrite Forall_forall in *. intros z I. apply (Permutation_in _ (insert_perm x l)) in I. destruct I as [<-|I]; auto. apply pair_le_total; auto.
Qed.
Lemma sort_sorted l : StronglySorted (fun a b => pair_le a b = true) (sort_pairs l).
Proof. induction l as [|x l IH]; simpl; [constructor|]. apply insert_sorted. auto. Qed.
Lemma take_spec (D : nat -> nat -> R) l : StronglySorted (fun a b => pair_le a b = true) l -> (forall d i j, In (d, (i, j)) l -> d = D i j) -> forall u0 u1, let sel := take_unused l u0 u1 in
  NoDup (map fst sel) /\ NoDup (map snd sel) /\ (forall i j, In (i, j) sel -> ~ In i u0 /\ ~ In j u1 /\ In (D i j, (i, j)) l) /\
  StronglySorted (fun a b => D (fst a) (snd a) <= D (fst b) (snd b)) sel /\
  (forall i j, In (D i j, (i, j)) l -> In i u0 \/ In j u1 \/ exists i' j', In (i', j') sel /\ (i' = i \/ j' = j) /\ D i' j' <= D i j).
Proof.
  intros S. induction S as [|(d, (i, j)) l S IH F]; intros HD u0 u1; cbn [take_unused]; cbn zeta; [split; [constructor|split; [constructor|split; [intros ? ? []|split; [constructor|intros ? ? []]]]]|].
  assert (Ed : d = D i j) by (apply HD; simpl; auto). assert (HD' : forall d0 i0 j0, In (d0, (i0, j0)) l -> d0 = D i0 j0) by (intros; apply HD; simpl; auto). specialize (IH HD').
  assert (Le : forall i' j', In (D i' j', (i', j')) l -> D i j <= D i' j'). { intros i' j' I. rewrite Forall_forall in F. apply F in I. apply pair_le_spec in I. cbn [fst snd] in I. rewrite <- Ed. destruct I as [I|(I & _)]; lra. }
  destruct (negb (memb i u0) && negb (memb j u1)) eqn:U.
  - apply andb_true_iff in U. destruct U as (U0 & U1). apply negb_true_iff in U0, U1. assert (N0 : ~ In i u0) by (rewrite <- memb_true; congruence). assert (N1 : ~ In j u1) by (rewrite <- memb_true; congruence).
    destruct (IH (i :: u0) (j :: u1)) as (A & B & C & E & G). set (sel := take_unused l (i :: u0) (j :: u1)) in *. cbn [map fst snd]. split; [|split; [|split; [|split]]].
    + constructor; auto. intros I. apply in_map_iff in I. destruct I as ((i', j') & <- & I). apply C in I. destruct I as (I & _). apply I. simpl; auto.
    + constructor; auto. intros I. apply in_map_iff in I. destruct I as ((i', j') & <- & I). apply C in I. destruct I as (_ & I & _). apply I. simpl; auto.
    + intros i' j' [X|I]; [injection X as <- <-; subst d; simpl; auto|]. apply C in I. destruct I as (I1 & I2 & I3). simpl in *. tauto.
    + constructor; auto. rewrite Forall_forall. intros (i', j') I. apply C in I. cbn [fst snd]. apply Le. tauto.
    + intros i' j' I. assert (Q : D i j <= D i' j') by (destruct I as [X|I]; [injection X as _ <- <-; lra|apply Le; auto]). destruct I as [X|I].
      * injection X as _ <- <-. right. right. exists i, j. simpl. auto.
      * destruct (G i' j' I) as [[<-|I0]|[[<-|I1]|(a & b & Ia & Hab & L)]]; auto.
        -- right. right. exists i, j. simpl. auto.
        -- right. right. exists i, j. simpl. auto.
        -- right. right. exists a, b. simpl. auto.
  - destruct (IH u0 u1) as (A & B & C & E & G). split; auto. split; auto. split; [|split; auto].
    + intros i' j' I. apply C in I. simpl. tauto.
    + intros i' j' [X|I]; auto. injection X as _ <- <-. apply andb_false_iff in U. destruct U as [U|U]; apply negb_false_iff in U; apply memb_true in U; auto.
Qed.
Lemma enumerate_nth (pts : list vec) i p : In (i, p) (enumerate pts) <-> nth_error pts i = Some p.
Proof.
  unfold enumerate. assert (G : forall k, In (i, p) (combine (seq k (length pts)) pts) <-> (k <= i)%nat /\ nth_error pts (i - k) = Some p).
  { induction pts as [|x pts IH]; intros k; cbn [length seq combine]; [split; [intros []|intros (_ & H); destruct (i - k)%nat; discriminate]|]. simpl. rewrite IH. split.
    - intros [E|(L & H)]; [injection E as -> ->; rewrite Nat.sub_diag; auto|]. split; [lia|]. replace (i - k)%nat with (Datatypes.S (i - Datatypes.S k)) by lia. auto.
    - intros (L & H). destruct (Nat.eq_dec i k) as [->|N]; [rewrite Nat.sub_diag in H; simpl in H; left; congruence|]. right. split; [lia|]. replace (i - k)%nat with (Datatypes.S (i - Datatypes.S k)) in H by lia. auto. }
  rewrite G, Nat.sub_0_r. split; [tauto|]. split; auto; lia.
Qed.
Lemma candidates_spec pts0 pts1 vo blocks d i j : In (d, (i, j)) (candidate_pairs pts0 pts1 vo blocks) <-> pair_allowed pts0 pts1 vo blocks i j /\ d = pair_dist pts0 pts1 i j.
Proof.
  unfold candidate_pairs, pair_allowed, pair_dist, dist. rewrite in_concat. split.
  - intros (l & I & J). apply in_map_iff in I. destruct I as ((i', p) & <- & I). apply in_concat in J. destruct J as (l' & J & K). apply in_map_iff in J. destruct J as ((j', q) & <- & J). cbn [fst snd] in K. apply enumerate_nth in I, J.
    destruct (vo && (are_points_visible p q blocks =? 0)%nat) eqn:E; [destruct K|]. destruct K as [K|[]]. injection K as <- -> ->. split; [|rewrite (nth_error_nth _ _ _ I), (nth_error_nth _ _ _ J); auto]. exists p, q. split; auto. split; auto. intros ->. cbn [andb] in E. apply Nat.eqb_neq in E. destruct (visible_spec p q blocks) as ([X|X] & _); auto; contradiction.
  - intros ((p & q & I & J & Hv) & ->). exists (concat (map (fun jq => if vo && (are_points_visible p (snd jq) blocks =? 0)%nat then [] else [(norm (vsub (snd jq) p), (i, fst jq))]) (enumerate pts1))). split.
    + apply in_map_iff. exists (i, p). split; auto. apply enumerate_nth; auto.
    + apply in_concat. exists [(norm (vsub q p), (i, j))]. rewrite (nth_error_nth _ _ _ I), (nth_error_nth _ _ _ J). split; [|simpl; auto]. apply in_map_iff. exists (j, q). split; [|apply enumerate_nth; auto]. cbn [fst snd]. destruct vo; auto. rewrite Hv by auto. auto.
Qed.
Lemma close_pairs_spec pts0 pts1 n vo : pts0 <> [] -> pts1 <> [] -> exists sel,
  greedy_pairs (pair_allowed pts0 pts1 vo [cyc_pairs pts0; cyc_pairs pts1]) (pair_dist pts0 pts1) sel /\
  ((n <= length sel)%nat -> find_close_pairs pts0 pts1 n vo = Ok (map (fun ij => (nth (fst ij) pts0 vzero, nth (snd ij) pts1 vzero)) (firstn n sel))) /\
  ((length sel < n)%nat -> find_close_pairs pts0 pts1 n vo = Err ValueError).
Proof.
  intros N0 N1. unfold find_close_pairs. rewrite !polygon_edges_eq by auto. cbn [rbind]. set (blocks := [cyc_pairs pts0; cyc_pairs pts1]). set (l := sort_pairs (candidate_pairs pts0 pts1 vo blocks)).
  assert (HD : forall d i j, In (d, (i, j)) l <-> pair_allowed pts0 pts1 vo blocks i j /\ d = pair_dist pts0 pts1 i j).
  { intros d i j. rewrite <- candidates_spec. split; apply Permutation_in; [apply sort_perm|apply Permutation_sym, sort_perm]. }
  destruct (take_spec (pair_dist pts0 pts1) l (sort_sorted _) ltac:(intros d i j I; apply HD in I; tauto) [] []) as (A & B & C & E & G). exists (take_unused l [] []). split.
  - split; auto. split; auto. split; [intros i j I; apply C in I; destruct I as (_ & _ & I); apply HD in I; tauto|]. split; auto. intros i j I. destruct (G i j) as [[]|[[]|X]]; auto. apply HD. auto.
  - split; intros L; [replace (length (take_unused l [] []) <? n)%nat with false by (symmetry; apply Nat.ltb_ge; auto); auto|replace (length (take_unused l [] []) <? n)%nat with true by (symmetry; apply Nat.ltb_lt; auto); auto].
Qed.
Lemma close_pairs_empty pts0 pts1 n vo : pts0 = [] \/ pts1 = [] -> find_close_pairs pts0 pts1 n vo = Err IndexError.
Proof. unfold find_close_pairs. intros [->| ->]; auto. destruct pts0; auto. Qed.
(** The first pair is a closest allowed pair. *)
Lemma close_first pts0 pts1 n vo p q r : pts0 <> [] -> pts1 <> [] -> find_close_pairs pts0 pts1 n vo = Ok ((p, q) :: r) ->
  forall i j, pair_allowed pts0 pts1 vo [cyc_pairs pts0; cyc_pairs pts1] i j -> dist p q <= pair_dist pts0 pts1 i j.
Proof.
  intros N0 N1 H i j A. destruct (close_pairs_spec pts0 pts1 n vo N0 N1) as (sel & (_ & _ & _ & S & G) & H1 & H2). destruct (le_lt_dec n (length sel)) as [L|L]; [|rewrite (H2 L) in H; discriminate]. rewrite (H1 L) in H. apply Ok_inj in H.
  destruct sel as [|(a, b) sel]; [destruct n; discriminate|]. destruct n; [discriminate|]. cbn [firstn map fst snd] in H. injection H as <- <- _. fold (pair_dist pts0 pts1 a b).
  destruct (G i j A) as (i' & j' & I & _ & Le). eapply Rle_trans; [|exact Le]. destruct I as [X|I]; [injection X as -> ->; lra|]. inversion S as [|x y S' F]; subst. rewrite Forall_forall in F. apply (F (i', j') I).
Qed.
Lemma close_count pts0 pts1 n vo ps : find_close_pairs pts0 pts1 n vo = Ok ps -> length ps = n.
Proof.
  intros H. destruct pts0 as [|p0 pts0]; [rewrite close_pairs_empty in H by auto; discriminate|]. destruct pts1 as [|p1 pts1]; [rewrite close_pairs_empty in H by auto; discriminate|].
  destruct (close_pairs_spec (p0 :: pts0) (p1 :: pts1) n vo) as (sel & _ & H1 & H2); try discriminate. destruct (le_lt_dec n (length sel)) as [L|L]; [|rewrite (H2 L) in H; discriminate]. rewrite (H1 L) in H. apply Ok_inj in H. subst ps. rewrite map_length, firstn_length. lia.
Qed.
