(** Properties C64, C71 and C76: close pairs, visibility, intersections. *)
From Coq Require Import Reals List Bool Arith Lia Lra Sorting.
From Verif Require Import Prelude VecModel VecProofs GeomModel GeomSpec GeomProofs1 GeomProofs2 GeomProofs3 GeomProofs4 PolyModel VisModel VisSpec VisProofs.
Import ListNotations.
Local Open Scope R_scope.

(** C64: a greedy selection; its first n pairs are returned, or ValueError when
    there are fewer. *)
Theorem C64_greedy pts0 pts1 n vis_only : pts0 <> [] -> pts1 <> [] -> exists sel,
  greedy_pairs (pair_allowed pts0 pts1 vis_only [cyc_pairs pts0; cyc_pairs pts1]) (pair_dist pts0 pts1) sel /\
  ((n <= length sel)%nat -> find_close_pairs pts0 pts1 n vis_only = Ok (map (fun ij => (nth (fst ij) pts0 vzero, nth (snd ij) pts1 vzero)) (firstn n sel))) /\
  ((length sel < n)%nat -> find_close_pairs pts0 pts1 n vis_only = Err ValueError).
Proof. exact (close_pairs_spec pts0 pts1 n vis_only). Qed.
Theorem C64_first pts0 pts1 n vis_only p q r : pts0 <> [] -> pts1 <> [] -> find_close_pairs pts0 pts1 n vis_only = Ok ((p, q) :: r) ->
  forall i j, pair_allowed pts0 pts1 vis_only [cyc_pairs pts0; cyc_pairs pts1] i j -> dist p q <= pair_dist pts0 pts1 i j.
Proof. exact (close_first pts0 pts1 n vis_only p q r). Qed.
Theorem C64_count pts0 pts1 n vis_only ps : find_close_pairs pts0 pts1 n vis_only = Ok ps -> length ps = n.
Proof. exact (close_count pts0 pts1 n vis_only ps). Qed.
Theorem C64_empty pts0 pts1 n vis_only : pts0 = [] \/ pts1 = [] -> find_close_pairs pts0 pts1 n vis_only = Err IndexError.
Proof. exact (close_pairs_empty pts0 pts1 n vis_only). Qed.
(** Two single points: selecting one pair works, two do not. *)
Example C64_ex : [V 0 0 0] <> [] /\ [V 1 0 0] <> [] /\ find_close_pairs [V 0 0 0] [V 1 0 0] 1 false = Ok [(V 0 0 0, V 1 0 0)] /\ find_close_pairs [V 0 0 0] [V 1 0 0] 2 false = Err ValueError.
Proof. split; [discriminate|]. split; [discriminate|]. split; reflexivity. Qed.
Print Assumptions C64_greedy.
Print Assumptions C64_first.
Print Assumptions C64_count.
Print Assumptions C64_empty.

(** C71: square, ones on the diagonal, symmetric, and the entry above the
    diagonal is the visibility of the two points. *)
Theorem C71_matrix pts blocks m : visibility_matrix pts blocks = Ok m -> square (length pts) m /\
  (forall i, (i < length pts)%nat -> entry m i i = 1%nat) /\
  (forall i j p q, (i < j)%nat -> nth_error pts i = Some p -> nth_error pts j = Some q -> entry m i j = are_points_visible p q blocks /\ entry m j i = entry m i j).
Proof. exact (matrix_spec pts blocks m). Qed.
Theorem C71_defined pts blocks : are_points_coplanar pts GEOM_ATOL = Ok true -> exists m, visibility_matrix pts blocks = Ok m.
Proof. exact (matrix_total pts blocks). Qed.
Theorem C71_not_coplanar pts blocks : are_points_coplanar pts GEOM_ATOL = Ok false -> visibility_matrix pts blocks = Err AssertionError.
Proof. exact (matrix_error pts blocks). Qed.
(** Visibility is 0 or 1, and 0 exactly when an edge that shares no end with
    the line of sight intersects it. *)
Theorem C71_visible p q blocks : (are_points_visible p q blocks = 0%nat \/ are_points_visible p q blocks = 1%nat) /\
  (are_points_visible p q blocks = 0%nat <-> exists es e, In es blocks /\ In e es /\
     points_equal (fst e) p = false /\ points_equal (fst e) q = false /\ points_equal (snd e) p = false /\ points_equal (snd e) q = false /\
     exists x, line_segment_intersection p q (fst e) (snd e) = Some x).
Proof. exact (visible_spec p q blocks). Qed.
(** An edge that really crosses the line of sight blocks it, unless it counts as
    parallel. *)
Theorem C71_blocked p q blocks es e x : In es blocks -> In e es ->
  points_equal (fst e) p = false -> points_equal (fst e) q = false -> points_equal (snd e) p = false -> points_equal (snd e) q = false ->
  ~ seem_zero (vsub q p) -> ~ seem_zero (vsub (snd e) (fst e)) -> ~ seem_parallel (vsub q p) (vsub (snd e) (fst e)) ->
  on_segment p q x -> on_segment (fst e) (snd e) x -> are_points_visible p q blocks = 0%nat.
Proof. exact (blocked_complete p q blocks es e x). Qed.
Example axes_apart : ~ seem_zero (V 2 0 0) /\ ~ seem_zero (V 0 2 0) /\ ~ seem_parallel (V 2 0 0) (V 0 2 0).
Proof.
  assert (N1 : norm (V 2 0 0) = 2) by (unfold norm; replace (dot (V 2 0 0) (V 2 0 0)) with (2 * 2) by (vunf; ring); apply sqrt_square; lra).
  assert (N2 : norm (V 0 2 0) = 2) by (unfold norm; replace (dot (V 0 2 0) (V 0 2 0)) with (2 * 2) by (vunf; ring); apply sqrt_square; lra).
  unfold seem_zero, seem_parallel. rewrite N1, N2. unfold allclose, isclose, vdiv, vopp, smul, RTOL, ATOL8, vzero. cbn [vx vy vz]. rewrite !andb_true_iff, !Rleb_true.
  split; [intros ((H & _) & _); rewrite Rabs_pos_eq in H by lra; rewrite Rabs_R0 in H; lra|]. split; [intros ((_ & H) & _); rewrite Rabs_pos_eq in H by lra; rewrite Rabs_R0 in H; lra|].
  intros [((H & _) & _)|((H & _) & _)]; rewrite Rabs_pos_eq in H by lra; unfold Rabs in H; destruct (Rcase_abs _) in H; lra.
Qed.
Example C71_ex : are_points_coplanar [V 0 0 0; V 1 0 0; V 1 1 0; V 0 1 0] GEOM_ATOL = Ok true /\
  on_segment (V (-1) 0 0) (V 1 0 0) (V 0 0 0) /\ on_segment (V 0 (-1) 0) (V 0 1 0) (V 0 0 0) /\ points_equal (V 0 (-1) 0) (V (-1) 0 0) = false.
Proof.
  split; [apply coplanar_accepted; [unfold GEOM_ATOL; lra|]; exists (V 0 0 1), 0; split; [intros H; injection H; lra|]; intros p I; repeat (destruct I as [<-|I]; [vunf; ring|]); destruct I|].
  split; [exists (1 / 2); split; [lra|unfold seg_point; vunf; f_equal; lra]|]. split; [exists (1 / 2); split; [lra|unfold seg_point; vunf; f_equal; lra]|].
  unfold points_equal, allclose, isclose, RTOL, GEOM_ATOL. cbn [vx vy vz]. replace (Rleb (Rabs (0 - -1)) _) with false; auto. symmetry. apply Rleb_false. rewrite (Rabs_left (-1)) by lra. rewrite Rabs_pos_eq; lra.
Qed.
Print Assumptions C71_matrix.
Print Assumptions C71_defined.
Print Assumptions C71_not_coplanar.
Print Assumptions C71_visible.
Print Assumptions C71_blocked.

(** C76: the point returned for two lines lies on the first one, its partner on
    the second one is equal to it within the tolerance, and no two points of the
    lines are closer. *)
Theorem C76_sound p1 d1 p2 d2 q : line_intersection p1 d1 p2 d2 = Some q ->
  ~ seem_zero d1 /\ ~ seem_zero d2 /\ ~ seem_parallel d1 d2 /\ on_line p1 d1 q /\
  exists q', on_line p2 d2 q' /\ allclose q q' RTOL ATOL8 = true /\ forall a b, on_line p1 d1 a -> on_line p2 d2 b -> dist q q' <= dist a b.
Proof. exact (intersection_sound p1 d1 p2 d2 q). Qed.
Theorem C76_complete p1 d1 p2 d2 q : ~ seem_zero d1 -> ~ seem_zero d2 -> ~ seem_parallel d1 d2 -> on_line p1 d1 q -> on_line p2 d2 q -> line_intersection p1 d1 p2 d2 = Some q.
Proof. exact (intersection_complete p1 d1 p2 d2 q). Qed.
Theorem C76_guard p1 d1 p2 d2 : seem_zero d1 \/ seem_zero d2 \/ seem_parallel d1 d2 -> line_intersection p1 d1 p2 d2 = None.
Proof. exact (intersection_guard p1 d1 p2 d2). Qed.
Theorem C76_parallel p1 d1 p2 k : k <> 0 -> line_intersection p1 d1 p2 (smul k d1) = None.
Proof. exact (exact_parallel p1 d1 p2 k). Qed.
Theorem C76_segments_sound a1 b1 a2 b2 q : line_segment_intersection a1 b1 a2 b2 = Some q ->
  line_intersection a1 (vsub b1 a1) a2 (vsub b2 a2) = Some q /\ is_point_on_segment q a1 b1 GEOM_ATOL = true /\ is_point_on_segment q a2 b2 GEOM_ATOL = true.
Proof. exact (segment_meet_sound a1 b1 a2 b2 q). Qed.
Theorem C76_segments_complete a1 b1 a2 b2 q : ~ seem_zero (vsub b1 a1) -> ~ seem_zero (vsub b2 a2) -> ~ seem_parallel (vsub b1 a1) (vsub b2 a2) ->
  on_segment a1 b1 q -> on_segment a2 b2 q -> line_segment_intersection a1 b1 a2 b2 = Some q.
Proof. exact (segment_meet_complete a1 b1 a2 b2 q). Qed.
(** Segments crossing at a small angle are missed although their ends are half
    a metre apart. *)
Theorem C76_all_crossings_refuted : ~ (forall a1 b1 a2 b2 q, a1 <> b1 -> a2 <> b2 -> cross (vsub b1 a1) (vsub b2 a2) <> vzero -> on_segment a1 b1 q -> on_segment a2 b2 q -> line_segment_intersection a1 b1 a2 b2 = Some q).
Proof. exact small_angle_witness. Qed.
Example C76_ex : ~ seem_zero (V 2 0 0) /\ ~ seem_zero (V 0 2 0) /\ ~ seem_parallel (V 2 0 0) (V 0 2 0) /\ on_line (V (-1) 0 0) (V 2 0 0) (V 0 0 0) /\ on_line (V 0 (-1) 0) (V 0 2 0) (V 0 0 0).
Proof. pose proof axes_apart. repeat (split; [tauto|]). split; exists (1 / 2); vunf; f_equal; lra. Qed.
Print Assumptions C76_sound.
Print Assumptions C76_complete.
Print Assumptions C76_guard.
Print Assumptions C76_parallel.
Print Assumptions C76_segments_sound.
Print Assumptions C76_segments_complete.
Print Assumptions C76_all_crossings_refuted.
