(** Properties C78 and C79: crossing and touching polygons. *)
From Coq Require Import Reals List Bool Arith Lia Lra ZArith.
From Verif Require Import Prelude VecModel VecProofs GeomModel GeomSpec PolyModel PolySpec PolyProofs2 VisModel VisSpec SliceProofs4 SliceProofs8 SliceProofs10 StitchProofs3 StitchProofs4 CrossSpec CrossProofs1 CrossProofs2.
Import ListNotations.
Local Open Scope R_scope.

(** C78: are_polygons_crossing answers, and it answers yes exactly when the
    bounding boxes meet, the points seem coplanar and two edges without a common
    end intersect while one of the ten equally spaced points of one of these two
    edges is strictly inside the other polygon. (The last alternative is only
    possible for intersections found outside both edges.) *)
Theorem C78_exact pts1 ts1 pts2 ts2 : pts1 <> [] -> pts2 <> [] -> good_mesh pts1 ts1 -> good_mesh pts2 ts2 -> real_edges pts1 -> real_edges pts2 -> told_apart (pts1 ++ pts2) ->
  exists b, are_polygons_crossing pts1 ts1 pts2 ts2 = Ok b /\
  (b = true <-> boxes_meet pts1 pts2 /\ are_points_coplanar (pts1 ++ pts2) GEOM_ATOL = Ok true /\
    exists e1 e2 q, In e1 (cyc_pairs pts1) /\ In e2 (cyc_pairs pts2) /\ ~ share_end e1 e2 /\ line_segment_intersection (fst e1) (snd e1) (fst e2) (snd e2) = Some q /\
    ((exists k, (k <= 9)%nat /\ (strictly_in pts2 ts2 (seg_point (fst e1) (snd e1) (INR k / INR 9)) \/ strictly_in pts1 ts1 (seg_point (fst e2) (snd e2) (INR k / INR 9)))) \/
     (forall w, on_segment (fst e1) (snd e1) w \/ on_segment (fst e2) (snd e2) w -> 1 / 100000000 < dist q w))).
Proof. exact (crossing_iff pts1 ts1 pts2 ts2). Qed.
(** Whatever the inputs, a positive answer means intersecting edges. *)
Theorem C78_sound pts1 ts1 pts2 ts2 : are_polygons_crossing pts1 ts1 pts2 ts2 = Ok true ->
  boxes_meet pts1 pts2 /\ are_points_coplanar (pts1 ++ pts2) GEOM_ATOL = Ok true /\
  exists e1 e2 q, In e1 (cyc_pairs pts1) /\ In e2 (cyc_pairs pts2) /\ line_segment_intersection (fst e1) (snd e1) (fst e2) (snd e2) = Some q /\ ~ share_end e1 e2 /\
  ((exists k, (k <= 9)%nat /\ (strictly_in pts2 ts2 (seg_point (fst e1) (snd e1) (INR k / INR 9)) \/ strictly_in pts1 ts1 (seg_point (fst e2) (snd e2) (INR k / INR 9)))) \/
   (forall w, on_segment (fst e1) (snd e1) w \/ on_segment (fst e2) (snd e2) w -> 1 / 100000000 < dist q w)).
Proof. exact (crossing_sound pts1 ts1 pts2 ts2). Qed.
Theorem C78_boxes_apart pts1 ts1 pts2 ts2 : pts1 <> [] -> pts2 <> [] -> ~ boxes_meet pts1 pts2 -> are_polygons_crossing pts1 ts1 pts2 ts2 = Ok false.
Proof. exact (crossing_false_box pts1 ts1 pts2 ts2). Qed.
Theorem C78_not_coplanar pts1 ts1 pts2 ts2 : pts1 <> [] -> pts2 <> [] -> are_points_coplanar (pts1 ++ pts2) GEOM_ATOL = Ok false -> are_polygons_crossing pts1 ts1 pts2 ts2 = Ok false.
Proof. exact (crossing_false_plane pts1 ts1 pts2 ts2). Qed.
(** No edges that share an end or seem to have a point in common: polygons that
    are apart, nested or share whole edges do not cross. *)
Theorem C78_apart pts1 ts1 pts2 ts2 : pts1 <> [] -> pts2 <> [] ->
  (forall e1 e2, In e1 (cyc_pairs pts1) -> In e2 (cyc_pairs pts2) -> share_end e1 e2 \/ forall q, ~ (seems_on e1 q /\ seems_on e2 q)) ->
  are_polygons_crossing pts1 ts1 pts2 ts2 = Ok false.
Proof. exact (crossing_apart pts1 ts1 pts2 ts2). Qed.
(** A polygon does not cross itself, in whatever order its corners are given. *)
Theorem C78_same pts ts ts' pts' : pts <> [] -> rotation_of pts pts' \/ rotation_of (rev pts) pts' ->
  (forall e1 e2, In e1 (cyc_pairs pts) -> In e2 (cyc_pairs pts) -> share_end e1 e2 \/ forall q, ~ (seems_on e1 q /\ seems_on e2 q)) ->
  are_polygons_crossing pts ts pts' ts' = Ok false.
Proof. exact (crossing_same pts ts ts' pts'). Qed.
(** Two bars that form a plus sign: edges cross, all ten points of each edge are
    outside or on the outline of the other bar, and the answer is no. *)
Theorem C78_crossing_missed_refuted : exists p q, make_polygon (map at3 bar_h) None None = Ok p /\ make_polygon (map at3 bar_v) None None = Ok q /\
  outlines_cross (p_pts p) (p_pts q) /\ are_polygons_crossing (p_pts p) (p_tri p) (p_pts q) (p_tri q) = Ok false.
Proof. exact plus_ex. Qed.
(** The bars meet the hypotheses of C78_exact. *)
Example C78_exact_ex : good_mesh (map at3 bar_h) quad_tri /\ good_mesh (map at3 bar_v) quad_tri /\ real_edges (map at3 bar_h) /\ real_edges (map at3 bar_v) /\ told_apart (map at3 bar_h ++ map at3 bar_v).
Proof.
  split; [apply (z_good up); reflexivity|]. split; [apply (z_good up); reflexivity|]. split; [apply z_real; reflexivity|]. split; [apply z_real; reflexivity|]. rewrite <- map_app. apply z_told. reflexivity.
Qed.
(** Wider bars are found to cross: they meet the hypothesis of C78_sound. *)
Example C78_sound_ex : are_polygons_crossing (map at3 cross_h) quad_tri (map at3 cross_v) quad_tri = Ok true.
Proof. exact wide_cross. Qed.
(** A square within a larger one meets the hypotheses of C78_apart, and one square those of C78_same. *)
Example C78_apart_ex : forall e1 e2, In e1 (cyc_pairs (map at3 square_out)) -> In e2 (cyc_pairs (map at3 square_in)) -> share_end e1 e2 \/ forall q, ~ (seems_on e1 q /\ seems_on e2 q).
Proof. apply z_pairs_away. reflexivity. Qed.
Example C78_same_ex : forall e1 e2, In e1 (cyc_pairs (map at3 square_in)) -> In e2 (cyc_pairs (map at3 square_in)) -> share_end e1 e2 \/ forall q, ~ (seems_on e1 q /\ seems_on e2 q).
Proof. apply z_pairs_away. reflexivity. Qed.
Example C78_boxes_ex : ~ boxes_meet [V 0 0 0; V 1 0 0; V 0 1 0] [V 5 0 0; V 6 0 0; V 5 1 0].
Proof.
  intros (p & H). destruct (H vx (or_introl eq_refl)) as ((a & b & Ia & Ib & L) & (c & d & Ic & Id & L')). cbn [In] in Ib, Ic. destruct Ib as [<-|[<-|[<-|[]]]], Ic as [<-|[<-|[<-|[]]]]; cbn [vx] in *; lra.
Qed.
Example C78_coplanar_ex : are_points_coplanar ([V 0 0 0; V 1 0 0; V 0 1 0] ++ [V 0 0 1; V 1 0 1; V 0 1 1]) GEOM_ATOL = Ok false.
Proof. exact stacked_not_coplanar. Qed.
Print Assumptions C78_exact.
Print Assumptions C78_sound.
Print Assumptions C78_boxes_apart.
Print Assumptions C78_not_coplanar.
Print Assumptions C78_apart.
Print Assumptions C78_same.
Print Assumptions C78_crossing_missed_refuted.

(** C79: are_polygons_touching answers yes exactly when the boxes meet, not every
    corner of the first polygon is a corner of the second, some corner of one is
    on the outline of the other, and no corner, middle or quarter point of the
    edges of one is strictly inside the other. *)
Theorem C79_exact pts1 ts1 pts2 ts2 : pts1 <> [] -> pts2 <> [] -> good_mesh pts1 ts1 -> good_mesh pts2 ts2 -> told_apart (pts1 ++ pts2) -> NoDup pts1 ->
  exists b, are_polygons_touching pts1 ts1 pts2 ts2 = Ok b /\
  (b = true <-> boxes_meet pts1 pts2 /\ ~ incl pts1 pts2 /\ (meets_outline pts1 pts2 \/ meets_outline pts2 pts1) /\
     (forall w, division_point 4 pts2 w -> ~ strictly_in pts1 ts1 w) /\ (forall w, division_point 4 pts1 w -> ~ strictly_in pts2 ts2 w)).
Proof. exact (touching_spec pts1 ts1 pts2 ts2). Qed.
Theorem C79_self pts ts ts' : pts <> [] -> are_polygons_touching pts ts pts ts' = Ok false.
Proof. exact (touching_self pts ts ts'). Qed.
(** The answer depends on the order of the polygons: a notched square touches
    the triangle that fills the notch, but the triangle does not touch it. *)
Theorem C79_symmetric_refuted : exists p q, make_polygon (map at3 notched) None None = Ok p /\ make_polygon (map at3 plug) None None = Ok q /\
  are_polygons_touching (p_pts p) (p_tri p) (p_pts q) (p_tri q) = Ok true /\ are_polygons_touching (p_pts q) (p_tri q) (p_pts p) (p_tri p) = Ok false.
Proof. exact plug_ex. Qed.
(** Polygons that overlap may count as touching: one bar ends on the far side
    of another. *)
Theorem C79_overlap_refuted : exists p q, make_polygon (map at3 bar_low) None None = Ok p /\ make_polygon (map at3 bar_up) None None = Ok q /\
  outlines_cross (p_pts p) (p_pts q) /\ are_polygons_touching (p_pts p) (p_tri p) (p_pts q) (p_tri q) = Ok true /\ are_polygons_touching (p_pts q) (p_tri q) (p_pts p) (p_tri p) = Ok true.
Proof. exact t_ex. Qed.
(** Squares side by side meet the hypotheses, and touch. *)
Example C79_exact_ex : good_mesh (map at3 square_l) quad_tri /\ good_mesh (map at3 square_r) quad_tri /\ told_apart (map at3 square_l ++ map at3 square_r) /\ NoDup (map at3 square_l) /\
  are_polygons_touching (map at3 square_l) quad_tri (map at3 square_r) quad_tri = Ok true.
Proof.
  split; [apply (z_good up); reflexivity|]. split; [apply (z_good up); reflexivity|]. split; [rewrite <- map_app; apply z_told; reflexivity|]. split; [apply z_nodup; repeat constructor; cbn; intuition discriminate|exact squares_touch].
Qed.
Example C79_self_ex : map at3 square_l <> [].
Proof. discriminate. Qed.
Print Assumptions C79_exact.
Print Assumptions C79_self.
Print Assumptions C79_symmetric_refuted.
Print Assumptions C79_overlap_refuted.
