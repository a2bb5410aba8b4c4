(** Properties C43-C50, C54-C59, C68, C73: elementary geometry. *)
From Coq Require Import Reals List Bool Arith Lia Lra.
From Verif Require Import Prelude VecModel VecProofs GeomModel GeomSpec GeomProofs1 GeomProofs2 GeomProofs3 GeomProofs4 GeomProofs5.
Import ListNotations.
Local Open Scope R_scope.

(** Demonstration data. *)
Definition o : vec := V 0 0 0.
Definition ex : vec := V 1 0 0.
Definition ey : vec := V 0 1 0.
Definition ez : vec := V 0 0 1.
Ltac vcalc := unfold cross, vsub, vadd, smul, dot, vdiv, vzero, ez, ey, ex, o in *; cbn [vx vy vz]; try (f_equal; lra); lra.
Example ex_unit : unit ex /\ unit ey /\ unit ez.
Proof. unfold unit. repeat split; vcalc. Qed.
Example cross_xy : cross (vsub ex o) (vsub ey o) = ez.
Proof. vcalc. Qed.
Example area_xy : true_area o ex ey = 1 / 2.
Proof. unfold true_area. rewrite cross_xy, (unit_norm ez) by (unfold unit; vcalc). lra. Qed.
Example normal_xy : normal o ex ey = Some ez.
Proof.
  apply normal_some. rewrite cross_xy, (unit_norm ez) by (unfold unit; vcalc). split; [lra|]. unfold vdiv, ez; cbn [vx vy vz]. f_equal; lra.
Qed.

(** C43: the squared computed area is the squared true area plus EPSILON. *)
Theorem C43_area_squared p1 p2 p3 : triangle_area p1 p2 p3 * triangle_area p1 p2 p3 = true_area p1 p2 p3 * true_area p1 p2 p3 + 1 / 1000000000000.
Proof. exact (triangle_area_sq p1 p2 p3). Qed.
Theorem C43_area_bounds p1 p2 p3 : true_area p1 p2 p3 <= triangle_area p1 p2 p3 <= true_area p1 p2 p3 + 1 / 1000000.
Proof. exact (triangle_area_bounds p1 p2 p3). Qed.
Theorem C43_area_degenerate p1 p2 p3 : true_area p1 p2 p3 = 0 -> triangle_area p1 p2 p3 = 1 / 1000000.
Proof. exact (triangle_area_degenerate p1 p2 p3). Qed.
Theorem C43_area_invariant p1 p2 p3 t : triangle_area p1 p2 p3 = triangle_area p2 p1 p3 /\ triangle_area p1 p2 p3 = triangle_area p1 p3 p2 /\
  triangle_area (vadd p1 t) (vadd p2 t) (vadd p3 t) = triangle_area p1 p2 p3.
Proof. exact (conj (proj1 (triangle_area_perm p1 p2 p3)) (conj (proj2 (triangle_area_perm p1 p2 p3)) (triangle_area_shift p1 p2 p3 t))). Qed.
Example C43_ex : true_area o ex (V 2 0 0) = 0 /\ 1 / 2 <= triangle_area o ex ey <= 1 / 2 + 1 / 1000000.
Proof.
  split; [|rewrite <- area_xy; apply triangle_area_bounds]. unfold true_area. replace (cross _ _) with vzero by (vcalc).
  rewrite (proj2 (norm_zero vzero) eq_refl). lra.
Qed.
Print Assumptions C43_area_squared.
Print Assumptions C43_area_bounds.
Print Assumptions C43_area_degenerate.
Print Assumptions C43_area_invariant.

(** C44: 144 V^2 = 4 det^2 + EPSILON. *)
Theorem C44_volume_formula p0 p1 p2 p3 :
  tetrahedron_volume p0 p1 p2 p3 = sqrt (det3 p0 p1 p2 p3 * det3 p0 p1 p2 p3 * 4 + 1 / 1000000000000) / 12.
Proof. exact (volume_eq p0 p1 p2 p3). Qed.
Theorem C44_volume_bounds p0 p1 p2 p3 : Rabs (det3 p0 p1 p2 p3) / 6 <= tetrahedron_volume p0 p1 p2 p3 <= Rabs (det3 p0 p1 p2 p3) / 6 + 1 / 12000000.
Proof. exact (volume_bounds p0 p1 p2 p3). Qed.
Theorem C44_volume_invariant p0 p1 p2 p3 t : let v := tetrahedron_volume p0 p1 p2 p3 in
  (tetrahedron_volume p1 p0 p2 p3 = v /\ tetrahedron_volume p0 p2 p1 p3 = v /\ tetrahedron_volume p0 p1 p3 p2 = v) /\
  tetrahedron_volume (vadd p0 t) (vadd p1 t) (vadd p2 t) (vadd p3 t) = v.
Proof. exact (conj (volume_perm p0 p1 p2 p3) (volume_shift p0 p1 p2 p3 t)). Qed.
Example C44_ex : det3 o ex ey ez = 1.
Proof. unfold det3; vcalc. Qed.
Print Assumptions C44_volume_formula.
Print Assumptions C44_volume_bounds.
Print Assumptions C44_volume_invariant.

(** C45: normals. *)
Theorem C45_normal p0 p1 p2 n : normal p0 p1 p2 = Some n ->
  unit n /\ perp n (vsub p1 p0) /\ perp n (vsub p2 p0) /\ perp n (vsub p2 p1) /\ 0 < dot n (cross (vsub p1 p0) (vsub p2 p0)).
Proof. exact (normal_spec p0 p1 p2 n). Qed.
Theorem C45_normal_undefined p0 p1 p2 : normal p0 p1 p2 = None <-> norm (cross (vsub p1 p0) (vsub p2 p0)) <= 1 / 100000000.
Proof. exact (normal_none p0 p1 p2). Qed.
Theorem C45_normal_invariant p0 p1 p2 t : normal (vadd p0 t) (vadd p1 t) (vadd p2 t) = normal p0 p1 p2 /\ normal p1 p2 p0 = normal p0 p1 p2 /\
  normal p0 p2 p1 = option_map (smul (-1)) (normal p0 p1 p2) /\ normal p1 p0 p2 = option_map (smul (-1)) (normal p0 p1 p2).
Proof. exact (conj (normal_shift p0 p1 p2 t) (conj (normal_cycle p0 p1 p2) (conj (normal_swap p0 p1 p2) (normal_swap01 p0 p1 p2)))). Qed.
Example C45_ex : normal o ex ey = Some ez /\ norm (cross (vsub ex o) (vsub (V 2 0 0) o)) <= 1 / 100000000.
Proof.
  split; [exact normal_xy|]. replace (cross _ _) with vzero by (vcalc). rewrite (proj2 (norm_zero vzero) eq_refl). lra.
Qed.
Print Assumptions C45_normal.
Print Assumptions C45_normal_undefined.
Print Assumptions C45_normal_invariant.

(** C46: rotations. *)
Theorem C46_rotation u phi : unit u -> exists m, rotation_matrix u phi = Ok m /\
  mmul (mcols m) m = (V 1 0 0, V 0 1 0, V 0 0 1) /\ mdet m = 1 /\ mapply m u = u /\
  (forall v w, dot (mapply m v) (mapply m w) = dot v w) /\
  (forall p q, dist (mapply m p) (mapply m q) = dist p q) /\
  (exists m', rotation_matrix u (- phi) = Ok m' /\ forall v, mapply m' (mapply m v) = v /\ mapply m (mapply m' v) = v).
Proof. exact (fun U => match rotation_ok u phi U with ex_intro _ m E => ex_intro _ m (conj E (rotation_matrix_spec u phi m U E)) end). Qed.
(** Rodrigues' formula: the matrix turns by the angle phi, in the right-handed sense. *)
Theorem C46_rodrigues u phi m v : unit u -> rotation_matrix u phi = Ok m ->
  mapply m v = vadd (vadd (smul (cos phi) v) (smul (sin phi) (cross u v))) (smul ((1 - cos phi) * dot u v) u).
Proof. exact (fun U E => rotation_rodrigues u phi m U E v). Qed.
Theorem C46_rotate_around pts u phi : unit u -> 1 / 10000000000000 <= Rabs phi ->
  exists m pts', rotation_matrix u phi = Ok m /\ rotate_points_around_vector pts u phi = Ok (pts', m) /\ length pts' = length pts /\
    (forall i p, nth_error pts i = Some p -> nth_error pts' i = Some (mapply m p)).
Proof. exact (rotate_around_spec pts u phi). Qed.
(** Negligible rotations return the points but a matrix of ones. *)
Theorem C46_all_ones pts u phi : Rabs phi < 1 / 10000000000000 \/ norm u < 1 / 10000000000000 ->
  rotate_points_around_vector pts u phi = Ok (pts, (V 1 1 1, V 1 1 1, V 1 1 1)).
Proof. exact (rotate_around_small pts u phi). Qed.
Theorem C46_matrix_refuted : exists pts u phi pts' m, unit u /\ rotate_points_around_vector pts u phi = Ok (pts', m) /\ pts' <> map (mapply m) pts.
Proof. exact ones_witness. Qed.
Example C46_ex : unit ez /\ 1 / 10000000000000 <= Rabs (PI / 2).
Proof. split; [apply ex_unit|]. pose proof PI2_1. rewrite Rabs_pos_eq; lra. Qed.
Print Assumptions C46_rotation.
Print Assumptions C46_rodrigues.
Print Assumptions C46_rotate_around.
Print Assumptions C46_all_ones.
Print Assumptions C46_matrix_refuted.

(** C47: rotating to a plane. *)
Theorem C47_to_plane pts anchor u d p0 p1 r n c : pts = p0 :: p1 :: r -> normal (last pts p0) p0 p1 = Some n -> unit u ->
  ~ (Rabs (vx (cross n u)) < 1 / 10000000000000 /\ Rabs (vy (cross n u)) < 1 / 10000000000000 /\ Rabs (vz (cross n u)) < 1 / 10000000000000) ->
  (forall p, In p pts -> dot n p = c) ->
  exists pts' ax phi, rotate_points_to_plane pts anchor u d = Ok (pts', ax, phi) /\ length pts' = length pts /\
    (forall q, In q pts' -> dot u q = c - dot n (anchor_used anchor) + dot u (anchor_used anchor) + d) /\
    (forall i j a b a' b', nth_error pts i = Some a -> nth_error pts j = Some b -> nth_error pts' i = Some a' -> nth_error pts' j = Some b' ->
       norm (vsub b' a') = norm (vsub b a)).
Proof. intros ->. exact (to_plane_full (p0 :: p1 :: r) anchor u d _ p0 p1 n c eq_refl). Qed.
Theorem C47_parallel pts anchor u d p0 p1 r n : pts = p0 :: p1 :: r -> normal (last pts p0) p0 p1 = Some n ->
  (Rabs (vx (cross n u)) < 1 / 10000000000000 /\ Rabs (vy (cross n u)) < 1 / 10000000000000 /\ Rabs (vz (cross n u)) < 1 / 10000000000000) ->
  rotate_points_to_plane pts anchor u d = Ok (map (fun p => vsub p (anchor_used anchor)) pts, cross n u, 0).
Proof. intros ->. exact (to_plane_parallel (p0 :: p1 :: r) anchor u d _ p0 p1 n eq_refl). Qed.
Example C47_ex : exists n, last [o; ex; ey] o = ey /\ normal ey o ex = Some n /\ unit ex /\
  ~ (Rabs (vx (cross n ex)) < 1 / 10000000000000 /\ Rabs (vy (cross n ex)) < 1 / 10000000000000 /\ Rabs (vz (cross n ex)) < 1 / 10000000000000) /\
  (forall p, In p [o; ex; ey] -> dot n p = 0).
Proof.
  exists ez. split; auto. split; [rewrite <- normal_cycle; exact normal_xy|]. split; [apply ex_unit|]. split.
  - intros (_ & H & _). replace (vy (cross ez ex)) with 1 in H by (unfold ez, ex; cbn [vx vy vz cross]; lra). rewrite Rabs_R1 in H. lra.
  - intros p [<-|[<-|[<-|[]]]]; vcalc.
Qed.
Example C47_parallel_ex : exists n, last [o; ex; ey] o = ey /\ normal ey o ex = Some n /\
  (Rabs (vx (cross n ez)) < 1 / 10000000000000 /\ Rabs (vy (cross n ez)) < 1 / 10000000000000 /\ Rabs (vz (cross n ez)) < 1 / 10000000000000).
Proof.
  exists ez. split; auto. split; [rewrite <- normal_cycle; exact normal_xy|]. replace (cross ez ez) with vzero by (vcalc). cbn. rewrite Rabs_R0. lra.
Qed.
Print Assumptions C47_to_plane.
Print Assumptions C47_parallel.

(** C48: bounding boxes. *)
Theorem C48_bbox pts : pts <> [] -> exists lo hi, bounding_box pts = Ok (lo, hi) /\
  forall c, In c [vx; vy; vz] -> (forall p, In p pts -> c lo <= c p <= c hi) /\ (exists p, In p pts /\ c p = c lo) /\ (exists p, In p pts /\ c p = c hi).
Proof. exact (bbox_spec pts). Qed.
Theorem C48_bbox_empty : bounding_box [] = Err ValueError.
Proof. exact bbox_empty. Qed.
Theorem C48_inside_bbox pt pts atol : pts <> [] -> exists b, is_point_inside_bbox pt pts atol = Ok b /\
  (b = true <-> forall c, In c [vx; vy; vz] -> (exists p, In p pts /\ c p - atol <= c pt) /\ (exists p, In p pts /\ c pt <= c p + atol)).
Proof. exact (inside_bbox_spec pt pts atol). Qed.
Theorem C48_overlap b1 b2 : are_bboxes_overlapping b1 b2 = are_bboxes_overlapping b2 b1 /\
  ((exists p, in_bbox b1 p) -> (exists p, in_bbox b2 p) -> (are_bboxes_overlapping b1 b2 = true <-> exists p, in_bbox b1 p /\ in_bbox b2 p)).
Proof. exact (conj (overlap_sym b1 b2) (overlap_spec b1 b2)). Qed.
Example C48_ex : (exists p, in_bbox (o, V 1 1 1) p) /\ (exists p, in_bbox (V 2 0 0, V 3 1 1) p) /\ are_bboxes_overlapping (o, V 1 1 1) (V 2 0 0, V 3 1 1) = false.
Proof.
  repeat split; try (exists o; intros c [<-|[<-|[<-|[]]]]; cbn; lra); try (exists (V 2 0 0); intros c [<-|[<-|[<-|[]]]]; cbn; lra).
  unfold are_bboxes_overlapping. apply negb_false_iff, orb_true_iff. left. apply any_lt_true. exists vx. split; [left; auto|cbn; lra].
Qed.
Print Assumptions C48_bbox.
Print Assumptions C48_bbox_empty.
Print Assumptions C48_inside_bbox.
Print Assumptions C48_overlap.

(** C49: polygon edges. *)
Theorem C49_edges {P} (pts : list P) : pts <> [] -> exists es, polygon_edges pts = Ok es /\ length es = length pts /\
  forall i p q, nth_error pts i = Some p -> nth_error pts ((i + 1) mod length pts) = Some q -> nth_error es i = Some (p, q).
Proof. exact (edges_spec pts). Qed.
Theorem C49_edges_empty {P} : polygon_edges (@nil P) = Err IndexError.
Proof. exact eq_refl. Qed.
Example C49_ex : polygon_edges [10; 11; 12; 13]%nat = Ok [(10, 11); (11, 12); (12, 13); (13, 10)]%nat.
Proof. reflexivity. Qed.
Print Assumptions C49_edges.
Print Assumptions C49_edges_empty.

(** C50: polygon area. *)
Theorem C50_area_formula pts vn : (3 <= length pts)%nat -> polygon_area pts vn = Rabs (dot (vector_area2 pts) vn) / 2.
Proof. exact (polygon_area_eq pts vn). Qed.
Theorem C50_area_invariant l l' t k vn : rotation_of l l' -> polygon_area l vn = polygon_area l' vn /\ polygon_area (rev l) vn = polygon_area l vn /\
  polygon_area (map (fun p => vadd p t) l) vn = polygon_area l vn /\ polygon_area (map (smul k) l) vn = k * k * polygon_area l vn /\ 0 <= polygon_area l vn.
Proof. exact (fun H => conj (area_rot l l' vn H) (conj (area_rev l vn) (conj (area_shift l t vn) (conj (area_scale l k vn) (area_pos l vn))))). Qed.
Theorem C50_area_vector l : (3 <= length l)%nat -> vector_area2 l <> vzero -> polygon_area l (vdiv (vector_area2 l) (norm (vector_area2 l))) = norm (vector_area2 l) / 2.
Proof. exact (area_norm l). Qed.
Theorem C50_area_triangle a b c n : normal a b c = Some n -> polygon_area [a; b; c] n = true_area a b c.
Proof. exact (area_triangle a b c n). Qed.
Theorem C50_area_small pts vn : (length pts < 3)%nat -> polygon_area pts vn = 0.
Proof. exact (polygon_area_small pts vn). Qed.
Example C50_ex : rotation_of [o; ex; V 1 1 0; ey] [V 1 1 0; ey; o; ex] /\ polygon_area [o; ex; V 1 1 0; ey] ez = 1.
Proof.
  split; [exists [o; ex], [V 1 1 0; ey]; auto|]. rewrite polygon_area_eq by (simpl; lia). unfold vector_area2, cyc_pairs, cross, vadd, vzero, dot. cbn. rewrite Rabs_pos_eq; lra.
Qed.
Print Assumptions C50_area_formula.
Print Assumptions C50_area_invariant.
Print Assumptions C50_area_vector.
Print Assumptions C50_area_triangle.
Print Assumptions C50_area_small.

(** C54: distance to an edge. *)
Theorem C54_distance p p1 p2 : p1 <> p2 -> exists d, distance_point_to_edge p p1 p2 = Ok d /\
  (exists q, on_segment p1 p2 q /\ d = dist p q) /\ (forall q, on_segment p1 p2 q -> d <= dist p q).
Proof. exact (dist_edge_min p p1 p2). Qed.
Theorem C54_degenerate p p1 p2 : distance_point_to_edge p p1 p2 = Err ZeroDivisionError <-> p1 = p2.
Proof. exact (dist_edge_err p p1 p2). Qed.
Example C54_ex : o <> ex /\ on_segment o ex (V (1 / 2) 0 0).
Proof. split; [intros H; injection H; lra|]. exists (1 / 2). split; [lra|]. unfold seg_point; vcalc. Qed.
Print Assumptions C54_distance.
Print Assumptions C54_degenerate.

(** C55: points on segments. *)
Theorem C55_accepted p1 p2 q atol : 0 <= atol -> on_segment p1 p2 q -> is_point_on_segment q p1 p2 atol = true.
Proof. exact (on_segment_accepted p1 p2 q atol). Qed.
Theorem C55_sound p1 p2 q atol : 0 <= atol -> p1 <> p2 -> is_point_on_segment q p1 p2 atol = true ->
  near_point atol p1 q \/ near_point atol p2 q \/
  exists t, dist (seg_point p1 p2 t) q * dist p1 p2 <= atol * sqrt 3 /\ - (atol / (dist p1 p2 * dist p1 p2)) <= t <= 1 + atol / (dist p1 p2 * dist p1 p2).
Proof. exact (segment_sound p1 p2 q atol). Qed.
(** A point is in an array if it is close to one of its points in every
    coordinate. *)
Theorem C55_in_array p arr : is_point_in_array p arr = true <-> exists q, In q arr /\
  Rabs (vx p - vx q) <= 1 / 10000000000000 + 1 / 100000 * Rabs (vx q) /\ Rabs (vy p - vy q) <= 1 / 10000000000000 + 1 / 100000 * Rabs (vy q) /\ Rabs (vz p - vz q) <= 1 / 10000000000000 + 1 / 100000 * Rabs (vz q).
Proof. unfold is_point_in_array. rewrite existsb_exists. unfold points_equal, allclose, isclose, GEOM_ATOL, RTOL. setoid_rewrite andb_true_iff. setoid_rewrite andb_true_iff. setoid_rewrite Rleb_true. split; intros (q & I & H); exists q; tauto. Qed.
Example C55_ex : 0 <= GEOM_ATOL /\ o <> ex /\ is_point_on_segment (V (1 / 2) 0 0) o ex GEOM_ATOL = true.
Proof.
  split; [unfold GEOM_ATOL; lra|]. split; [apply C54_ex|]. apply C55_accepted; [unfold GEOM_ATOL; lra|apply C54_ex].
Qed.
Print Assumptions C55_accepted.
Print Assumptions C55_sound.
Print Assumptions C55_in_array.

(** C56: points between. *)
Theorem C56_between p1 p2 num : length (many_new_points p1 p2 num) = (num + 2)%nat /\
  nth_error (many_new_points p1 p2 num) 0 = Some p1 /\ nth_error (many_new_points p1 p2 num) (num + 1) = Some p2 /\
  (forall q, In q (many_new_points p1 p2 num) -> on_segment p1 p2 q) /\
  (forall i a b, nth_error (many_new_points p1 p2 num) i = Some a -> nth_error (many_new_points p1 p2 num) (i + 1) = Some b ->
     vsub b a = smul (/ INR (num + 1)) (vsub p2 p1)).
Proof. exact (many_points_spec p1 p2 num). Qed.
Theorem C56_one_between p1 p2 t : new_point_between p1 p2 t = seg_point p1 p2 t.
Proof. exact (new_point_seg p1 p2 t). Qed.
Example C56_ex : length (many_new_points o ex 3) = 5%nat /\ seg_point o ex 0 = o /\ seg_point o ex 1 = ex.
Proof. repeat split; unfold seg_point, vadd, smul, vsub, o, ex; cbn; f_equal; lra. Qed.
Print Assumptions C56_between.
Print Assumptions C56_one_between.

(** C57: coplanarity. *)
Theorem C57_accepted pts atol : 0 < atol -> coplanar pts -> are_points_coplanar pts atol = Ok true.
Proof. exact (coplanar_accepted pts atol). Qed.
Theorem C57_sound pts atol p0 : nth_error pts 0 = Some p0 -> (4 <= length pts)%nat -> are_points_coplanar pts atol = Ok true ->
  are_points_collinear pts atol = Ok true \/ thin_triples pts \/
  exists n, unit n /\ forall p, In p pts -> Rabs (dot n (vsub p p0)) < atol.
Proof. exact (coplanar_sound pts atol p0). Qed.
Theorem C57_total pts atol : exists b, are_points_coplanar pts atol = Ok b.
Proof. exact (coplanar_total pts atol). Qed.
(** Four points 1e-5 apart in three directions are accepted, though no plane
    passes within the tolerance of all of them. *)
Theorem C57_sound_refuted : ~ (forall pts, are_points_coplanar pts GEOM_ATOL = Ok true ->
  exists n c, unit n /\ forall p, In p pts -> Rabs (dot n p - c) < GEOM_ATOL).
Proof. exact (fun H => match H speck speck_accepted with ex_intro _ n (ex_intro _ c (conj U P)) => speck_not_planar n c U P end). Qed.
(** Collinearity: points of a line are recognised when they differ from the
    first; a repeated first point hides the line. *)
Theorem C57_collinear p0 v ks atol : 0 <= atol -> unit v -> (2 <= length ks)%nat -> (forall k, In k ks -> 1 / 1000000000000 < Rabs k) ->
  are_points_collinear (p0 :: map (fun k => vadd p0 (smul k v)) ks) atol = Ok true.
Proof. exact (collinear_accepted p0 v ks atol). Qed.
Theorem C57_collinear_repeated p0 p : 1 / 10 <= dist p0 p -> are_points_collinear [p0; p0; p] GEOM_ATOL = Ok false.
Proof. exact (collinear_repeated p0 p). Qed.
Example C57_ex : coplanar [o; ex; V 1 1 0; ey; V 3 4 0] /\ ~ coplanar [o; ex; ey; ez].
Proof.
  split.
  - exists ez, 0. split; [intros H; injection H; lra|]. intros p [<-|[<-|[<-|[<-|[<-|[]]]]]]; vcalc.
  - intros (n & c & N & H). pose proof (H o ltac:(simpl; auto)). pose proof (H ex ltac:(simpl; auto)). pose proof (H ey ltac:(simpl; auto)). pose proof (H ez ltac:(simpl; auto)).
    apply N. destruct n as (a1, a2, a3). unfold dot, vzero in *. cbn in *. f_equal; lra.
Qed.
Example C57_collinear_ex : unit ex /\ (forall k, In k [1; 2; -3] -> 1 / 1000000000000 < Rabs k) /\ 1 / 10 <= dist o ex.
Proof.
  split; [apply ex_unit|]. split.
  - intros k [<-|[<-|[<-|[]]]]; [rewrite Rabs_pos_eq; lra|rewrite Rabs_pos_eq; lra|rewrite Rabs_left; lra].
  - unfold dist. replace (vsub ex o) with ex by (vcalc). rewrite (unit_norm ex) by apply ex_unit. lra.
Qed.
Print Assumptions C57_accepted.
Print Assumptions C57_sound.
Print Assumptions C57_total.
Print Assumptions C57_sound_refuted.
Print Assumptions C57_collinear.
Print Assumptions C57_collinear_repeated.

(** C58: points in triangles. *)
Theorem C58_vertices p1 p2 p3 v : In v [p1; p2; p3] -> is_point_inside_triangle v p1 p2 p3 GEOM_ATOL = Ok true.
Proof. exact (inside_vertex p1 p2 p3 v). Qed.
Theorem C58_outside_box p1 p2 p3 q c : In c [vx; vy; vz] ->
  (forall v, In v [p1; p2; p3] -> c v + 1 / 100 < c q) \/ (forall v, In v [p1; p2; p3] -> c q < c v - 1 / 100) ->
  is_point_inside_triangle q p1 p2 p3 GEOM_ATOL = Ok false.
Proof. exact (inside_out_of_box p1 p2 p3 q c). Qed.
Theorem C58_total p1 p2 p3 q : 1 / 10000000000000 <= 2 * true_area p1 p2 p3 -> exists b, is_point_inside_triangle q p1 p2 p3 GEOM_ATOL = Ok b.
Proof. exact (inside_total p1 p2 p3 q). Qed.
Theorem C58_interior p1 p2 p3 q : 1 / 10000000000000 <= 2 * true_area p1 p2 p3 -> off_edges p1 p2 p3 q -> strictly_inside p1 p2 p3 q ->
  is_point_inside_triangle q p1 p2 p3 GEOM_ATOL = Ok true.
Proof. exact (inside_complete p1 p2 p3 q). Qed.
Theorem C58_exterior p1 p2 p3 q : in_plane_of p1 p2 p3 q -> off_edges p1 p2 p3 q -> far_from p1 q -> far_from p2 q -> far_from p3 q ->
  is_point_inside_triangle q p1 p2 p3 GEOM_ATOL = Ok true -> strictly_inside p1 p2 p3 q.
Proof. exact (inside_sound p1 p2 p3 q). Qed.
(** An interior point is rejected, a point outside is accepted. *)
Theorem C58_interior_refuted : exists p1 p2 p3 q, strictly_inside p1 p2 p3 q /\ is_point_inside_triangle q p1 p2 p3 GEOM_ATOL = Ok false.
Proof. exact (ex_intro _ tri_a (ex_intro _ tri_b (ex_intro _ tri_c (ex_intro _ pt_in (conj pt_in_inside pt_in_rejected))))). Qed.
Theorem C58_exterior_refuted : exists p1 p2 p3 q, is_point_inside_triangle q p1 p2 p3 GEOM_ATOL = Ok true /\
  forall a b c, 0 <= a -> 0 <= b -> 0 <= c -> a + b + c = 1 -> q <> bary p1 p2 p3 a b c.
Proof. exact (ex_intro _ tri_a (ex_intro _ tri_b (ex_intro _ tri_c (ex_intro _ pt_out (conj pt_out_accepted pt_out_outside))))). Qed.
Example C58_ex : let q := V (1 / 4) (1 / 4) 0 in
  1 / 10000000000000 <= 2 * true_area o ex ey /\ strictly_inside o ex ey q /\ in_plane_of o ex ey q /\ off_edges o ex ey q /\ far_from o q /\ far_from ex q /\ far_from ey q.
Proof.
  intros q. split; [rewrite area_xy; lra|]. assert (S : strictly_inside o ex ey q).
  { exists (1 / 2), (1 / 4), (1 / 4). repeat split; try lra. unfold q, bary; vcalc. }
  split; auto. split; [apply inside_in_plane; auto|].
  assert (B : forall a b lo hi, 0 <= lo -> 0 <= hi -> lo * lo <= dot (vsub b a) (vsub b a) <= hi * hi -> lo <= dist a b <= hi).
  { intros a b lo hi L H (X & Y). unfold dist, norm. rewrite <- (sqrt_Rsqr lo L), <- (sqrt_Rsqr hi H). split; apply sqrt_le_1_alt; unfold Rsqr; auto. }
  assert (T : forall a b c k, cross (vsub b a) (vsub c a) = smul k ez -> 0 <= k -> 2 * true_area a b c = k).
  { intros a b c k E K. unfold true_area. rewrite E, norm_smul, (unit_norm ez), Rabs_pos_eq by (auto; apply ex_unit). lra. }
  assert (T1 := T o ex q (1 / 4) ltac:(unfold q, bary; vcalc) ltac:(lra)).
  assert (T2 := T ex ey q (1 / 2) ltac:(unfold q, bary; vcalc) ltac:(lra)).
  assert (T3 := T ey o q (1 / 4) ltac:(unfold q, bary; vcalc) ltac:(lra)).
  assert (D1 := B o ex 1 1 ltac:(lra) ltac:(lra) ltac:(vcalc)). assert (D2 := B ex ey 1 2 ltac:(lra) ltac:(lra) ltac:(vcalc)).
  assert (D3 := B ey o 1 1 ltac:(lra) ltac:(lra) ltac:(vcalc)).
  assert (Q1 := B o q (1 / 3) 1 ltac:(lra) ltac:(lra) ltac:(unfold q, bary; vcalc)). assert (Q2 := B ex q (1 / 2) 1 ltac:(lra) ltac:(lra) ltac:(unfold q, bary; vcalc)).
  assert (Q3 := B ey q (1 / 2) 1 ltac:(lra) ltac:(lra) ltac:(unfold q, bary; vcalc)).
  assert (P : forall x y, 0 <= x <= 2 -> 0 <= y <= 1 -> 1 / 10000 * x * y <= 1 / 5000) by (intros; nra).
  assert (N0 : norm o = 0) by (apply norm_zero; reflexivity). assert (N1 : norm ex = 1) by (apply unit_norm, ex_unit). assert (N2 : norm ey = 1) by (apply unit_norm, ex_unit).
  pose proof (P (dist o ex) (dist o q) ltac:(lra) ltac:(lra)). pose proof (P (dist ex ey) (dist ex q) ltac:(lra) ltac:(lra)). pose proof (P (dist ey o) (dist ey q) ltac:(lra) ltac:(lra)).
  unfold off_edges, off_edge, far_from. rewrite T1, T2, T3, N0, N1, N2. repeat split; lra.
Qed.
Print Assumptions C58_vertices.
Print Assumptions C58_outside_box.
Print Assumptions C58_total.
Print Assumptions C58_interior.
Print Assumptions C58_exterior.
Print Assumptions C58_interior_refuted.
Print Assumptions C58_exterior_refuted.

(** C59: convex corners. *)
Theorem C59_sound p1 p2 p3 vn : is_corner_convex p1 p2 p3 vn GEOM_ATOL = Ok true ->
  1 / 10000000000000 <= norm (cross (vsub p2 p1) (vsub p3 p2)) /\ 9 / 10 * norm (cross (vsub p2 p1) (vsub p3 p2)) < dot (cross (vsub p2 p1) (vsub p3 p2)) vn.
Proof. exact (corner_convex_sound p1 p2 p3 vn). Qed.
Theorem C59_in_plane p1 p2 p3 vn k : unit vn -> cross (vsub p2 p1) (vsub p3 p2) = smul k vn ->
  (1 / 10000000000000 <= k -> is_corner_convex p1 p2 p3 vn GEOM_ATOL = Ok true) /\ (k < 1 / 10000000000000 -> is_corner_convex p1 p2 p3 vn GEOM_ATOL = Ok false).
Proof. exact (fun U E => conj (fun H => eq_trans (corner_convex_plane p1 p2 p3 vn k U E) (f_equal Ok (proj2 (Rleb_true _ _) H)))
  (fun H => eq_trans (corner_convex_plane p1 p2 p3 vn k U E) (f_equal Ok (proj2 (Rleb_false _ _) H)))). Qed.
Theorem C59_error p1 p2 p3 vn e : is_corner_convex p1 p2 p3 vn GEOM_ATOL = Err e <-> e = AssertionError /\ 1 / 10000000000000 <= Rabs (norm vn - 1).
Proof. exact (corner_convex_err p1 p2 p3 vn e). Qed.
(** After a corner has passed, testing points against it raises no error. *)
Theorem C59_then_inside p1 p2 p3 vn q : is_corner_convex p1 p2 p3 vn GEOM_ATOL = Ok true -> exists b, is_point_inside_triangle q p1 p2 p3 GEOM_ATOL = Ok b.
Proof. exact (convex_inside_total p1 p2 p3 vn q). Qed.
Example C59_ex : unit ez /\ cross (vsub ex o) (vsub (V 1 1 0) ex) = smul 1 ez /\ cross (vsub ex (V 1 1 0)) (vsub o ex) = smul (-1) ez.
Proof. split; [apply ex_unit|]. split; vcalc. Qed.
Print Assumptions C59_sound.
Print Assumptions C59_in_plane.
Print Assumptions C59_error.
Print Assumptions C59_then_inside.

(** C68: the polygon centroid is the weighted sum, not the weighted mean, so
    moving the polygon by t moves the result by (total area) * t. *)
Theorem C68_centroid pts tris ts : tris <> [] -> Forall2 (tri_verts pts) tris ts ->
  polygon_centroid pts tris = Ok (weighted_centroids triangle_area ts) /\
  forall t, polygon_centroid (map (fun p => vadd p t) pts) tris = Ok (vadd (weighted_centroids triangle_area ts) (smul (weight_sum triangle_area ts) t)).
Proof. exact (centroid_full pts tris ts). Qed.
Theorem C68_errors pts tris : polygon_centroid pts [] = Err AssertionError /\ ((exists t, In t tris /\ forall q, ~ tri_verts pts t q) -> forall c, polygon_centroid pts tris <> Ok c).
Proof. exact (centroid_err pts tris). Qed.
(** The 2 by 2 square at the origin gets a centroid with x >= 4. *)
Theorem C68_inside_refuted : exists c, polygon_centroid [V 0 0 0; V 2 0 0; V 2 2 0; V 0 2 0] [(0, 1, 2)%nat; (0, 2, 3)%nat] = Ok c /\ 4 <= vx c.
Proof. exact square2_centroid. Qed.
Example C68_ex : Forall2 (tri_verts [o; ex; V 1 1 0; ey]) [(0, 1, 2)%nat; (0, 2, 3)%nat] [(o, ex, V 1 1 0); (o, V 1 1 0, ey)].
Proof. repeat constructor. Qed.
Print Assumptions C68_centroid.
Print Assumptions C68_errors.
Print Assumptions C68_inside_refuted.

(** C73: angles. *)
Theorem C73_angle v1 v2 a : angle v1 v2 = Some a -> 0 <= a <= PI /\ cos a * (norm v1 * norm v2) = dot v1 v2.
Proof. exact (fun H => conj (angle_range v1 v2 a H) (angle_cos v1 v2 a H)). Qed.
Theorem C73_angle_invariant v1 v2 k : 0 < k -> angle v1 v2 = angle v2 v1 /\ angle (smul k v1) v2 = angle v1 v2.
Proof. exact (fun K => conj (angle_sym v1 v2) (angle_scale v1 v2 k K)). Qed.
Theorem C73_angle_parallel v k : v <> vzero -> 0 < k -> angle v (smul k v) = Some 0 /\ angle v (smul (- k) v) = Some PI.
Proof. exact (angle_parallel v k). Qed.
Theorem C73_angle_undefined v1 v2 : angle v1 v2 = None <-> v1 = vzero \/ v2 = vzero.
Proof. exact (angle_none v1 v2). Qed.
Example C73_ex : ex <> vzero /\ angle ex ey <> None.
Proof.
  assert (ex <> vzero /\ ey <> vzero) as (A & B) by (split; intros H; injection H; lra). split; auto. rewrite angle_none. tauto.
Qed.
Print Assumptions C73_angle.
Print Assumptions C73_angle_invariant.
Print Assumptions C73_angle_parallel.
Print Assumptions C73_angle_undefined.
