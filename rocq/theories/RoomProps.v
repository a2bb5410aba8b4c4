(** Distances to walls, and rays among walls. *)
From Coq Require Import Reals ZArith List Bool Arith Lra.
From Verif Require Import Prelude VecModel SimModel SimSpec VoxModel VoxSpec GeomModel GeomSpec GeomProofs5 TriSpec PolyModel PolySpec PlanSpec CrossSpec InsideSpec RoomSpec RoomProofs1 RoomProofs2 RoomProofs3 RoomProofs4 RoomProofs5 InsideProofs3.
Import ListNotations.
Local Open Scope R_scope.

(** C82: polygons the code makes of points of a plane are sound walls ... *)
Theorem C82_made pts p n c : make_polygon pts None None = Ok p -> unit n -> in_plane n c pts -> p_plane p <> None ->
  exists m d, (m = n \/ m = vopp n) /\ m = p_vn p /\ sound_wall (p_pts p, p_tri p) m d.
Proof. exact (made_wall pts p n c). Qed.
(** ... a path that leaves a tiled polygon within its plane crosses the outline ... *)
Theorem C82_leaving_crosses_outline f n d q w : tiled f n d -> in_mesh f q -> on_plane n d w -> ~ in_mesh f w ->
  exists m, 0 <= m <= 1 /\ on_outline (fst f) (vadd q (smul m (vsub w q))).
Proof. exact (exit_outline f n d q w). Qed.
(** ... the distance to a sound wall is defined ... *)
Theorem C82_total f n d m p : sound_wall f n d -> first_normal_is (fst f) m -> exists r, distance_point_to_polygon p (fst f) (snd f) m = Ok r.
Proof. exact (distance_total f n d m p). Qed.
(** ... and is the least distance to a point of the polygon, if the foot of the
    perpendicular is clearly inside or clearly outside ... *)
Theorem C82_true_distance f n d m p : sound_wall f n d -> first_normal_is (fst f) m -> clear_foot f n d p ->
  exists r, distance_point_to_polygon p (fst f) (snd f) m = Ok r /\ distance_to (in_mesh f) p r.
Proof. exact (true_distance f n d m p). Qed.
(** ... but far from the origin it is 0 for points clearly beside the polygon. *)
Theorem C82_far_refuted : exists f n d m p, sound_wall f n d /\ first_normal_is (fst f) m /\
  distance_point_to_polygon p (fst f) (snd f) m = Ok 0 /\ forall q, in_mesh f q -> 9 / 1000 <= dist p q.
Proof. exact far_refuted. Qed.
Example C82_instances : sound_wall floor_tri (V 0 0 1) 0 /\ (exists m, first_normal_is (fst floor_tri) m) /\
  clear_foot floor_tri (V 0 0 1) 0 (V 1 1 5) /\ clear_foot floor_tri (V 0 0 1) 0 (V 9 9 3).
Proof.
  split; [exact floor_sound|]. split; [exact (wall_normal _ _ _ floor_sound)|]. split; [|exact floor_beyond].
  left. rewrite foot_down. exact floor_within.
Qed.
Example C82_leaving_instance : tiled floor_tri (V 0 0 1) 0 /\ in_mesh floor_tri (V 1 1 0) /\ on_plane (V 0 0 1) 0 (V 9 9 0) /\ ~ in_mesh floor_tri (V 9 9 0).
Proof.
  split; [exact (proj1 floor_sound)|]. split; [exact (touches_in_mesh _ _ _ _ (wall_flat _ _ _ floor_sound) floor_within)|]. split; [unfold on_plane, dot; cbn [vx vy vz]; ring|].
  apply (clear_not_in_mesh _ (V 0 0 1) 0 _ (wall_flat _ _ _ floor_sound)). left. exists vx. split; [simpl; auto|]. left. intros v [<-|[<-|[<-|[]]]]; cbn [vx]; lra.
Qed.
Print Assumptions C82_made.
Print Assumptions C82_leaving_crosses_outline.
Print Assumptions C82_total.
Print Assumptions C82_true_distance.
Print Assumptions C82_far_refuted.

(** C83: for sound walls the scene of the simulation is defined ... *)
Theorem C83_scene_exists polys transparent order_of s grid sc0 : (forall l x, In x (order_of l) <-> In x l) -> (forall f, In f polys -> exists n d, sound_wall f n d) ->
  exists sc, scene_of polys transparent order_of s grid sc /\ surf sc = surf sc0 /\ bbmin sc = bbmin sc0 /\ bbmax sc = bbmax sc0 /\ absorbers sc = absorbers sc0 /\
    radius sc = radius sc0 /\ eps sc = eps sc0 /\ dt sc = dt sc0 /\ speed sc = speed sc0.
Proof. exact (scene_exists polys transparent order_of s grid sc0). Qed.
(** ... and no ray passes, between two rows of the position buffer, through a
    clearly interior point of a sound wall that is not transparent, unless it
    moves almost within the plane of the wall, or stands over a spot of the wall
    that is not clear. *)
Theorem C83_no_wall_crossed polys transparent order_of mn mx s e grid sc fuel num pos vel en hits b :
  room polys transparent order_of mn mx s e grid sc -> 0 <= eps sc -> 0 < dt sc -> 0 < speed sc * dt sc <= s ->
  length vel = length pos -> length en = length pos -> length hits = length (absorbers sc) -> (forall v, In v vel -> norm v = speed sc) ->
  simulation_loop sc fuel num pos vel en hits = Ok b ->
  forall i k p p' pn f n d t, cell (b_pos b) i k p -> cell (b_pos b) (S i) k p' ->
  nth_error polys pn = Some f -> ~ In pn transparent -> sound_wall f n d -> 0 <= t <= 1 ->
  dt sc / 1000 <= Rabs (dot n (vsub p' p)) -> (touches f (foot n d p) \/ ~ in_mesh f (foot n d p)) -> ~ touches f (vadd p (smul t (vsub p' p))).
Proof.
  intros Rm Ep D0 Sp Lv Le Lh Nv E i k p p' pn f n d t C C' N NT S T Gr Ft Tc.
  exact (walls_hold polys transparent order_of mn mx s e grid sc Rm fuel num pos vel en hits b Ep Lv Le Lh Nv E D0 Sp i k p p' pn f n d t C C' N NT S T Tc Gr Ft).
Qed.
(** ... without "clearly" it is false: a ray passes through an interior point of
    a wall. *)
Theorem C83_interior_refuted : exists f n d grid sc b p p', sound_wall f n d /\ room [f] [] (fun l => l) (V (-1) (-1) (-1)) (V 1 1 1) 1 (1 / 1000) grid sc /\
  0 < dt sc /\ 0 < speed sc * dt sc <= 1 /\ 0 <= eps sc /\ norm (V 0 0 (-1)) = speed sc /\
  simulation_loop sc 5 1 [p] [V 0 0 (-1)] [1] [] = Ok b /\ b_pos b = [[p]; [p']] /\
  exists x y z, fst f = [y; z; x] /\ strictly_inside x y z (vadd p (smul (1 / 2) (vsub p' p))).
Proof. exact interior_crossed. Qed.
(** A ray falls on a floor, is reflected and rises. *)
Example C83_instance : exists grid sc, room [floor_tri] [] (fun l => l) vzero (V 4 4 4) 1 (1 / 1000) grid sc /\ 0 < dt sc /\ 0 < speed sc * dt sc <= 1 /\ 0 <= eps sc /\
  (forall v, In v [V 0 0 (-1)] -> norm v = speed sc) /\
  simulation_loop sc 5 2 [V 1 1 (1 / 2)] [V 0 0 (-1)] [1] [] = Ok (mkBuf [[V 1 1 (1 / 2)]; [V 1 1 (1 / 4)]; [V 1 1 (1 / 2)]] [[1]; [1]; [9 / 10]] [[]; []; []]) /\
  forall z, touches floor_tri (foot (V 0 0 1) 0 (V 1 1 z)).
Proof. destruct floor_room as (grid & sc & H). exists grid, sc. destruct H as (H1 & H2 & H3 & H4 & H5 & H6). do 5 (split; [assumption|]). split; [exact H6|]. intros z. rewrite foot_down. exact floor_within. Qed.
Print Assumptions C83_scene_exists.
Print Assumptions C83_no_wall_crossed.
Print Assumptions C83_interior_refuted.

(** C84: a polygon that was constructed has an interior point: a point inside
    its first triangle, which is not degenerate ... *)
Theorem C84_interior_point pts p : make_polygon pts None None = Ok p -> exists t r a b c q, p_tri p = t :: r /\ tri_verts (p_pts p) t (a, b, c) /\
  1 / 10000000000000 <= 2 * true_area a b c /\ some_interior_point p = Ok q /\ strictly_inside a b c q.
Proof. exact (interior_point pts p). Qed.
(** ... which the polygon contains if it is well off the edges of the triangle ... *)
Theorem C84_contained pts p n c0 t r a b c q : make_polygon pts None None = Ok p -> unit n -> in_plane n c0 pts -> p_tri p = t :: r -> tri_verts (p_pts p) t (a, b, c) ->
  some_interior_point p = Ok q -> off_edges a b c q -> is_point_inside q (p_pts p) (p_tri p) true GEOM_ATOL = Ok true.
Proof. exact (interior_accepted pts p n c0 t r a b c q). Qed.
(** ... but not always ... *)
Theorem C84_contained_refuted : exists pts p q, make_polygon pts None None = Ok p /\ some_interior_point p = Ok q /\ is_point_inside q (p_pts p) (p_tri p) true GEOM_ATOL = Ok false.
Proof. exact needle_refuted. Qed.
(** ... triangles that are given are kept, with the points in their order; an
    empty list of triangles is rejected. *)
Theorem C84_given_triangles pts ts vn0 p : make_polygon pts (Some ts) vn0 = Ok p -> p_pts p = pts /\ p_tri p = ts /\ ts <> [].
Proof. exact (given_triangles pts ts vn0 p). Qed.
Theorem C84_no_triangles pts ts vn0 p : make_polygon pts (Some ts) vn0 = Ok p -> make_polygon pts (Some []) vn0 = Err AssertionError.
Proof. exact (no_triangles pts ts vn0 p). Qed.
Example C84_instance : exists p q, make_polygon [V 0 0 0; V 3 0 0; V 0 3 0] None None = Ok p /\ unit (V 0 0 1) /\ in_plane (V 0 0 1) 0 [V 0 0 0; V 3 0 0; V 0 3 0] /\
  p_tri p = [(2, 0, 1)%nat] /\ tri_verts (p_pts p) (2, 0, 1)%nat (V 0 3 0, V 0 0 0, V 3 0 0) /\ some_interior_point p = Ok q /\ off_edges (V 0 3 0) (V 0 0 0) (V 3 0 0) q.
Proof.
  destruct (tri_make (V 0 0 0) (V 3 0 0) (V 0 3 0) (V 0 0 1) 9) as (p & E & P & T); [unfold unit, dot; cbn [vx vy vz]; ring|unfold cross, vsub, smul; cbn [vx vy vz]; f_equal; ring|lra|].
  exists p, (V 1 1 0). split; [exact E|]. split; [unfold unit, dot; cbn [vx vy vz]; ring|]. split; [intros v [<-|[<-|[<-|[]]]]; unfold dot; cbn [vx vy vz]; ring|]. split; [exact T|]. rewrite P. split; [repeat split|]. split.
  - unfold some_interior_point. rewrite P, T. unfold tri_pts. cbn [nth_error rbind]. unfold triangle_centroid, vadd, vdiv. cbn [vx vy vz]. do 2 f_equal; lra.
  - split; [|split]; apply off_edge_sq; unfold cross, vsub, dot; cbn [vx vy vz]; lra.
Qed.
Example C84_given_instance : exists p, make_polygon [V 0 0 0; V 3 0 0; V 0 3 0] (Some [(0, 1, 2)%nat]) (Some (V 0 0 1)) = Ok p.
Proof. unfold make_polygon, check_polygon, build_polygon. cbn. eexists. reflexivity. Qed.
Print Assumptions C84_interior_point.
Print Assumptions C84_contained.
Print Assumptions C84_contained_refuted.
Print Assumptions C84_given_triangles.
Print Assumptions C84_no_triangles.
