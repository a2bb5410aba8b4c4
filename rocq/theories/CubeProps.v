(** Segments crossing polygons, polygons crossing cubes, tetrahedra. *)
From Coq Require Import Reals List Bool Arith Lra.
From Verif Require Import Prelude VecModel VecProofs GeomModel GeomSpec GeomProofs1 PolyModel PolySpec CrossSpec InsideSpec InsideProofs3 RoomSpec RoomProofs2 RoomProofs3 RoomProofs4 CubeSpec CubeProofs.
Import ListNotations.
Local Open Scope R_scope.

(** C88: the test whether a segment crosses a sound polygon answers, and says
    yes exactly if the segment is not almost parallel to the plane and meets it
    in a point that is found inside the polygon ... *)
Theorem C88_exact f n d a b eps : sound_wall f n d -> 0 < eps -> exists r, is_segment_crossing_polygon a b (fst f) (snd f) eps = Ok r /\
  (r = true <-> eps <= Rabs (dot n (vsub b a)) /\ exists t, 0 <= t <= 1 /\ on_plane n d (along a b t) /\ is_point_inside (along a b t) (fst f) (snd f) true GEOM_ATOL = Ok true).
Proof. intros S. exact (segment_spec f n d a b eps (wall_planed f n d S)). Qed.
(** ... so it says yes if a point of the segment is well inside the polygon ... *)
Theorem C88_crosses f n d a b eps t : sound_wall f n d -> 0 < eps -> eps <= Rabs (dot n (vsub b a)) -> 0 <= t <= 1 -> touches f (along a b t) ->
  is_segment_crossing_polygon a b (fst f) (snd f) eps = Ok true.
Proof.
  intros S E0 L T Tc. pose proof (wall_flat f n d S) as F.
  exact (segment_hits f n d a b eps t (wall_planed f n d S) E0 L T (mesh_on_plane f n d _ (proj1 (proj2 F)) (touches_in_mesh f n d _ F Tc)) Tc).
Qed.
(** ... and no if all points of the segment on the plane are well outside ... *)
Theorem C88_misses f n d a b eps : sound_wall f n d -> 0 < eps -> (forall t, 0 <= t <= 1 -> on_plane n d (along a b t) -> clear_of f (along a b t)) ->
  is_segment_crossing_polygon a b (fst f) (snd f) eps = Ok false.
Proof. intros S. exact (segment_misses f n d a b eps (wall_planed f n d S)). Qed.
(** ... in either direction ... *)
Theorem C88_reverse f n d a b eps : sound_wall f n d -> 0 < eps -> is_segment_crossing_polygon b a (fst f) (snd f) eps = is_segment_crossing_polygon a b (fst f) (snd f) eps.
Proof. intros S. exact (segment_reverse f n d a b eps (wall_planed f n d S)). Qed.
(** ... and no for every segment within the plane, even one within the polygon. *)
Theorem C88_within_plane f n d a b eps : sound_wall f n d -> 0 < eps -> on_plane n d a -> on_plane n d b -> is_segment_crossing_polygon a b (fst f) (snd f) eps = Ok false.
Proof. intros S. exact (segment_in_plane f n d a b eps (wall_planed f n d S)). Qed.
Example C88_instances : sound_wall floor_tri (V 0 0 1) 0 /\ 1 / 10000000000 <= Rabs (dot (V 0 0 1) (vsub (V 1 1 2) (V 1 1 (-2)))) /\ touches floor_tri (along (V 1 1 (-2)) (V 1 1 2) (1 / 2)) /\
  (forall t, 0 <= t <= 1 -> on_plane (V 0 0 1) 0 (along (V 9 1 (-2)) (V 9 1 2) t) -> clear_of floor_tri (along (V 9 1 (-2)) (V 9 1 2) t)) /\
  on_plane (V 0 0 1) 0 (V 1 1 0) /\ on_plane (V 0 0 1) 0 (V 1 2 0).
Proof.
  split; [exact floor_sound|]. split; [vunf; rewrite Rabs_pos_eq; lra|]. split; [replace (along (V 1 1 (-2)) (V 1 1 2) (1 / 2)) with (V 1 1 0) by (unfold along; vunf; f_equal; lra); exact floor_within|].
  split; [intros t _ _; left; exists vx; split; [cbn; auto|]; left; intros v [<-|[<-|[<-|[]]]]; unfold along; vunf; lra|]. unfold on_plane. vunf. lra.
Qed.
Print Assumptions C88_exact.
Print Assumptions C88_crosses.
Print Assumptions C88_misses.
Print Assumptions C88_reverse.
Print Assumptions C88_within_plane.

(** C89: cube_edges lists the pairs of corners that differ in one coordinate,
    each in one direction ... *)
Theorem C89_edges lo hi u w : (forall c, In c [vx; vy; vz] -> c lo < c hi) ->
  (In (u, w) (cube_edges lo hi) \/ In (w, u) (cube_edges lo hi) <-> corner lo hi u /\ corner lo hi w /\ one_apart u w) /\ length (cube_edges lo hi) = 12%nat.
Proof.
  intros L. split; [|reflexivity]. split; [|intros (U & W & O); exact (cube_edges_spec lo hi u w L U W O)].
  assert (Sy : forall a b, one_apart a b -> one_apart b a) by (unfold one_apart; intros a b [(A & B & C)|[(A & B & C)|(A & B & C)]]; [left|right; left|right; right]; auto).
  intros [I|I]; destruct (cube_edges_only lo hi _ _ L I) as (A & B & O); auto.
Qed.
(** ... cube_polygons the six sides, each one the loop of its four corners ... *)
Theorem C89_sides lo hi : (forall c, In c [vx; vy; vz] -> c lo < c hi) -> length (cube_polygons lo hi) = 6%nat /\
  (forall c b, In c [vx; vy; vz] -> (b = c lo \/ b = c hi) -> exists l, In l (cube_polygons lo hi) /\ length l = 4%nat /\ forall p, In p l <-> corner lo hi p /\ c p = b) /\
  (forall l e, In l (cube_polygons lo hi) -> In e (cyc_pairs l) -> one_apart (fst e) (snd e)).
Proof. intros L. split; [reflexivity|]. split; [exact (cube_sides_spec lo hi)|]. intros l e. exact (cube_sides_loop lo hi l e L). Qed.
(** ... is_polygon_crossing_cube says yes exactly if a corner of the polygon is
    in the cube, or 1/1000 outside, or an edge of a triangle crosses a side, or an
    edge of the cube crosses the polygon ... *)
Theorem C89_exact f n d lo hi : sound_wall f n d -> proper_cube lo hi -> exists r, is_polygon_crossing_cube (fst f) (snd f) lo hi = Ok r /\
  (r = true <-> (exists p, In p (fst f) /\ about_in_cube lo hi p) \/
    (exists u w l, mesh_edge f u w /\ In l (cube_polygons lo hi) /\ is_segment_crossing_polygon u w (fst (cube_side l)) (snd (cube_side l)) (1 / 10000000000) = Ok true) \/
    (exists u w, In (u, w) (cube_edges lo hi) /\ is_segment_crossing_polygon u w (fst f) (snd f) (1 / 10000000000) = Ok true)).
Proof. intros S. exact (cube_test f n d lo hi (wall_planed f n d S)). Qed.
(** ... in particular if an edge of the cube passes well through the polygon ... *)
Theorem C89_pierced f n d lo hi u w t : sound_wall f n d -> proper_cube lo hi -> corner lo hi u -> corner lo hi w -> one_apart u w -> 0 <= t <= 1 -> touches f (along u w t) ->
  1 / 10000000000 <= Rabs (dot n (vsub w u)) -> is_polygon_crossing_cube (fst f) (snd f) lo hi = Ok true.
Proof.
  intros S C Cu Cw O T Tc. pose proof (wall_flat f n d S) as F.
  exact (cube_pierces f n d lo hi u w t (wall_planed f n d S) C Cu Cw O T (mesh_on_plane f n d _ (proj1 (proj2 F)) (touches_in_mesh f n d _ F Tc)) Tc).
Qed.
(** ... or an edge of a triangle well through a side of the cube ... *)
Theorem C89_entered f n d lo hi c l u w t : sound_wall f n d -> proper_cube lo hi -> mesh_edge f u w -> In l (cube_polygons lo hi) -> In c [vx; vy; vz] -> (forall p q, In p l -> In q l -> c p = c q) ->
  0 <= t <= 1 -> touches (cube_side l) (along u w t) -> 1 / 10000000000 <= Rabs (c w - c u) -> is_polygon_crossing_cube (fst f) (snd f) lo hi = Ok true.
Proof. intros S. exact (cube_enters f n d lo hi c l u w t (wall_planed f n d S)). Qed.
(** ... and no if one coordinate keeps the two 1/100 apart. *)
Theorem C89_apart f n d lo hi : sound_wall f n d -> proper_cube lo hi -> apart (fst f) lo hi -> is_polygon_crossing_cube (fst f) (snd f) lo hi = Ok false.
Proof. intros S. exact (cube_apart f n d lo hi (wall_planed f n d S)). Qed.
Example C89_instances : sound_wall floor_tri (V 0 0 1) 0 /\
  (proper_cube (V (1 / 2) (1 / 2) (-1)) (V 1 1 1) /\ corner (V (1 / 2) (1 / 2) (-1)) (V 1 1 1) (V 1 1 (-1)) /\ corner (V (1 / 2) (1 / 2) (-1)) (V 1 1 1) (V 1 1 1) /\ one_apart (V 1 1 (-1)) (V 1 1 1) /\
   touches floor_tri (along (V 1 1 (-1)) (V 1 1 1) (1 / 2)) /\ 1 / 10000000000 <= Rabs (dot (V 0 0 1) (vsub (V 1 1 1) (V 1 1 (-1))))) /\
  (proper_cube (V 1 (-1) (-2)) (V 2 1 1) /\ mesh_edge floor_tri (V 0 0 0) (V 4 0 0) /\ In [V 1 (-1) (-2); V 1 1 (-2); V 1 1 1; V 1 (-1) 1] (cube_polygons (V 1 (-1) (-2)) (V 2 1 1)) /\
   touches (cube_side [V 1 (-1) (-2); V 1 1 (-2); V 1 1 1; V 1 (-1) 1]) (along (V 0 0 0) (V 4 0 0) (1 / 4))) /\
  (proper_cube (V 9 0 0) (V 10 1 1) /\ apart (fst floor_tri) (V 9 0 0) (V 10 1 1)).
Proof.
  split; [exact floor_sound|]. split; [|split].
  - split; [intros c [<-|[<-|[<-|[]]]]; cbn [vx vy vz]; lra|]. split; [intros c [<-|[<-|[<-|[]]]]; cbn [vx vy vz]; lra|]. split; [intros c [<-|[<-|[<-|[]]]]; cbn [vx vy vz]; lra|]. split; [right; right; cbn [vx vy vz]; split; [auto|split; [auto|lra]]|].
    split; [replace (along _ _ _) with (V 1 1 0) by (unfold along; vunf; f_equal; lra); exact floor_within|vunf; rewrite Rabs_pos_eq; lra].
  - split; [intros c [<-|[<-|[<-|[]]]]; cbn [vx vy vz]; lra|]. split; [exists (2, 0, 1)%nat, (V 0 4 0), (V 0 0 0), (V 4 0 0); split; [simpl; auto|]; split; [split; [reflexivity|split; reflexivity]|simpl; auto]|]. split; [right; right; left; reflexivity|].
    replace (along _ _ _) with (V 1 0 0) by (unfold along; vunf; f_equal; lra). left. exists (0, 2, 3)%nat, (V 1 (-1) (-2)), (V 1 1 1), (V 1 (-1) 1). split; [simpl; auto|]. split; [split; [reflexivity|split; reflexivity]|]. split.
    + exists (1 / 3), (1 / 2), (1 / 6). unfold bary. repeat (split; [lra|]). vunf. f_equal; lra.
    + split; [|split]; apply off_edge_sq; vunf; lra.
  - split; [intros c [<-|[<-|[<-|[]]]]; cbn [vx vy vz]; lra|]. exists vx. split; [cbn; auto|]. right. intros p [<-|[<-|[<-|[]]]]; cbn [vx]; lra.
Qed.
Print Assumptions C89_edges.
Print Assumptions C89_sides.
Print Assumptions C89_exact.
Print Assumptions C89_pierced.
Print Assumptions C89_entered.
Print Assumptions C89_apart.

(** C44: the centroid is the point from which the four corners balance. *)
Theorem C44_centroid p0 p1 p2 p3 g : tetrahedron_centroid p0 p1 p2 p3 = g <-> vadd (vadd (vsub p0 g) (vsub p1 g)) (vadd (vsub p2 g) (vsub p3 g)) = vzero.
Proof. exact (centroid_spec p0 p1 p2 p3 g). Qed.
Example C44_centroid_ex : tetrahedron_centroid (V 0 0 0) (V 4 0 0) (V 0 4 0) (V 0 0 4) = V 1 1 1.
Proof. apply C44_centroid. vunf. f_equal; lra. Qed.
Print Assumptions C44_centroid.
