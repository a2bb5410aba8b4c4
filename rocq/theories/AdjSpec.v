(** Vocabulary for adjacent solids. *)
From Coq Require Import Reals List Bool Arith.
From Verif Require Import Prelude VecModel GeomModel GeomSpec PolyModel SolidModel CrossSpec.
Import ListNotations.
Local Open Scope R_scope.

(** Corners, edges of positive length, valid triangles that are not minute. *)
Definition proper (p : polygon) : Prop := (3 <= length (p_pts p))%nat /\ good_mesh (p_pts p) (p_tri p) /\ real_edges (p_pts p).
(** Opposite normals, equal areas, the corners of one are corners of the other. *)
Definition faces (p q : polygon) : Prop :=
  allclose (p_vn p) (vopp (p_vn q)) GEOM_RTOL ATOL8 = true /\ incl (p_pts p) (p_pts q) /\
  isclose (polygon_area (p_pts p) (p_vn p)) (polygon_area (p_pts q) (p_vn q)) RTOL ATOL8 = true.
Definition crosses (p q : polygon) : Prop := are_polygons_crossing (p_pts p) (p_tri p) (p_pts q) (p_tri q) = Ok true.
(** The polygons of a solid. *)
Definition polys_of (ws : list wall_t) : list polygon := map (fun w => snd (snd w)) ws.
(** Two boxes with a common side: the second one starts where the first ends in
    one direction and has the same dimensions in the other two. *)
Definition side_by_side (x y z : R) (mv : vec) (x' y' z' : R) (mv' : vec) : Prop :=
  (mv' = vadd mv (V x 0 0) /\ y' = y /\ z' = z) \/ (mv' = vadd mv (V 0 y 0) /\ x' = x /\ z' = z) \/ (mv' = vadd mv (V 0 0 z) /\ x' = x /\ y' = y).
(** Strictly inside a box. *)
Definition deep_in (x y z : R) (mv p : vec) : Prop := vx mv < vx p < x + vx mv /\ vy mv < vy p < y + vy mv /\ vz mv < vz p < z + vz mv.
