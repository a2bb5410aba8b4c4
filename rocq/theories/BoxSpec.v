(** Vocabulary for rays in a box-shaped room. *)
From Coq Require Import Reals List Bool Arith.
From Verif Require Import Prelude VecModel SimModel GeomModel PolyModel SolidModel InsideSpec.
Import ListNotations.
Local Open Scope R_scope.

(** The polygons of the walls of a solid: corners and triangles. *)
Definition faces_of (ws : list wall_t) : list face := map (fun w => (p_pts (snd (snd w)), p_tri (snd (snd w)))) ws.
(** Strictly within the box with edges x, y, z and the corner mv. *)
Definition inside_box (x y z : R) (mv p : vec) : Prop :=
  vx mv < vx p < vx mv + x /\ vy mv < vy p < vy mv + y /\ vz mv < vz p < vz mv + z.
(** Close to one of the two bounds of a coordinate; close to an edge of the box. *)
Definition near_bound (lo len c : R) : Prop := Rabs (c - lo) < 1 / 100000 \/ Rabs (c - (lo + len)) < 1 / 100000.
Definition near_edge (x y z : R) (mv q : vec) : Prop :=
  (near_bound (vx mv) x (vx q) /\ near_bound (vy mv) y (vy q)) \/
  (near_bound (vx mv) x (vx q) /\ near_bound (vz mv) z (vz q)) \/
  (near_bound (vy mv) y (vy q) /\ near_bound (vz mv) z (vz q)).
(** No component of the velocity is tiny, except that it may be zero. *)
Definition no_tiny (v : vec) : Prop := forall c, In c [vx; vy; vz] -> c v = 0 \/ 1 / 1000 <= Rabs (c v).
(** All components of the velocity are at least 1/1000. *)
Definition oblique (v : vec) : Prop := forall c, In c [vx; vy; vz] -> 1 / 1000 <= Rabs (c v).
(** A box of moderate size and position. *)
Definition box_dims (x y z : R) (mv : vec) : Prop :=
  1 <= x <= 100 /\ 1 <= y <= 100 /\ 1 <= z <= 100 /\ Rabs (vx mv) <= 8000 /\ Rabs (vy mv) <= 8000 /\ Rabs (vz mv) <= 8000.
