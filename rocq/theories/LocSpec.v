(** Vocabulary for rooms and the points in them. *)
From Coq Require Import Ascii String Reals List ZArith Bool Arith.
From Verif Require Import Prelude TreeModel VecModel GeomModel GeomSpec TriModel PolyModel PolySpec SolidModel SolidSpec InsideSpec RoomSpec PlanSpec WindSpec LoopSpec ShellSpec HallSpec.
Import ListNotations.
Local Open Scope R_scope.

(** A box with its sizes and its lowest corner, or a hall over a floor plan with
    its height, its move and its turn. *)
Inductive room :=
| ABox (x y z : R) (mv : vec)
| AHall (plan : list (R * R)) (h : R) (t : vec) (phi : R).
(** The walls are those the code makes for the room. *)
Definition built (r : room) (ws : list wall_t) : Prop :=
  match r with
  | ABox x y z mv => box_fits x y z mv /\ exists name, validate_name name = Ok name /\ box x y z mv name = Ok ws
  | AHall plan h t phi => 0 < h /\ simple_outline (corners plan 0 t phi) /\ ok_faces (sides_of ws) /\
      exists tr name names fn cn rf rc, move_used tr t /\ floor_plan plan h tr phi name names fn cn rf rc = Ok ws
  end.
(** The point is in the room: between all sides of the box, or between floor and
    ceiling with the outline of the floor going round it. *)
Definition occupies (r : room) (q : vec) : Prop :=
  match r with
  | ABox x y z mv => vx mv < vx q < x + vx mv /\ vy mv < vy q < y + vy mv /\ vz mv < vz q < z + vz mv
  | AHall plan h t phi => vz t < vz q < vz t + h /\ winding ez (V 1 0 0) (foot (vz t) q) (corners plan 0 t phi) <> 0%Z
  end.
(** The point is off the sides of the room and, unless it is beyond the box or
    above or below the hall, its line of sight goes through no side near a rim. *)
Definition clear_view (r : room) (ws : list wall_t) (q : vec) : Prop :=
  match r with
  | ABox x y z mv => (vx q < vx mv \/ x + vx mv < vx q \/ vy q < vy mv \/ y + vy mv < vy q \/ vz q < vz mv \/ z + vz mv < vz q) \/
      (occupies r q /\ exists bs, seen_well q (box_sides x y z mv) bs)
  | AHall plan h t phi => (vz q < vz t \/ vz t + h < vz q) \/
      (vz t < vz q < vz t + h /\ ~ on_outline (corners plan 0 t phi) (foot (vz t) q) /\ (forall f n d, In (f, n, d) (sides_of ws) -> off_face q f n d) /\ exists bs, seen_well q (sides_of ws) bs)
  end.
