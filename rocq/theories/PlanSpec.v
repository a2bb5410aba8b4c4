(** Vocabulary for polygon orientation and floor plans. *)
From Coq Require Import Ascii String Reals List Bool Arith.
From Verif Require Import Prelude VecModel GeomModel GeomSpec SolidModel.
Import ListNotations.
Local Open Scope R_scope.

(** All points lie in the plane n.p = c. *)
Definition in_plane (n : vec) (c : R) (pts : list vec) : Prop := forall p, In p pts -> dot n p = c.
(** The corner a, b, c of a plane polygon is convex: it turns in the sense in
    which the whole polygon turns. *)
Definition convex_corner (pts : list vec) (a b c : vec) : Prop := 0 < dot (cross (vsub b a) (vsub c b)) (vector_area2 pts).
(** The corner at the first point, and the corner at the last point (which is
    the first one of the reversed list). *)
Definition first_convex (pts : list vec) : Prop :=
  match pts with p0 :: p1 :: _ => convex_corner pts (last pts p0) p0 p1 | _ => False end.
Definition last_convex (pts : list vec) : Prop := first_convex (rev pts).

(** Placing a plan in space: corners are turned around the z axis and moved;
    angles and moves of at most 1e-8 are ignored. *)
Definition turn_z (phi : R) (p : vec) : vec := V (cos phi * vx p - sin phi * vy p) (sin phi * vx p + cos phi * vy p) (vz p).
Definition place_turn (phi : R) (p : vec) : vec := if Rle_dec (Rabs phi) (1 / 100000000) then p else turn_z phi p.
Definition small_move (tr : vec) : Prop := Rabs (vx tr) <= 1 / 100000000 /\ Rabs (vy tr) <= 1 / 100000000 /\ Rabs (vz tr) <= 1 / 100000000.
Definition move_used (tr t : vec) : Prop := (small_move tr /\ t = vzero) \/ (~ small_move tr /\ t = tr).
Definition corners (plan : list (R * R)) (z : R) (t : vec) (phi : R) : list vec :=
  map (fun xy => vadd (place_turn phi (V (fst xy) (snd xy) z)) t) plan.
(** The plan drawn at height 0. *)
Definition drawn (plan : list (R * R)) : list vec := map (fun xy => V (fst xy) (snd xy) 0) plan.
(** The four corners of the wall over the edge (p, q) of the floor; [up] is the
    vector from floor to ceiling. *)
Definition wall_over (up : vec) (e : vec * vec) : list vec := [fst e; snd e; vadd (snd e) up; vadd (fst e) up].
(** Names of the polygons of a solid. *)
Definition polygon_names (ws : list wall_t) : list str := map (fun w => fst (snd w)) ws.
