(** Vocabulary for solids over a floor plan. *)
From Coq Require Import Ascii String Reals List Bool Arith.
From Verif Require Import Prelude VecModel GeomModel GeomSpec TriModel PolyModel SolidModel InsideSpec.
Import ListNotations.
Local Open Scope R_scope.

(** The polygons of a solid with their planes. *)
Definition sides_of (ws : list wall_t) : list (face * vec * R) :=
  map (fun w => let p := snd (snd w) in (p_pts p, p_tri p, p_vn p, - dot (p_vn p) (hd vzero (p_pts p)))) ws.
(** The point below or above q at height z. *)
Definition foot (z : R) (q : vec) : vec := V (vx q) (vy q) z.
