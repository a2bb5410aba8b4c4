(** Vocabulary for segments, cubes and tetrahedra. *)
From Coq Require Import Reals List Bool Arith.
From Verif Require Import Prelude VecModel GeomModel GeomSpec PolyModel PolySpec CrossSpec InsideSpec.
Import ListNotations.
Local Open Scope R_scope.

Definition along (a b : vec) (t : R) : vec := vadd a (smul t (vsub b a)).
(** Corners of the cube between lo and hi; pairs that differ in one coordinate. *)
Definition corner (lo hi p : vec) : Prop := forall c, In c [vx; vy; vz] -> c p = c lo \/ c p = c hi.
Definition one_apart (u w : vec) : Prop :=
  (vx u <> vx w /\ vy u = vy w /\ vz u = vz w) \/ (vx u = vx w /\ vy u <> vy w /\ vz u = vz w) \/ (vx u = vx w /\ vy u = vy w /\ vz u <> vz w).
(** The cube is longer than 1/1000 in all directions. *)
Definition proper_cube (lo hi : vec) : Prop := forall c, In c [vx; vy; vz] -> c lo + 1 / 1000 <= c hi.
(** Within the cube or at most 1/1000 outside. *)
Definition about_in_cube (lo hi p : vec) : Prop := forall c, In c [vx; vy; vz] -> c lo - 1 / 1000 <= c p <= c hi + 1 / 1000.
(** One coordinate keeps the points and the cube 1/100 apart. *)
Definition apart (pts : list vec) (lo hi : vec) : Prop :=
  exists c, In c [vx; vy; vz] /\ ((forall p, In p pts -> c hi + 1 / 100 < c p) \/ (forall p, In p pts -> c p < c lo - 1 / 100)).
(** An edge of a triangle of the polygon. *)
Definition mesh_edge (f : face) (u w : vec) : Prop :=
  exists t a b c, In t (snd f) /\ tri_verts (fst f) t (a, b, c) /\ In (u, w) [(a, b); (b, c); (c, a)].
(** The sides of the cube with their two triangles. *)
Definition cube_side (l : list vec) : face := (l, [(0, 1, 2); (0, 2, 3)]%nat).
