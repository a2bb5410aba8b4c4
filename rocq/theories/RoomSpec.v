(** Vocabulary for rays among polygons. *)
From Coq Require Import Reals ZArith List Bool Arith.
From Verif Require Import Prelude VecModel VoxModel VoxSpec SimModel GeomModel GeomSpec TriSpec PolyModel PolySpec CrossSpec InsideSpec.
Import ListNotations.
Local Open Scope R_scope.

(** The closed triangle and the union of the triangles of a face. *)
Definition in_triangle (a b c q : vec) : Prop := exists x y z, 0 <= x /\ 0 <= y /\ 0 <= z /\ x + y + z = 1 /\ q = bary a b c x y z.
Definition in_mesh (f : face) (q : vec) : Prop :=
  exists t a b c, In t (snd f) /\ tri_verts (fst f) t (a, b, c) /\ in_triangle a b c q.
(** The triangles tile the outline: they lie in the plane n.q + d = 0 and turn
    around n; every directed triangle edge is an edge of the outline or occurs
    in the other direction too; every edge of the outline is a triangle edge. *)
Definition tiled (f : face) (n : vec) (d : R) : Prop :=
  unit n /\ (forall q, In q (fst f) -> on_plane n d q) /\
  (forall t, In t (snd f) -> exists a b c, tri_verts (fst f) t (a, b, c) /\ 0 < dot n (cross (vsub b a) (vsub c a))) /\
  (forall i j, In (i, j) (tri_edges (snd f)) -> In (i, j) (cyc_pairs (seq 0 (length (fst f)))) \/ In (j, i) (tri_edges (snd f))) /\
  (forall e, In e (cyc_pairs (seq 0 (length (fst f)))) -> In e (tri_edges (snd f))).
(** The foot of the perpendicular on the plane. *)
Definition foot (n : vec) (d : R) (p : vec) : vec := vsub p (smul (dot n p + d) n).
(** A tiled polygon whose triangles, edges and first corner are not minute. *)
Definition sound_wall (f : face) (n : vec) (d : R) : Prop :=
  tiled f n d /\ good_mesh (fst f) (snd f) /\ real_edges (fst f) /\
  exists a b c r, fst f = a :: b :: c :: r /\ 1 / 100000000 < 2 * true_area (last (fst f) a) a b.
(** The face moved along the normal until its plane contains the point. *)
Definition raised (f : face) (n : vec) (d : R) (p : vec) : face := (map (fun q => vadd q (smul (dot n p + d) n)) (fst f), snd f).
(** The position of the foot is clear: well inside the polygon, or well outside. *)
Definition clear_foot (f : face) (n : vec) (d : R) (p : vec) : Prop := touches f (foot n d p) \/ clear_of (raised f n d p) p.
(** The normal at the first corner. *)
Definition first_normal_is (pts : list vec) (m : vec) : Prop := exists a b r, pts = a :: b :: r /\ normal (last pts a) a b = Some m.
(** The scene computed from the polygons as in the simulation: the normals are
    those at the first corner, the distances and the test for a hit (tolerance
    1/1000) are the code's, the target is the one found with the voxel grid. *)
Definition scene_of (polys : list face) (transparent : list nat) (order_of : list nat -> list nat) (s : R) (grid : dict (Z * Z * Z) (list nat)) (sc : scene) : Prop :=
  (forall pn f, nth_error polys pn = Some f -> first_normal_is (fst f) (pnormal sc pn) /\
     forall p, distance_point_to_polygon p (fst f) (snd f) (pnormal sc pn) = Ok (pdist sc p pn)) /\
  exists hit, (forall p v pn f, nth_error polys pn = Some f -> is_point_inside_projection p v (fst f) (snd f) true (1 / 1000) = Ok (hit p v pn)) /\
    forall p v, sim_target hit (pdist sc) order_of s grid transparent p v = Ok (target sc p v).
(** Polygons in a box, a voxel grid made for them, and their scene. *)
Definition room (polys : list face) (transparent : list nat) (order_of : list nat -> list nat) (mn mx : vec) (s e : R) (grid : dict (Z * Z * Z) (list nat)) (sc : scene) : Prop :=
  (forall l x, In x (order_of l) <-> In x l) /\ 0 < s /\ 0 <= e /\
  (forall f, In f polys -> fst f <> [] /\ forall p, In p (fst f) -> in_box mn mx p) /\
  make_voxel_grid mn mx (map fst polys) s e = Ok grid /\ scene_of polys transparent order_of s grid sc.
