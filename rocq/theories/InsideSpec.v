(** Vocabulary for points in solids. *)
From Coq Require Import Reals List Bool Arith.
From Verif Require Import Prelude VecModel GeomModel GeomSpec PolyModel PolySpec CrossSpec.
Import ListNotations.
Local Open Scope R_scope.

(** The line of sight used to decide whether a point is in a solid. *)
Definition sight : vec := V 739 239 113.
Definition ray (p : vec) (t : R) : vec := vadd p (smul t sight).
(** A face: corners and triangles. The plane n.q + d = 0 contains it, the line
    of sight is not parallel to it, its triangles and its first two corners are
    not minute. *)
Definition face : Type := list vec * list tri.
Definition sound_face (f : face) (n : vec) (d : R) : Prop :=
  unit n /\ (forall q, In q (fst f) -> on_plane n d q) /\ good_mesh (fst f) (snd f) /\ 1 / 1000 <= Rabs (dot n sight) /\
  exists a b c r, fst f = a :: b :: c :: r /\
    1 / 100000000 < 2 * true_area (last (fst f) a) a b /\ 1 / 100000000 < 2 * true_area a b c /\ off_edge a b c.
(** Well inside one of the triangles. *)
Definition within (f : face) (q : vec) : Prop :=
  exists t a b c, In t (snd f) /\ tri_verts (fst f) t (a, b, c) /\ strictly_inside a b c q /\ off_edges a b c q.
(** On the segment between two points, away from the first. *)
Definition between (a b q : vec) : Prop := exists k, 0 < k < 1 /\ q = vadd a (smul k (vsub b a)) /\ 1 / 100000000000 < dist a q.
(** On an edge of one of the triangles, well off the edges listed before it. *)
Definition on_rim (f : face) (q : vec) : Prop :=
  exists t a b c, In t (snd f) /\ tri_verts (fst f) t (a, b, c) /\
    (between a b q \/ (off_edge a b q /\ between b c q) \/ (off_edge a b q /\ off_edge b c q /\ between c a q)).
Definition touches (f : face) (q : vec) : Prop := within f q \/ on_rim f q.
(** More than 1/100 beyond the extent of the points in one coordinate. *)
Definition beyond (l : list vec) (q : vec) : Prop :=
  exists c, In c [vx; vy; vz] /\ ((forall v, In v l -> c v + 1 / 100 < c q) \/ (forall v, In v l -> c q < c v - 1 / 100)).
(** Well outside the face or all its triangles. *)
Definition clear_of (f : face) (q : vec) : Prop :=
  beyond (fst f) q \/
  forall t a b c, In t (snd f) -> tri_verts (fst f) t (a, b, c) ->
    beyond [a; b; c] q \/ (off_edges a b c q /\ far_from a q /\ far_from b q /\ far_from c q /\ ~ strictly_inside a b c q).
(** The line of sight meets the face, or its plane only behind p or well outside
    the face. *)
Definition ray_meets (p : vec) (f : face) (n : vec) (d : R) : Prop := exists t, 0 <= t /\ on_plane n d (ray p t) /\ touches f (ray p t).
Definition ray_passes (p : vec) (f : face) (n : vec) (d : R) : Prop := exists t, on_plane n d (ray p t) /\ (t < 0 \/ clear_of f (ray p t)).
(** Not on the face. *)
Definition off_face (p : vec) (f : face) (n : vec) (d : R) : Prop :=
  1 / 10000000000000 <= Rabs (dot n p + d) \/ beyond (fst f) p \/ (on_plane n d p /\ clear_of f p).
(** Between the extreme corners in every coordinate. *)
Definition in_extent (l : list vec) (p : vec) : Prop := forall c, In c [vx; vy; vz] -> (exists a, In a l /\ c a <= c p) /\ (exists a, In a l /\ c p <= c a).
Definition hits (l : list bool) : nat := length (filter (fun b => b) l).
(** The triangles of a face with four corners. *)
Definition quad_triangles (l : list vec) : list (vec * vec * vec) := match l with [a; b; c; d] => [(d, a, b); (d, b, c)] | _ => [] end.
(** The faces of a solid with their planes. *)
Definition solid_of (fs : list (face * vec * R)) : list face := map (fun x => fst (fst x)) fs.
Definition ok_faces (fs : list (face * vec * R)) : Prop := forall f n d, In (f, n, d) fs -> sound_face f n d.
(** Which faces the line of sight meets. *)
Definition seen (p : vec) (fs : list (face * vec * R)) (bs : list bool) : Prop :=
  Forall2 (fun x (b : bool) => let '(f, n, d) := x in if b then ray_meets p f n d else ray_passes p f n d) fs bs.
