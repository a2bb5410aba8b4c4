(** Vocabulary for how often an outline winds around a point. *)
From Coq Require Import Reals List ZArith Permutation.
From Verif Require Import Prelude VecModel GeomModel GeomSpec TriSpec PolyModel PolySpec CrossSpec InsideSpec RoomSpec.
Import ListNotations.
Local Open Scope R_scope.

(** Which side of the line from a to b the point q is on, seen against n:
    positive on the left. *)
Definition left_of (n a b q : vec) : R := dot n (cross (vsub b a) (vsub q a)).
(** The edge crosses the half-line that starts in q and goes to the right, where
    u is the upward direction: 1 on the way up, -1 on the way down. *)
Definition edge_turn (n u q : vec) (e : vec * vec) : Z :=
  if Rle_dec (dot u (fst e)) (dot u q)
  then if Rlt_dec (dot u q) (dot u (snd e)) then if Rlt_dec 0 (left_of n (fst e) (snd e) q) then 1%Z else 0%Z else 0%Z
  else if Rle_dec (dot u (snd e)) (dot u q) then if Rlt_dec (left_of n (fst e) (snd e) q) 0 then (-1)%Z else 0%Z else 0%Z.
Definition zsum (l : list Z) : Z := fold_right Z.add 0%Z l.
(** The winding number of the outline around q. *)
Definition winding (n u q : vec) (pts : list vec) : Z := zsum (map (edge_turn n u q) (cyc_pairs pts)).
(** Triangles in the plane n.q + d = 0, turning around n, whose edges are those
    of the outline and pairs of opposite ones. *)
Definition covers (f : face) (n : vec) (d : R) : Prop :=
  unit n /\ (forall q, In q (fst f) -> on_plane n d q) /\
  (forall t, In t (snd f) -> exists a b c, tri_verts (fst f) t (a, b, c) /\ 0 < dot n (cross (vsub b a) (vsub c a))) /\
  exists ds, Permutation (tri_edges (snd f)) (cyc_pairs (seq 0 (length (fst f))) ++ both_ways ds).
(** In which triangles q lies: in the open and in the closed ones. *)
Definition told (P : vec -> vec -> vec -> Prop) (f : face) (bs : list bool) : Prop :=
  Forall2 (fun t (x : bool) => exists a b c, tri_verts (fst f) t (a, b, c) /\ (x = true <-> P a b c)) (snd f) bs.
(** Well off the edges and corners of all triangles. *)
Definition clear_edges (f : face) (q : vec) : Prop :=
  forall t a b c, In t (snd f) -> tri_verts (fst f) t (a, b, c) -> off_edges a b c q /\ far_from a q /\ far_from b q /\ far_from c q.
(** Every other corner is strictly to the left of every edge. *)
Definition strictly_convex (n : vec) (pts : list vec) : Prop :=
  forall a b c, In (a, b) (cyc_pairs pts) -> In c pts -> c <> a -> c <> b -> 0 < left_of n a b c.
