(** Vocabulary for the properties of polygons and solids. *)
From Coq Require Import Reals List Bool Arith ZArith Permutation.
From Verif Require Import Prelude VecModel GeomModel GeomSpec.
Import ListNotations.
Local Open Scope R_scope.

(** Points of the plane n.p + d = 0. *)
Definition on_plane (n : vec) (d : R) (p : vec) : Prop := dot n p + d = 0.
(** [d] is the distance from p to a set of points. *)
Definition distance_to (S : vec -> Prop) (p : vec) (d : R) : Prop :=
  (exists q, S q /\ dist p q = d) /\ forall q, S q -> d <= dist p q.
(** Point on one of the edges of a closed polygon. *)
Definition on_outline (pts : list vec) (q : vec) : Prop := exists e, In e (cyc_pairs pts) /\ on_segment (fst e) (snd e) q.

(** A matching of the points of [l1] with different points of [l2]: [m] lists
    the partners' indices. *)
Definition matching (same : vec -> vec -> Prop) (l1 l2 : list vec) (m : list nat) : Prop :=
  length m = length l1 /\ NoDup m /\
  forall i j, nth_error m i = Some j -> exists p q, nth_error l1 i = Some p /\ nth_error l2 j = Some q /\ same p q.
(** Different points of the two lists are told apart by points_equal. *)
Definition told_apart (l : list vec) : Prop := forall p q, In p l -> In q l -> points_equal p q = true -> p = q.

(** A triangle mesh as a list of corner triples; six times its signed volume,
    its directed edges, and closedness: every directed edge is matched by one
    in the opposite direction. *)
Definition mesh_det (ts : list (vec * vec * vec)) : R :=
  fold_right (fun t s => let '(a, b, c) := t in dot a (cross b c) + s) 0 ts.
Definition mesh_edges (ts : list (vec * vec * vec)) : list (vec * vec) :=
  concat (map (fun t => let '(a, b, c) := t in [(a, b); (b, c); (c, a)]) ts).
Definition closed_edges (es : list (vec * vec)) : Prop := Permutation es (map (fun e => (snd e, fst e)) es).
Definition mesh_shift (w : vec) (ts : list (vec * vec * vec)) : list (vec * vec * vec) :=
  map (fun t => let '(a, b, c) := t in (vadd a w, vadd b w, vadd c w)) ts.
(** Triangles of a polygon, oriented like its normal. *)
Definition poly_mesh (p : list vec * list tri * vec) (ts : list (vec * vec * vec)) : Prop :=
  let '(pts, tris, vn) := p in Forall2 (tri_verts pts) tris ts /\
  forall a b c, In (a, b, c) ts -> exists k, 0 <= k /\ cross (vsub b a) (vsub c a) = smul k vn.

(** Points with integer coordinates. *)
Definition at3 (p : Z * Z * Z) : vec := let '(x, y, z) := p in V (IZR x) (IZR y) (IZR z).
