(** Specification vocabulary for elementary geometry. *)
From Coq Require Import Reals List.
From Verif Require Import Prelude VecModel GeomModel.
Import ListNotations.
Local Open Scope R_scope.

(** Area of a triangle: half the length of the cross product. *)
Definition true_area (a b c : vec) : R := norm (cross (vsub b a) (vsub c a)) / 2.
(** Six times the signed volume of a tetrahedron. *)
Definition det3 (a b c d : vec) : R := dot (vsub b a) (cross (vsub c a) (vsub d a)).
(** Distance of two points. *)
Definition dist (p q : vec) : R := norm (vsub q p).
(** Points of the segment from p1 to p2. *)
Definition seg_point (p1 p2 : vec) (t : R) : vec := vadd p1 (smul t (vsub p2 p1)).
Definition on_segment (p1 p2 q : vec) : Prop := exists t, 0 <= t <= 1 /\ q = seg_point p1 p2 t.
Definition unit (u : vec) : Prop := dot u u = 1.
Definition perp (a b : vec) : Prop := dot a b = 0.
(** All points lie in one plane. *)
Definition coplanar (pts : list vec) : Prop :=
  exists n c, n <> vzero /\ forall p, In p pts -> dot n p = c.
(** Consecutive elements, closing from the last to the first. *)
Definition cyc_pairs {A} (l : list A) : list (A * A) :=
  match l with [] => [] | x :: r => combine l (r ++ [x]) end.
(** Twice the vector area of a closed polygon. *)
Definition vector_area2 (pts : list vec) : vec :=
  fold_right vadd vzero (map (fun e => cross (fst e) (snd e)) (cyc_pairs pts)).
(** A list started at another vertex. *)
Definition rotation_of {A} (l l' : list A) : Prop := exists a b, l = a ++ b /\ l' = b ++ a.
(** Determinant of a matrix given by rows. *)
Definition mdet (m : mat) : R := let '(r1, r2, r3) := m in dot r1 (cross r2 r3).
(** Anchors within 1e-13 of the origin are treated as the origin. *)
Definition anchor_used (a : vec) : vec := if points_equal a vzero then vzero else a.
(** Points of a box given by its corners. *)
Definition in_bbox (b : vec * vec) (p : vec) : Prop := forall c, In c [vx; vy; vz] -> c (fst b) <= c p <= c (snd b).

(** The point with barycentric coordinates (a, b, c), and the open triangle. *)
Definition bary (p1 p2 p3 : vec) (a b c : R) : vec := vadd (vadd (smul a p1) (smul b p2)) (smul c p3).
Definition strictly_inside (p1 p2 p3 q : vec) : Prop := exists a b c, 0 < a /\ 0 < b /\ 0 < c /\ a + b + c = 1 /\ q = bary p1 p2 p3 a b c.
Definition in_plane_of (p1 p2 p3 q : vec) : Prop := dot (cross (vsub p2 p1) (vsub p3 p1)) (vsub q p1) = 0.
(** Seen from [a], the directions to [b] and [q] differ by a sine above 1e-4
    and the triangle (a, b, q) is not minute. *)
Definition off_edge (a b q : vec) : Prop :=
  1 / 10000 * dist a b * dist a q < 2 * true_area a b q /\ 1 / 100000000000 < dist a b /\ 1 / 100000000000 < dist a q /\ 1 / 10000000000000 <= 2 * true_area a b q.
Definition off_edges (p1 p2 p3 q : vec) : Prop := off_edge p1 p2 q /\ off_edge p2 p3 q /\ off_edge p3 p1 q.
(** Away from a vertex, relative to its coordinates. *)
Definition far_from (v q : vec) : Prop := 2 * (1 / 10000000000000 + 1 / 100000 * norm v) < dist v q.
(** Within the relative tolerance of a point. *)
Definition near_point (atol : R) (v q : vec) : Prop := dist v q <= 2 * (atol + 1 / 100000 * norm v).
(** All consecutive triples span minute triangles. *)
Definition thin_triples (pts : list vec) : Prop :=
  forall i a b c, nth_error pts i = Some a -> nth_error pts (i + 1) = Some b -> nth_error pts (i + 2) = Some c -> 2 * true_area a b c <= 1 / 100000000.
(** Corner points of a triangle given by indices. *)
Definition tri_verts (pts : list vec) (t : tri) (q : vec * vec * vec) : Prop :=
  let '(i, j, k) := t in let '(a, b, c) := q in nth_error pts i = Some a /\ nth_error pts j = Some b /\ nth_error pts k = Some c.
(** Sum of weights and weighted sum of centroids, for any weights. *)
Definition weight_sum (w : vec -> vec -> vec -> R) (ts : list (vec * vec * vec)) : R :=
  fold_right (fun t acc => let '(a, b, c) := t in w a b c + acc) 0 ts.
Definition weighted_centroids (w : vec -> vec -> vec -> R) (ts : list (vec * vec * vec)) : vec :=
  fold_right (fun t acc => let '(a, b, c) := t in vadd (smul (w a b c / 3) (vadd (vadd a b) c)) acc) vzero ts.
