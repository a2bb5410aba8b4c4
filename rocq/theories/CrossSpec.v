(** Vocabulary for crossing and touching polygons and adjacent solids. *)
From Coq Require Import Reals List Bool Arith.
From Verif Require Import Prelude VecModel GeomModel GeomSpec PolyModel.
Import ListNotations.
Local Open Scope R_scope.

(** The triangle indices are valid and no triangle is minute. *)
Definition good_mesh (pts : list vec) (ts : list tri) : Prop :=
  forall t, In t ts -> exists a b c, tri_verts pts t (a, b, c) /\ 1 / 10000000000000 <= 2 * true_area a b c.
(** No edge has its two ends in one place. *)
Definition real_edges (pts : list vec) : Prop := forall e, In e (cyc_pairs pts) -> fst e <> snd e.
(** Some point lies in the bounding boxes of both sets of points. *)
Definition boxes_meet (l1 l2 : list vec) : Prop :=
  exists p, forall c, In c [vx; vy; vz] -> (exists a b, In a l1 /\ In b l1 /\ c a <= c p <= c b) /\ (exists a b, In a l2 /\ In b l2 /\ c a <= c p <= c b).
(** Two edges have an end in common. *)
Definition share_end (e1 e2 : vec * vec) : Prop := fst e1 = fst e2 \/ fst e1 = snd e2 \/ snd e1 = fst e2 \/ snd e1 = snd e2.
(** All that being "on the segment" can mean within the tolerances. *)
Definition seems_on (e : vec * vec) (q : vec) : Prop :=
  let '(a, b) := e in let tol := 1 / 10000000000000 in
  near_point tol a q \/ near_point tol b q \/
  exists t, dist (seg_point a b t) q * dist a b <= tol * sqrt 3 /\ - (tol / (dist a b * dist a b)) <= t <= 1 + tol / (dist a b * dist a b).
(** Points dividing the edges of an outline into m equal parts, ends included. *)
Definition division_point (m : nat) (pts : list vec) (q : vec) : Prop :=
  exists e k, In e (cyc_pairs pts) /\ (k <= m)%nat /\ q = seg_point (fst e) (snd e) (INR k / INR m).
(** The polygon's own test accepts q and finds it off the outline. *)
Definition strictly_in (pts : list vec) (ts : list tri) (q : vec) : Prop := is_point_inside q pts ts false GEOM_ATOL = Ok true.
(** Some corner of the second outline is found on an edge of the first. *)
Definition meets_outline (pts1 pts2 : list vec) : Prop :=
  exists v e, In v pts2 /\ In e (cyc_pairs pts1) /\ is_point_on_segment v (fst e) (snd e) GEOM_ATOL = true.
(** Two edges cross in a point strictly between the ends of each. *)
Definition edges_cross (e1 e2 : vec * vec) : Prop :=
  exists t s, 0 < t < 1 /\ 0 < s < 1 /\ seg_point (fst e1) (snd e1) t = seg_point (fst e2) (snd e2) s /\ cross (vsub (snd e1) (fst e1)) (vsub (snd e2) (fst e2)) <> vzero.
Definition outlines_cross (pts1 pts2 : list vec) : Prop := exists e1 e2, In e1 (cyc_pairs pts1) /\ In e2 (cyc_pairs pts2) /\ edges_cross e1 e2.
