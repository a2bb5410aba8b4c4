(** Vocabulary for the triangulation of a polygon. *)
From Coq Require Import Reals List Bool Arith.
From Verif Require Import Prelude VecModel GeomModel GeomSpec TriModel PolyModel.
Import ListNotations.
Local Open Scope R_scope.

(** The members of a list with a property, in order. *)
Inductive selected {A} (P : A -> Prop) : list A -> list A -> Prop :=
  | sel_nil : selected P [] []
  | sel_yes x l s : P x -> selected P l s -> selected P (x :: l) (x :: s)
  | sel_no x l s : ~ P x -> selected P l s -> selected P (x :: l) s.
Definition numbered {A} (l : list A) : list (nat * A) := combine (seq 0 (length l)) l.
(** Rotations around the origin. *)
Definition is_rotation (f : vec -> vec) : Prop :=
  (forall v w, f (vadd v w) = vadd (f v) (f w)) /\ (forall k v, f (smul k v) = smul k (f v)) /\
  (forall v w, dot (f v) (f w) = dot v w) /\ (forall v w, cross (f v) (f w) = f (cross v w)).
Definition inverses (f g : vec -> vec) : Prop := forall v, g (f v) = v /\ f (g v) = v.
Definition ez1 : vec := V 0 0 1.
(** The points in the plane at height z. *)
Definition at_height (z : R) (l : list vec) : Prop := forall p, In p l -> vz p = z.
(** v is a vertex of a triangle. *)
Definition corner_of (i : nat) (t : itri) : Prop := let '(a, b, c) := t in i = a \/ i = b \/ i = c.
Definition used (ts : list itri) (i : nat) : Prop := exists t, In t ts /\ corner_of i t.
(** All triangles at vertex i have more than the area m. *)
Definition large_at (pts : list vec) (ts : list itri) (m : R) (i : nat) : Prop :=
  forall t a b c, In t ts -> corner_of i t -> tri_verts pts t (a, b, c) -> m < triangle_area a b c.
Definition coords (pts : list vec) : list (R * R) := map (fun p => (vx p, vy p)) pts.
(** Within a relative and an absolute tolerance of the target, in each
    coordinate. *)
Definition close_to (atol : R) (v target : vec) : Prop :=
  forall c, In c [vx; vy; vz] -> Rabs (c v - c target) <= atol + 1 / 100000 * Rabs (c target).
(** A face and its reversal. *)
Definition opposite (pts : list vec) (vn : vec) (t : itri) : Prop :=
  exists a b c n, tri_verts pts t (a, b, c) /\ normal a b c = Some n /\ close_to (1 / 100000000) (vopp n) vn.
Definition reversed (t : itri) : itri := let '(i, j, k) := t in (i, k, j).
Definition turned (pts : list vec) (vn : vec) (t t' : itri) : Prop :=
  (opposite pts vn t /\ t' = reversed t) \/ (~ opposite pts vn t /\ t' = t).
Definition has_centroid_in (poly : polygon) (pts : list vec) (t : itri) : Prop :=
  exists a b c, tri_verts pts t (a, b, c) /\
    is_point_inside (vdiv (vadd (vadd a b) c) 3) (p_pts poly) (p_tri poly) true GEOM_ATOL = Ok true.

Section Rounds.
  Context (same : vec -> vec -> bool) (in_set : list vec -> list vec -> bool).
  Context (between : list vec -> R -> list vec -> result (list vec)).
  Context (delaunay : nat -> list (R * R) -> result (list itri)) (jog : nat -> nat -> nat -> R * R).
  Definition among (p : vec) (l : list vec) : Prop := exists q, In q l /\ same p q = true.
  (** lo is the least, hi the largest value of a coordinate. *)
  Definition spans (c : vec -> R) (l : list vec) (lo hi : R) : Prop :=
    (exists p, In p l /\ c p = lo) /\ (exists p, In p l /\ c p = hi) /\ forall p, In p l -> lo <= c p <= hi.
  (** The points of the grid that are away from the fixed points and from the
      edges of the polygon; each is moved by a tenth of the step at most. *)
  Definition on_grid (pass : nat) (poly2 : polygon) (fixed : list vec) (delta z : R) (pts : list vec) (p : vec) : Prop :=
    exists x0 x1 y0 y1 i j, spans vx pts x0 x1 /\ spans vy pts y0 y1 /\
      x0 + (INR i + 1) * delta < x1 /\ y0 + (INR j + 1) * delta < y1 /\
      p = V (x0 + (INR i + 1) * delta + delta / 10 * (2 * fst (jog pass i j) - 1))
            (y0 + (INR j + 1) * delta + delta / 10 * (2 * snd (jog pass i j) - 1)) z /\
      (forall f, In f fixed -> delta / 2 <= dist f p) /\
      is_point_inside_margin p (delta / 2) (p_pts poly2) (p_tri poly2) = Ok true.
  (** One round from the points [pts]. *)
  Definition round (pass : nat) (poly2 : polygon) (corners fixed : list vec) (delta z : R) (pts final : list vec) (ts : list itri) (ok : bool) : Prop :=
    exists edge inner first sel,
      between pts delta fixed = Ok edge /\
      (forall p, In p inner <-> on_grid pass poly2 fixed delta z (pts ++ edge) p) /\
      let all := pts ++ edge ++ inner ++ fixed in
      delaunay (2 * pass) (coords all) = Ok first /\ (forall t, In t first -> exists q, tri_verts all t q) /\
      selected (fun x => used first (fst x) /\ (large_at all first (delta * delta / 8) (fst x) \/
                         among (snd x) fixed \/ among (snd x) edge \/ among (snd x) corners)) (numbered all) sel /\
      final = map snd sel /\
      delaunay (2 * pass + 1) (coords final) = Ok ts /\
      (exists us, NoDup us /\ length us = length final /\ forall i, In i us <-> used ts i) /\
      (ok = true <-> (forall f, In f fixed -> among f final) /\ in_set edge final = true).
  (** Rounds are repeated, each from all points of the one before, until one is
      good. *)
  Inductive rounds (poly2 : polygon) (corners fixed : list vec) (delta z : R) : nat -> nat -> list vec -> list vec -> list itri -> Prop :=
    | good_round pass pts final ts : round pass poly2 corners fixed delta z pts final ts true ->
        rounds poly2 corners fixed delta z pass 1 pts final ts
    | bad_round pass n pts mid ts' final ts : round pass poly2 corners fixed delta z pts mid ts' false ->
        rounds poly2 corners fixed delta z (S pass) n mid final ts ->
        rounds poly2 corners fixed delta z pass (S n) pts final ts.
  (** Points at one height get points at that height between them. *)
  Definition level : Prop := forall l d fx e z, at_height z l -> at_height z fx -> between l d fx = Ok e -> at_height z e.
  (** Where a vertex comes from. *)
  Definition origin (poly2 : polygon) (corners fixed : list vec) (delta z : R) (p : vec) : Prop :=
    In p corners \/ In p fixed \/ (exists l e, between l delta fixed = Ok e /\ In p e) \/
    (vz p = z /\ (forall f, In f fixed -> delta / 2 <= dist f p) /\ is_point_inside_margin p (delta / 2) (p_pts poly2) (p_tri poly2) = Ok true).
  (** Every point is used, or one that equals it. *)
  Definition uses_all (l : list vec) (ts : list itri) : Prop := forall p, In p l -> exists i q, nth_error l i = Some q /\ used ts i /\ same p q = true /\ same q p = true.
End Rounds.
