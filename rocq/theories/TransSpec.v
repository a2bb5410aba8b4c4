(** Vocabulary for the transparent polygons of a simulation. *)
From Coq Require Import Reals ZArith Ascii String List Arith Bool.
From Verif Require Import Prelude TreeModel TreeSpec VecModel SimModel SimSpec GeomModel GeomSpec PolyModel PolySpec InsideSpec StaySpec DoorSpec.
Import ListNotations.

(** The polygon lies in the zone called z. *)
Definition lies_in (h : heap) (b i : oid) (z : str) : Prop := exists r, descends h b (z :: r) i.
Definition corners (x : face * vec * R) : list vec := fst (fst (fst x)).
Definition facing_way (x : face * vec * R) : vec := snd (fst x).
(** The same outline seen from the other side. *)
Definition opposite (x y : face * vec * R) : Prop := rotation_of (rev (corners x)) (corners y) /\ facing_way y = vopp (facing_way x).
(** A corner is far from all corners of the other polygon, or the normals are
    not opposite. *)
Definition unlike (x y : face * vec * R) : Prop :=
  (exists p, In p (corners x) /\ forall q, In q (corners y) -> points_equal p q = false) \/
  allclose (facing_way x) (vopp (facing_way y)) GEOM_RTOL ATOL8 = false.

Section Building.
  Context (h : heap) (b : oid) (geo : oid -> face * vec * R).
  Notation inside := (inside_of h KPolygon b).
  (** The tests on pairs of polygons in the polygon graph are those of the
      geometry. *)
  Definition tests_are (bbox isf : oid -> oid -> bool) : Prop := forall i j, inside i -> inside j -> i <> j ->
    are_polygons_facing (corners (geo i)) (facing_way (geo i)) (corners (geo j)) (facing_way (geo j)) = Ok (isf i j) /\
    exists b1 b2, bounding_box (corners (geo i)) = Ok b1 /\ bounding_box (corners (geo j)) = Ok b2 /\ bbox i j = are_bboxes_overlapping b1 b2.
  (** Corners of a polygon are told apart, and two polygons are opposite or
      clearly not. *)
  Definition clear_cut : Prop :=
    (forall i, inside i -> (3 <= length (corners (geo i)))%nat /\ told_apart (corners (geo i))) /\
    forall i j, inside i -> inside j -> i <> j -> opposite (geo i) (geo j) \/ (unlike (geo i) (geo j) /\ unlike (geo j) (geo i)).
  (** Two polygons of the same zone with opposite outlines. *)
  Definition divides (i j : oid) : Prop := inside i /\ inside j /\ i <> j /\ opposite (geo i) (geo j) /\ exists z, lies_in h b i z /\ lies_in h b j z.
  (** No polygon has two others opposite to it. *)
  Definition one_each : Prop := forall i j k, inside i -> inside j -> inside k -> i <> j -> i <> k -> opposite (geo i) (geo j) -> opposite (geo i) (geo k) -> j = k.
  (** The faces of the simulation are those of the polygons by their numbers. *)
  Definition laid_out (num : dict oid Z) (polys : list face) : Prop := forall i k, inside i -> dget num i = Some (Z.of_nat k) -> nth_error polys k = Some (fst (fst (geo i))).
  (** The polygons are grouped into solids. *)
  Definition grouped (ids : list (list oid)) : Prop := NoDup (concat ids) /\ forall i, In i (concat ids) <-> inside i.
  (** From row i to row j the ray k goes through the dividing polygons or keeps
      off them, and meets the other polygons well. *)
  Definition moves_well (sc : scene) (buf : buffers) (k i j : nat) : Prop :=
    forall l x p p', (i <= l < j)%nat -> cell (b_pos buf) l k p -> cell (b_pos buf) (S l) k p' -> inside x ->
      ((exists y, divides x y) -> goes_through (geo x) p p' \/ keeps_off (geo x) p p') /\ ((~ exists y, divides x y) -> meets_well sc (geo x) p p').
End Building.
