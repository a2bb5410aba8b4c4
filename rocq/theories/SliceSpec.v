(** Vocabulary for slicing polygons. *)
From Coq Require Import Reals List Bool Arith Permutation.
From Verif Require Import Prelude VecModel GeomModel GeomSpec PolyModel VisModel SliceModel.
Import ListNotations.
Local Open Scope R_scope.

(** The elements of [l] are some of the elements of [l'], in the same order. *)
Inductive subseq {A} : list A -> list A -> Prop :=
| subseq_nil : subseq [] []
| subseq_skip x l l' : subseq l l' -> subseq l (x :: l')
| subseq_keep x l l' : subseq l l' -> subseq (x :: l) (x :: l').

(** The outline with the two ends x and y of a chain built in: an end at a
    vertex takes the place of the vertex, an end at edge i comes after vertex i. *)
Definition end_at_vertex (i : nat) (l : location) (x d : vec) : vec :=
  match l with AtVertex j => if (i =? j)%nat then x else d | _ => d end.
Definition end_at_edge (i : nat) (l : location) (x : vec) : list vec :=
  match l with AtEdge j => if (i =? j)%nat then [x] else [] | _ => [] end.
Fixpoint with_ends (i : nat) (l1 : location) (x : vec) (l2 : location) (y : vec) (pts : list vec) : list vec :=
  match pts with
  | [] => []
  | p :: r => end_at_vertex i l1 x (end_at_vertex i l2 y p) :: end_at_edge i l1 x ++ end_at_edge i l2 y ++ with_ends (S i) l1 x l2 y r
  end.
(** The outline is cut along a chain from one of its points to another: going
    round from x, A leads to y and B leads back. *)
Definition cut (outline chain part1 part2 : list vec) : Prop := exists x A y B M,
  rotation_of outline (x :: A ++ y :: B) /\ chain = x :: M ++ [y] /\
  part1 = x :: A ++ y :: rev M /\ part2 = x :: M ++ y :: B.
(** The same closed polygon, going round the other way from any start. *)
Definition reverse_loop (l l' : list vec) : Prop := rotation_of (rev l) l'.
(** Consecutive points of an open chain. *)
Definition chain_edges (l : list vec) : list (vec * vec) := combine l (tl l).
(** The end x touches the outline exactly: it is the vertex, or lies on the
    line of the edge; and no other vertex is taken for it. *)
Definition exact_end (pts : list vec) (l : location) (x : vec) : Prop :=
  match l with
  | AtVertex i => nth_error pts i = Some x
  | AtEdge i => exists a b, nth_error (cyc_pairs pts) i = Some (a, b) /\ cross (vsub x a) (vsub b a) = vzero
  | _ => False
  end.
Definition known_end (pts : list vec) (l : location) (x : vec) : Prop :=
  match l with
  | AtVertex i => (i < length pts)%nat /\ forall j p, nth_error pts j = Some p -> (points_equal p x = true <-> j = i)
  | AtEdge i => (i < length pts)%nat
  | _ => False
  end.
(** Located on the outline. *)
Definition boundary (l : location) : bool := is_vertex l || is_edge l.
(** The arrays q1 and q2 are the two parts of the outline cut along the chain
    with ends x and y at l0 and l1; one of the two goes round the other way.
    Between two vertices the chain starts at the vertex itself; a chain that
    ends at a vertex is followed backwards. *)
Definition parts_of (pts chain : list vec) (x : vec) (l0 : location) (y : vec) (l1 : location) (q1 q2 : list vec) : Prop :=
  match l0, l1 with
  | AtVertex i, AtVertex _ => exists v p2, nth_error pts i = Some v /\ cut (with_ends 0 l0 v l1 y pts) (v :: tl chain) q1 p2 /\ reverse_loop p2 q2
  | AtEdge _, AtVertex _ => exists p1, cut (with_ends 0 l0 x l1 y pts) (rev chain) p1 q2 /\ reverse_loop p1 q1
  | _, _ => exists p1, cut (with_ends 0 l0 x l1 y pts) chain p1 q2 /\ reverse_loop p1 q1
  end.
(** Twice the signed area, seen against the normal. *)
Definition signed_area2 (pts : list vec) (vn : vec) : R := dot (vector_area2 pts) vn.
(** The points l put between vertex k and the next one. *)
Definition put_after (k : nat) (l pts : list vec) : list vec := firstn (S k) pts ++ l ++ skipn (S k) pts.
(** The edges e1 and e2 meet at q, away from their ends. *)
Definition crossing_of (e1 e2 : vec * vec) (q : vec) : Prop :=
  line_segment_intersection (fst e1) (snd e1) (fst e2) (snd e2) = Some q /\
  points_equal (fst e1) q = false /\ points_equal (snd e1) q = false /\ points_equal (fst e2) q = false /\ points_equal (snd e2) q = false.
(** The points related to the elements of a list, in order, skipping the
    elements without one. *)
Inductive picked {A} (R : A -> vec -> Prop) : list A -> list vec -> Prop :=
| picked_nil : picked R [] []
| picked_hit x q l r : R x q -> picked R l r -> picked R (x :: l) (q :: r)
| picked_miss x l r : (forall q, ~ R x q) -> picked R l r -> picked R (x :: l) r.
(** The outline es with the crossings with the edges [others] put in after the
    start of each edge. *)
Definition with_crossings (R : vec * vec -> vec * vec -> vec -> Prop) (es others : list (vec * vec)) (out : list vec) : Prop :=
  exists blocks, out = concat blocks /\ Forall2 (fun e b => exists qs, b = fst e :: qs /\ picked (R e) others qs) es blocks.
(** A reference point lies in a part. *)
Definition part_contains (p : polygon) (pt : vec) (b : bool) : Prop := is_point_inside pt (p_pts p) (p_tri p) true GEOM_ATOL = Ok b.
(** The first or the last point is an interior one. *)
Definition interior_end (ls : list location) : Prop := exists l r, ls = l :: r /\ (l = Interior \/ last ls l = Interior).
