(** Vocabulary for intersections, visibility and close pairs. *)
From Coq Require Import Reals List Bool Arith Sorting.
From Verif Require Import Prelude VecModel GeomModel GeomSpec VisModel.
Import ListNotations.
Local Open Scope R_scope.

(** Points of the line through p with direction d. *)
Definition on_line (p d q : vec) : Prop := exists t, q = vadd p (smul t d).
(** Two unit directions closer than the comparison tolerance, up to sign. *)
Definition seem_parallel (d1 d2 : vec) : Prop :=
  allclose (vdiv d1 (norm d1)) (vdiv d2 (norm d2)) RTOL ATOL8 = true \/
  allclose (vdiv d1 (norm d1)) (vdiv (vopp d2) (norm d2)) RTOL ATOL8 = true.
Definition seem_zero (d : vec) : Prop := allclose d vzero RTOL ATOL8 = true.

(** A greedy selection of pairs from a relation with distances: every index is
    used at most once, distances ascend, only allowed pairs are taken, and an
    allowed pair is left out only because a pair at most as far uses one of its
    indices. *)
Definition greedy_pairs (allowed : nat -> nat -> Prop) (d : nat -> nat -> R) (sel : list (nat * nat)) : Prop :=
  NoDup (map fst sel) /\ NoDup (map snd sel) /\
  (forall i j, In (i, j) sel -> allowed i j) /\
  StronglySorted (fun a b => d (fst a) (snd a) <= d (fst b) (snd b)) sel /\
  (forall i j, allowed i j -> exists i' j', In (i', j') sel /\ (i' = i \/ j' = j) /\ d i' j' <= d i j).

(** Distance of two points given by indices; pairs that may be selected. *)
Definition pair_dist (pts0 pts1 : list vec) (i j : nat) : R := dist (nth i pts0 vzero) (nth j pts1 vzero).
Definition pair_allowed (pts0 pts1 : list vec) (vis_only : bool) (blocks : list (list (vec * vec))) (i j : nat) : Prop :=
  exists p q, nth_error pts0 i = Some p /\ nth_error pts1 j = Some q /\ (vis_only = true -> are_points_visible p q blocks = 1%nat).

(** A square matrix. *)
Definition square (n : nat) (m : list (list nat)) : Prop := length m = n /\ forall r, In r m -> length r = n.
