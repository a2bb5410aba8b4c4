(** Specification of ear clipping. *)
From Coq Require Import Reals List Arith ZArith.
From Verif Require Import Prelude VecModel GeomSpec.
Import ListNotations.

(** [clipped ear ring ts]: the triangles [ts] arise from the cyclic list [ring]
    by cutting off one corner (p, c, n) after the other, each of which
    satisfies [ear] with respect to the ring at that time, until two vertices
    are left. *)
Inductive clipped {A} (ear : list A -> A -> A -> A -> Prop) : list A -> list (A * A * A) -> Prop :=
| clipped_done ring : length ring <= 2 -> clipped ear ring []
| clipped_ear before c after p n ts :
    (exists m, after ++ before = n :: m) -> (exists m, after ++ before = m ++ [p]) ->
    3 <= length (before ++ c :: after) ->
    ear (before ++ c :: after) p c n -> clipped ear (before ++ after) ts ->
    clipped ear (before ++ c :: after) ((p, c, n) :: ts).

(** A convex corner whose triangle contains no other vertex of the ring. *)
Definition free_ear {P} (convex : P -> P -> P -> result bool) (inside : P -> P -> P -> P -> result bool) (pts : list P)
    (ring : list nat) (p c n : nat) : Prop :=
  exists pp pc pn, nth_error pts p = Some pp /\ nth_error pts c = Some pc /\ nth_error pts n = Some pn /\
    convex pp pc pn = Ok true /\
    forall q pq, In q ring -> q <> p -> q <> c -> q <> n -> nth_error pts q = Some pq -> inside pq pp pc pn = Ok false.

(** Directed edges of triangles, and both directions of a list of pairs. *)
Definition tri_edges {A} (ts : list (A * A * A)) : list (A * A) :=
  flat_map (fun t => let '(a, b, c) := t in [(a, b); (b, c); (c, a)]) ts.
Definition both_ways {A} (d : list (A * A)) : list (A * A) := flat_map (fun e => [e; (snd e, fst e)]) d.

(** Twice the vector area of the triangle with the given corner indices, and
    twice its signed area seen from [vn]. *)
Definition corner (pts : list vec) (i : nat) : vec := nth i pts vzero.
Definition tri_vec (pts : list vec) (t : nat * nat * nat) : vec :=
  let '(i, j, k) := t in cross (vsub (corner pts j) (corner pts i)) (vsub (corner pts k) (corner pts i)).
(** The fan around the last vertex. *)
Definition fan (n : nat) : list (nat * nat * nat) := map (fun i => (n - 1, i, i + 1)) (seq 0 (n - 2)).

(** Integer points of the plane z = 0 and their orientation. *)
Definition at_grid (p : Z * Z) : vec := V (IZR (fst p)) (IZR (snd p)) 0.
Definition orient (a b c : Z * Z) : Z :=
  ((fst b - fst a) * (snd c - snd a) - (snd b - snd a) * (fst c - fst a))%Z.
(** The segments ab and cd have no point in common (general position). *)
Definition apart (a b c d : Z * Z) : Prop :=
  (0 < orient a b c * orient a b d \/ 0 < orient c d a * orient c d b)%Z.
(** A simple polygon in general position: no three vertices on a line and
    edges without a common vertex do not meet. *)
Definition simple_grid (pts : list (Z * Z)) : Prop :=
  NoDup pts /\
  (forall a b c, In a pts -> In b pts -> In c pts -> a <> b -> b <> c -> a <> c -> orient a b c <> 0%Z) /\
  (forall a b c d, In (a, b) (cyc_pairs pts) -> In (c, d) (cyc_pairs pts) -> a <> c -> a <> d -> b <> c -> apart a b c d).
