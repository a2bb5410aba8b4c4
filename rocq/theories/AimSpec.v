(** Vocabulary for the wall a ray aims at. *)
From Coq Require Import Reals List Bool Arith.
From Verif Require Import Prelude VecModel GeomModel GeomSpec PolySpec CrossSpec InsideSpec RoomSpec.
Import ListNotations.
Local Open Scope R_scope.

(** Where the ray is after the time t. *)
Definition at_time (p v : vec) (t : R) : vec := vadd p (smul t v).
(** The ray does not come near the wall: it meets its plane well outside only,
    or it runs along the plane and is well outside. *)
Definition missed (f : face) (n : vec) (d : R) (p v : vec) : Prop :=
  (1 / 1000 <= Rabs (dot n v) /\ forall t, 0 <= t -> on_plane n d (at_time p v t) -> clear_of f (at_time p v t)) \/
  (Rabs (dot n v) < 1 / 1000 /\ beyond (fst f) p).
(** A ray at p with the velocity v, which leaves the box from lo to hi through
    the point q of a side across the coordinate c, does not come close to
    another side: if it nearly keeps the coordinate c', it stays away from both
    bounds; otherwise it is 1/100 outside when it reaches the bound of c'. *)
Definition leaves_clearly (lo hi : vec) (c : vec -> R) (p v q : vec) : Prop :=
  ((0 < c v /\ c q = c hi) \/ (c v < 0 /\ c q = c lo)) /\ 1 / 1000 <= Rabs (c v) /\
  forall c', In c' [vx; vy; vz] -> c' = c \/
    (c' lo + 1 / 100000 <= c' q <= c' hi - 1 / 100000 /\
     (Rabs (c' v) < 1 / 1000 -> c' lo + 1 / 100 < c' p < c' hi - 1 / 100) /\
     (0 < c' v -> 1 / 100 * c' v < (c' hi - c' q) * Rabs (c v)) /\
     (c' v < 0 -> 1 / 100 * - c' v < (c' q - c' lo) * Rabs (c v))).
