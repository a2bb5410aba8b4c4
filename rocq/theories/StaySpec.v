(** Vocabulary for rays that stay in a solid. *)
From Coq Require Import Reals List Arith.
From Verif Require Import Prelude VecModel SimModel SimSpec GeomModel GeomSpec InsideSpec RoomSpec.
Import ListNotations.
Local Open Scope R_scope.

(** On the straight way from p to p' the face is met, if at all, only well on
    one of its triangles or on the rim between them, not almost within its plane,
    and from a place over a spot that is clearly on the face or not on it. *)
Definition meets_well (sc : scene) (x : face * vec * R) (p p' : vec) : Prop :=
  let '(f, n, d) := x in
  forall m, on_segment p p' m -> in_mesh f m ->
    touches f m /\ dt sc / 1000 <= Rabs (dot n (vsub p' p)) /\ (touches f (foot n d p) \/ ~ in_mesh f (foot n d p)).
(** All faces are among the walls of the simulation and not transparent. *)
Definition walled (fs : list (face * vec * R)) (polys : list face) (transparent : list nat) : Prop :=
  forall f n d, In (f, n, d) fs -> exists pn, nth_error polys pn = Some f /\ ~ In pn transparent.
(** From row i to row j of the position buffer the ray k meets the faces well. *)
Definition travels_well (sc : scene) (b : buffers) (fs : list (face * vec * R)) (k i j : nat) : Prop :=
  forall l x p p', (i <= l < j)%nat -> cell (b_pos b) l k p -> cell (b_pos b) (S l) k p' -> In x fs -> meets_well sc x p p'.
