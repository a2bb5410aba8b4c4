(** Vocabulary for rays that go from room to room through doors. *)
From Coq Require Import Reals List Bool Arith.
From Verif Require Import Prelude VecModel SimModel SimSpec GeomModel GeomSpec PolyModel PolySpec InsideSpec RoomSpec ShellSpec.
Import ListNotations.
Local Open Scope R_scope.

(** The way from p to p' goes through the face inside one of its triangles. *)
Definition goes_through (x : face * vec * R) (p p' : vec) : Prop :=
  let '(f, n, _) := x in dot n (vsub p' p) <> 0 /\
  exists s t a b c, 0 < s < 1 /\ In t (snd f) /\ tri_verts (fst f) t (a, b, c) /\ strictly_inside a b c (seg_point p p' s).
(** No point of the way is on the face. *)
Definition keeps_off (x : face * vec * R) (p p' : vec) : Prop := forall m, on_segment p p' m -> ~ in_mesh (fst (fst x)) m.
(** Which of the faces it goes through; it keeps off the others. *)
Definition passes (fs : list (face * vec * R)) (p p' : vec) (bs : list bool) : Prop :=
  Forall2 (fun x (b : bool) => if b then goes_through x p p' else keeps_off x p p') fs bs.
(** From row i to a row of the position buffer, the ray k goes through faces so
    many times. *)
Inductive rides (b : buffers) (fs : list (face * vec * R)) (k i : nat) : nat -> nat -> Prop :=
| rides_stay : rides b fs k i i 0
| rides_step j n p p' bs : rides b fs k i j n -> cell (b_pos b) j k p -> cell (b_pos b) (S j) k p' -> passes fs p p' bs -> rides b fs k i (S j) (n + hits bs).
(** From row i to row j the ray k goes through the faces or keeps off. *)
Definition doors_well (b : buffers) (fs : list (face * vec * R)) (k i j : nat) : Prop :=
  forall l x p p', (i <= l < j)%nat -> cell (b_pos b) l k p -> cell (b_pos b) (S l) k p' -> In x fs -> goes_through x p p' \/ keeps_off x p p'.
(** Two faces in the same place. *)
Definition twins (x y : face * vec * R) : Prop := forall m, in_mesh (fst (fst x)) m <-> in_mesh (fst (fst y)) m.
Definition both_sides (doors : list ((face * vec * R) * (face * vec * R))) : list (face * vec * R) := flat_map (fun d => [fst d; snd d]) doors.
(** Whether the code finds the point in each of the solids. *)
Definition found (rs : list (list (face * vec * R))) (p : vec) (bs : list bool) : Prop := Forall2 (fun fs b => solid_point_inside (solid_of fs) p = Ok b) rs bs.
(** The view from p is good and p is not on a face. *)
Definition viewed (fs : list (face * vec * R)) (p : vec) : Prop := (exists bs, seen_well p fs bs) /\ forall f n d, In (f, n, d) fs -> off_face p f n d.
(** A solid whose faces match. *)
Definition closed_solid (fs : list (face * vec * R)) : Prop := ok_faces fs /\ fs <> [] /\ exists T, loose_shell fs T.
