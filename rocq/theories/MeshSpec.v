(** Specification vocabulary for meshes and the array format. *)
From Coq Require Import List Arith Bool.
From Verif Require Import Prelude MeshModel.
Import ListNotations.

Section Spec.
  Context {P : Type}.

  (** The coordinates a face refers to. *)
  Definition coords (pts : list P) (f : face) : option P * option P * option P :=
    let '(a, b, c) := f in (nth_error pts a, nth_error pts b, nth_error pts c).

  (** The triangles of a mesh, as coordinates. *)
  Definition soup (m : mesh) : list (option P * option P * option P) :=
    map (coords (fst m)) (snd m).

  (** Every face refers to existing points. *)
  Definition valid (m : mesh (P := P)) : Prop :=
    forall f i, In f (snd m) -> In i (face_corners f) -> i < length (fst m).

  (** Sizes in which an empty entry never lies between two non-empty ones. *)
  Definition no_gap (sizes : list nat) : Prop :=
    exists a m c, sizes = repeat 0 a ++ m ++ repeat 0 c /\ Forall (fun n => 0 < n) m.

  (** A polygon as the constructor accepts it. *)
  Definition good (m : mesh (P := P)) : Prop := fst m <> [] /\ snd m <> [] /\ valid m.

  (** Models without empty containers. *)
  Definition nonempty_wall (w : wall_m) : Prop := w <> [] /\ Forall good w.
  Definition nonempty_solid (s : solid_m) : Prop := s <> [] /\ Forall nonempty_wall s.
  Definition nonempty_zone (z : zone_m) : Prop := z <> [] /\ Forall nonempty_solid z.
  Definition nonempty_building (b : building_m) : Prop := b <> [] /\ Forall nonempty_zone b.

  (** Traversal order of the array format. *)
  Definition all_solids (b : building_m (P := P)) : list solid_m := concat b.
  Definition all_walls (b : building_m (P := P)) : list wall_m := concat (all_solids b).
  Definition all_polys (b : building_m (P := P)) : list mesh := concat (all_walls b).

  (** The entries of xs carrying label k. *)
  Definition labelled {A} (labels : list nat) (xs : list A) (k : nat) : list A :=
    map snd (filter (fun lx => fst lx =? k) (combine labels xs)).

  (** Every vertex is used by some triangle. *)
  Definition all_used (m : mesh (P := P)) : Prop :=
    forall i, i < length (fst m) -> exists f, In f (snd m) /\ In i (face_corners f).

  (** What the Polygon constructor checks when a triangulation is given. *)
  Definition accepted (coplanar : list P -> bool) (m : mesh (P := P)) : Prop :=
    coplanar (fst m) = true /\ 3 <= length (fst m) /\ snd m <> [].
End Spec.
