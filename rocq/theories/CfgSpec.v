(** Specification vocabulary for surface parameters and directories. *)
From Coq Require Import Ascii String List Arith Bool.
From Verif Require Import Prelude.
Import ListNotations.

(** Path p is the path sp itself or continues it after a "/". *)
Definition at_or_below (sp p : str) : Prop := p = sp \/ exists r, p = sp ++ "/"%char :: r.

(** The value stored for a parameter and a path. *)
Definition value_of {V} (sf : dict str (dict str V)) (param p : str) : option V :=
  match dget sf param with Some d => dget d p | None => None end.

(** File systems: a map from paths (component lists) to "is a directory".
    [p] is below [q]. *)
Definition inside (q p : list str) : Prop := exists r, r <> [] /\ p = q ++ r.
Definition present (fs : dict (list str) bool) (p : list str) : Prop := exists d, dget fs p = Some d.

(** Nothing that existed is removed or changed. *)
Definition keeps (fs fs' : dict (list str) bool) : Prop := forall p d, dget fs p = Some d -> dget fs' p = Some d.

(** Every existing path's parents exist and are directories. *)
Definition tree_shaped (fs : dict (list str) bool) : Prop :=
  forall p d n, dget fs p = Some d -> 0 < n -> n < length p -> dget fs (firstn n p) = Some true.
