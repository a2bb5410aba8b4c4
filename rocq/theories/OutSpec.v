(** Specification vocabulary for the results of a simulation. *)
From Coq Require Import Reals List.
From Verif Require Import Prelude VecModel.
Import ListNotations.
Local Open Scope R_scope.

(** Rectangular matrices. *)
Definition rect {A} (n : nat) (m : list (list A)) : Prop := Forall (fun r => length r = n) m.

(** Total of column j. *)
Definition col_total (m : list (list R)) (j : nat) : R := Rsum (map (fun r => nth j r 0) m).

(** Decoding of the flat connectivity list of lines. *)
Inductive decodes : list nat -> list (list nat) -> Prop :=
| decodes_nil : decodes [] []
| decodes_cons l rest ls : decodes rest ls -> decodes (length l :: l ++ rest) (l :: ls).

(** The lines draw, for each ray, its positions in order of time. *)
Definition draws_rays {P} (verts : list P) (lines : list (list nat)) (pb : list (list P)) (num_rays : nat) : Prop :=
  length lines = num_rays /\
  (forall k line, nth_error lines k = Some line ->
     map (nth_error verts) line = map (fun row => nth_error row k) pb) /\
  concat lines = seq 0 (length verts).
