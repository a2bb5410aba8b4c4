(** Vocabulary for what is drawn. *)
From Coq Require Import List Arith.
From Verif Require Import Prelude MeshModel PlotModel.
Import ListNotations.

(** The numbers tell the cells: each is its length followed by its corners. *)
Inductive tells : list nat -> list (list nat) -> Prop :=
| tells_nil : tells [] []
| tells_cons c flat cells : tells flat cells -> tells (length c :: c ++ flat) (c :: cells).

Definition corners3 (f : face) : list nat := let '(a, b, c) := f in [a; b; c].

Section Plot.
  Context {P C : Type}.
  Definition has_any (o : plottable (P := P)) : Prop := get_mesh o <> None \/ get_lines o <> None \/ get_points o <> None.
  (** One call for each method the object has: mesh, lines, points. *)
  Definition shows (o : plottable (P := P)) (col : C) (ds : list (drawn (P := P) (C := C))) : Prop := exists d1 d2 d3, ds = d1 ++ d2 ++ d3 /\
    (get_mesh o = None -> d1 = []) /\ (forall vs fs, get_mesh o = Some (vs, fs) -> exists flat, d1 = [DrawMesh vs flat col] /\ tells flat (map corners3 fs)) /\
    (get_lines o = None -> d2 = []) /\ (forall vs ls, get_lines o = Some (vs, ls) -> exists flat, d2 = [DrawLines vs flat col] /\ tells flat ls) /\
    (get_points o = None -> d3 = []) /\ (forall vs, get_points o = Some vs -> d3 = [DrawPoints vs col]).
  (** The objects in their order, each in its colour. *)
  Definition all_shown (objects : list plottable) (cols : list C) (ds : list drawn) : Prop :=
    exists dss, ds = concat dss /\ length dss = length objects /\ length cols = length objects /\
    forall k o col d, nth_error objects k = Some o -> nth_error cols k = Some col -> nth_error dss k = Some d -> shows o col d.
End Plot.
