(** Vocabulary for stitching. *)
From Coq Require Import Ascii String Reals List Bool Arith.
From Verif Require Import Prelude VecModel PolyModel StitchModel.
Import ListNotations.

(** Names of polygons are unique in their wall, names of walls in the solid. *)
Definition unique_names (s : solid) : Prop := NoDup (map fst s) /\ forall w, In w s -> NoDup (map fst (snd w)).
(** A polygon with its name in some wall of the solid. *)
Definition has_poly (s : solid) (p : npoly) : Prop := exists w, In w s /\ In p (snd w).
Definition count_polys (s : solid) : nat := list_sum (map (fun w => length (snd w)) s).
(** Pieces of a polygon: any number of "-main" and "-sup" appended to its name,
    the same normal. *)
Definition piece (p q : npoly) : Prop :=
  (exists marks, (forall m, In m marks -> m = str_of "-main" \/ m = str_of "-sup") /\ fst q = fst p ++ concat marks) /\ p_vn (snd q) = p_vn (snd p).
(** Nothing left to be done for two polygons. *)
Definition apart (p q : polygon) : Prop :=
  are_polygons_crossing (p_pts p) (p_tri p) (p_pts q) (p_tri q) = Ok false /\ contains_polygon p q = Ok false /\ contains_polygon q p = Ok false.
(** What has changed in a solid: polygons have been replaced by pieces. *)
Definition refines (s s' : solid) : Prop :=
  map fst s' = map fst s /\ (unique_names s -> unique_names s') /\ forall q, has_poly s' q -> exists p, has_poly s p /\ piece p q.
(** The call never returns, whatever the number of nested calls allowed. *)
Definition never_returns (rid : str) (s1 s2 : solid) : Prop := forall n, snd (stitch rid n s1 s2) = Err OutOfFuel.
