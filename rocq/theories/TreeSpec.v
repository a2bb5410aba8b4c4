(** Specification vocabulary for the object hierarchy. *)
From Coq Require Import Ascii String List Arith Bool.
From Verif Require Import Prelude TreeModel.
Import ListNotations.

(** Every listed child points back to the container that lists it. *)
Definition linked (h : heap) : Prop :=
  forall p po k c, nth_error h p = Some po -> In (k, c) (o_children po) ->
    exists co, nth_error h c = Some co /\ o_parent co = Some p.

(** [descends h i names j]: j is reached from i by following children names. *)
Inductive descends (h : heap) (i : oid) : list str -> oid -> Prop :=
| desc_here : descends h i [] i
| desc_child names j o key c :
    descends h i names j -> nth_error h j = Some o -> In (key, c) (o_children o) ->
    descends h i (names ++ [key]) c.

(** The objects a call passes to an [add_*] method. *)
Definition added (o : op) : list oid :=
  match o with
  | OpNew _ _ _ cs => cs
  | OpAdd _ c => [c]
  | OpReplaceWall _ _ w => [w]
  | OpReplacePolygon _ _ ps => ps
  end.

(** The name of object c in heap h (empty text for a dangling id). *)
Definition name_in (h : heap) (c : oid) : str :=
  match nth_error h c with Some o => o_name o | None => [] end.

(** Object c exists and has class k. *)
Definition is_kind (h : heap) (k : kind) (c : oid) : Prop :=
  exists o, nth_error h c = Some o /\ o_kind o = k.

(** Object i is a polygon / solid somewhere inside building b. *)
Definition inside_of (h : heap) (k : kind) (b i : oid) : Prop :=
  is_kind h k i /\ exists names, descends h b names i.
