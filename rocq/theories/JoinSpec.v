(** Vocabulary for stitching the solids of a building. *)
From Coq Require Import Ascii String List Arith Bool.
From Verif Require Import Prelude TreeModel TreeSpec GraphModel GraphSpec JoinModel.
Import ListNotations.

(** Stitching only makes polygons and replaces polygons of walls. *)
Definition polygon_op (o : op) : Prop :=
  match o with OpNew KPolygon _ _ _ | OpReplacePolygon _ _ _ => True | _ => False end.

(** The pairs of solids are stitched one after the other, each in the building
    that the ones before left, up to the first exception. *)
Inductive joined (stitch : heap -> oid -> oid -> list op * result unit) : heap -> list (oid * oid) -> heap -> result unit -> Prop :=
| joined_all h : joined stitch h [] h (Ok tt)
| joined_next h i j ops u cs h' r : stitch h i j = (ops, Ok u) -> joined stitch (run h ops) cs h' r -> joined stitch h ((i, j) :: cs) h' r
| joined_stop h i j ops e cs : stitch h i j = (ops, Err e) -> joined stitch h ((i, j) :: cs) (run h ops) (Err e).

(** Two different solids of the building with connected polygons. *)
Definition adjacent (conn : oid -> oid -> Prop) (h : heap) (b i j : oid) : Prop :=
  inside_of h KSolid b i /\ inside_of h KSolid b j /\ i <> j /\
  exists p q, inside_of h KPolygon i p /\ inside_of h KPolygon j q /\ (conn p q \/ conn q p).
(** Polygons are connected under the given flags. *)
Definition conn_by (bbox isf isc ist : oid -> oid -> bool) (f o t : bool) (p q : oid) : Prop :=
  bbox p q = true /\ ((f = true /\ isf p q = true) \/ (o = true /\ isc p q = true) \/ (t = true /\ ist p q = true)).

(** The names of two solids are those of two others. *)
Definition same_names (h : heap) (x y : oid * oid) : Prop :=
  same_set (name_in h (fst x), name_in h (snd x)) (name_in h (fst y), name_in h (snd y)).
(** The pairs of solids to be stitched: adjacent solids, one pair for each pair
    of names. *)
Definition one_per_names (adj : oid -> oid -> Prop) (h : heap) (cs : list (oid * oid)) : Prop :=
  (forall i j, In (i, j) cs -> adj i j) /\
  (forall i j, adj i j -> exists c, In c cs /\ same_names h (i, j) c) /\
  ForallOrdPairs (fun c d => ~ same_names h c d) cs.
