(** Specification vocabulary for graphs. *)
From Coq Require Import Ascii String List Arith Bool.
From Verif Require Import Prelude TreeModel TreeSpec GraphModel.
Import ListNotations.

(** Neighbours of a node. *)
Definition nbrs (g : graph) (k : str) : list str :=
  match dget g k with Some l => l | None => [] end.

(** y is listed under key x. *)
Definition edge (g : graph) (x y : str) : Prop := exists v, In (x, v) g /\ In y v.

(** An enumeration of sets: the distinct elements, in any order. *)
Definition set_listing (los : list str -> list str) : Prop :=
  forall l, NoDup (los l) /\ (forall x, In x (los l) <-> In x l).

(** Object i lies four levels below building b. *)
Definition polygon_of (h : heap) (b i : oid) : Prop := exists names, length names = 4 /\ descends h b names i.

(** The name of the solid at a solid path "building/zone/solid". *)
Definition solid_name (p n : str) : Prop := exists b z, split_on PATH_SEP p = [b; z; n].

(** The path p leads into the zone called z: z is its second component. *)
Definition in_zone (p z : str) : Prop := exists b, ~ In PATH_SEP b /\ ~ In PATH_SEP z /\
  (p = b ++ PATH_SEP :: z \/ exists r, p = b ++ PATH_SEP :: z ++ PATH_SEP :: r).

(** Equality of two-element sets {a, b}. *)
Definition same_set (p q : str * str) : Prop := p = q \/ (fst p = snd q /\ snd p = fst q).

(** The pair of solid names at the two ends of an edge. *)
Definition names_of (e : str * str) (p : str * str) : Prop :=
  solid_name (fst e) (fst p) /\ solid_name (snd e) (snd p).

(** A history of edits of the building and calls of get_graph, starting from a
    cache and a building value. *)
Section History.
  Context (los : list str -> list str) {bdg : Type} (gp : bdg -> bool -> bool -> bool -> graph).

  Inductive call := CEdit (b : bdg) | CGet (new : bool) (lv : level) (f o t : bool).

  Fixpoint history (c : cache) (b : bdg) (cs : list call) : cache * bdg :=
    match cs with
    | [] => (c, b)
    | CEdit b' :: rest => history c b' rest
    | CGet new lv f o t :: rest => history (fst (get_graph los gp c b new lv f o t)) b rest
    end.

  (** What a fresh computation at a level returns. *)
  Definition fresh (b : bdg) (lv : level) (f o t : bool) : result graph :=
    match lv with
    | LPolygon => Ok (gp b f o t)
    | LWall => Ok (strip_graph los (gp b f o t) 1)
    | LSolid => Ok (strip_graph los (gp b f o t) 2)
    | LZone => Ok (strip_graph los (gp b f o t) 3)
    | LOther => Err ValueError
    end.
End History.
Arguments CEdit {bdg} _.
Arguments CGet {bdg} _ _ _ _ _.

Section Location.
  Context (int_of : str -> option BinNums.Z) (inside : oid -> bool).

  (** [p] names solid i of building b. *)
  Definition is_solid_at (h : heap) (b : oid) (p : str) (i : oid) : Prop :=
    building_get int_of h b p = Ok (GotObj i) /\ is_kind h KSolid i.

  (** [p] names something, but not a solid. *)
  Definition not_solid_at (h : heap) (b : oid) (p : str) : Prop :=
    exists r, building_get int_of h b p = Ok r /\ ~ exists i, r = GotObj i /\ is_kind h KSolid i.

  (** [p] names a solid that does not contain the point. *)
  Definition skipped (h : heap) (b : oid) (p : str) : Prop :=
    exists j, is_solid_at h b p j /\ inside j = false.
End Location.

(** Solid i lies inside building b. *)
Definition solid_of (h : heap) (b i : oid) : Prop :=
  exists names o, descends h b names i /\ nth_error h i = Some o /\ o_kind o = KSolid.

(** Any number of calls of find_transparent on any buildings, with arbitrary
    graphs at each call. *)
Fixpoint ft_run (c : dict nat (list str)) (calls : list (nat * graph)) : dict nat (list str) :=
  match calls with
  | [] => c
  | (i, g) :: rest => ft_run (fst (find_transparent c i g)) rest
  end.
