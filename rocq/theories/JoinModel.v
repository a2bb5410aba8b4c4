(** Building.stitch_solids from the graph cache to the changed building. *)
From Coq Require Import Ascii String List Arith Bool.
From Verif Require Import Prelude TreeModel GraphModel.
Import ListNotations.

(** [self.zones[z_name].solids[s_name]] (building/__init__.py:206-207). *)
Definition solid_at (h : heap) (b : oid) (z s : str) : result oid :=
  do zi <- getitem h b z; getitem h zi s.

Section Join.
  (** The pairwise stitch_solids(s1, s2) (geom/solid/stitch.py:16-28): the
      operations on the objects that it performs and how it ends.  The
      geometry decides about both, so they are arbitrary here (StitchModel
      models them for a pair of solids). *)
  Context (stitch : heap -> oid -> oid -> list op * result unit).

  (** The double loop (building/__init__.py:199-209), edge by edge, with the
      building and the list [done] so far.  Returns the building after the
      loop, or at the exception, and the outcome. *)
  Fixpoint join_edges (h : heap) (b : oid) (done : list (str * str)) (es : list (str * str)) : outcome :=
    match es with
    | [] => (h, Ok tt)
    | (k, a) :: rest =>
        match split_on PATH_SEP k, split_on PATH_SEP a with
        | [_; z1; s]%list, [_; z2; t]%list =>
            if existsb (same_pair (s, t)) done then join_edges h b done rest
            else
              match solid_at h b z1 s, solid_at h b z2 t with
              | Ok i, Ok j =>
                  let '(ops, r) := stitch h i j in
                  match r with
                  | Ok _ => join_edges (run h ops) b (done ++ [(s, t)]) rest
                  | Err e => (run h ops, Err e)
                  end
              | Err e, _ => (h, Err e)
              | _, Err e => (h, Err e)
              end
        | _, _ => (h, Err ValueError)
        end
    end.
  (** The loops over a solid graph (building/__init__.py:199-200). *)
  Definition join_solids (h : heap) (b : oid) (g : graph) : outcome :=
    join_edges h b [] (flat_map (fun '(k, v) => map (fun a => (k, a)) v) g).

  Context (list_of_set : list str -> list str).
  Context (bbox isf isc ist : oid -> oid -> bool).

  (** [self.get_graph(new=False, level="solid", facing=True, overlapping=True)]
      (building/__init__.py:196).  The polygon graph is only computed if the
      cache is empty. *)
  Definition adjacent_solids (c : cache) (h : heap) (b : oid) : cache * result graph :=
    match c_graph c with
    | [] =>
        match building_graph bbox isf isc ist true true false h b with
        | Ok g => get_graph list_of_set (fun _ _ _ _ => g) c tt false LSolid true true false
        | Err e => (c, Err e)
        end
    | _ => (c, Ok (c_solid c))
    end.

  (** Building.stitch_solids (building/__init__.py:191-209). *)
  Definition stitch_building (c : cache) (h : heap) (b : oid) : cache * outcome :=
    let '(c, g) := adjacent_solids c h b in
    match g with
    | Ok g => (c, join_solids h b g)
    | Err e => (c, (h, Err e))
    end.
End Join.
