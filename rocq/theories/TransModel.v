(** The numbers of the transparent polygons: what Simulation.__init__ makes of
    the building before it is simulated (sim/rays/simulation.py). *)
From Coq Require Import ZArith Ascii String List Arith Bool.
From Verif Require Import Prelude TreeModel GraphModel.
Import ListNotations.

(** [p.num = pn] in the loop of to_array_format (io/arrayformat.py:49-91, line
    70): polygons are numbered in the order of the loops.  [num] are the numbers
    polygons have before; a polygon without an entry has num = None. *)
Fixpoint number_from (k : Z) (polys : list oid) (num : dict oid Z) : dict oid Z :=
  match polys with
  | [] => num
  | p :: r => number_from (k + 1) r (dset num p k)
  end.
(** The loops over zones, solids, walls and polygons (io/arrayformat.py:56-70)
    are those of iter_polygons. *)
Definition number_polygons (h : heap) (b : oid) (num : dict oid Z) : result (dict oid Z) :=
  do polys <- iter_polygons h b; Ok (number_from 0 polys num).

(** [s.add(x)] on a set of numbers: a list without repetitions. *)
Definition set_add (l : list Z) (x : Z) : list Z := if memb x l then l else l ++ [x].

Section Numbers.
  Context (int_of : str -> option Z) (h : heap) (b : oid) (num : dict oid Z).

  (** The loop of get_transparent_polygon_numbers
      (sim/rays/simulation.py:112-116). *)
  Fixpoint add_numbers (paths : list str) (nums : list Z) : result (list Z) :=
    match paths with
    | [] => Ok nums
    | p :: r =>
        do g <- building_get int_of h b p;
        match g with
        | GotPoint _ _ => Err AssertionError
        | GotObj i =>
            do o <- deref h i;
            match o_kind o with
            | KPolygon =>
                match dget num i with
                | None => Err AssertionError
                | Some k => add_numbers r (set_add nums k)
                end
            | _ => Err AssertionError
            end
        end
    end.
  (** get_transparent_polygon_numbers (sim/rays/simulation.py:100-118) after
      find_transparent: the set starts with the dummy -1. *)
  Definition transparent_numbers (paths : list str) : result (list Z) := add_numbers paths [(-1)%Z].
End Numbers.

(** Simulation.__init__, lines 31 and 76-79: the polygons are numbered, and the
    transparent ones are searched if the configuration says so.  [bbox] and
    [isf] are the tests on pairs of polygons in graph_polygon, [c] is the CACHE
    of find_transparent, [bid] the id of the building.
    The graph is made anew: the cache of graph_polygon is that of C13. *)
Definition simulation_transparent (int_of : str -> option Z) (bbox isf isc ist : oid -> oid -> bool) (search : bool)
    (c : dict nat (list str)) (bid : nat) (h : heap) (b : oid) (num : dict oid Z) : dict nat (list str) * result (list Z) :=
  match number_polygons h b num with
  | Err e => (c, Err e)
  | Ok num' =>
      if negb search then (c, Ok [(-1)%Z])
      else match dget c bid with
      | Some s => (c, transparent_numbers int_of h b num' s)
      | None =>
          match building_graph bbox isf isc ist true false false h b with
          | Err e => (c, Err e)
          | Ok g =>
              match find_transparent c bid g with
              | (c', Ok s) => (c', transparent_numbers int_of h b num' s)
              | (c', Err e) => (c', Err e)
              end
          end
      end
  end.

(** The simulation loop first removes the dummy from a set with other numbers
    (sim/rays/simulation_loop.py:78-79). *)
Definition without_dummy (l : list Z) : list Z :=
  if (1 <? length l) && memb (-1)%Z l then remove Z.eq_dec (-1)%Z l else l.
