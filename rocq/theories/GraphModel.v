(** Building graphs, their cache, and the searches built on them. *)
From Coq Require Import Ascii String List Arith Bool.
From Verif Require Import Prelude TreeModel.
Import ListNotations.

Definition graph : Type := dict str (list str).

Section PolygonGraph.
  (** Polygons are identified by object ids; their paths, bounding-box overlap
      and the three geometric relations are arbitrary functions here. *)
  Context (path_of : oid -> str).
  Context (bbox_overlap is_facing is_crossing is_touching : oid -> oid -> bool).
  Context (facing overlapping touching : bool).

  (** [if p not in g: g[p] = []] (geom/building/graph.py:52-55). *)
  Definition ensure (g : graph) (k : str) : graph :=
    match dget g k with None => dset g k [] | Some _ => g end.

  (** [g[k].append(x)] (graph.py:74-75). *)
  Definition append_to (g : graph) (k x : str) : result graph :=
    do l <- dlookup g k; Ok (dset g k (l ++ [x])).

  (** Connection test graph.py:65-73: [np.array(cond).any()]. *)
  Definition connected (a b : oid) : bool :=
    existsb (fun x => x)
      ((if facing then [is_facing a b] else []) ++
       (if overlapping then [is_crossing a b] else []) ++
       (if touching then [is_touching a b] else [])).

  (** Body of the double loop, graph.py:48-77.  The progress counter
      (num_checked) only drives logging and is dropped. *)
  Definition visit_pair (st : graph * list (str * str)) (pl1 pl2 : oid)
      : result (graph * list (str * str)) :=
    let '(g, checked) := st in
    if Nat.eqb pl1 pl2 then Ok st
    else if memb (path_of pl1, path_of pl2) checked then Ok st
    else
      let g := ensure g (path_of pl1) in
      let g := ensure g (path_of pl2) in
      if negb (bbox_overlap pl1 pl2) then Ok (g, checked)
      else if connected pl1 pl2 then
        do g <- append_to g (path_of pl1) (path_of pl2);
        do g <- append_to g (path_of pl2) (path_of pl1);
        Ok (g, (path_of pl1, path_of pl2) :: (path_of pl2, path_of pl1) :: checked)
      else Ok (g, checked).

  (** With the above (graph.py:48-77). *)
  Fixpoint visit_all (st : graph * list (str * str)) (pairs : list (oid * oid))
      : result (graph * list (str * str)) :=
    match pairs with
    | [] => Ok st
    | (a, b) :: rest => do st' <- visit_pair st a b; visit_all st' rest
    end.

  (** graph_polygon (graph.py:18-79).  [polys] is the sequence produced by
      [iter_polygons] (graph.py:177-183). *)
  Definition graph_polygon (polys : list oid) : result graph :=
    do st <- visit_all ([], []) (list_prod polys polys);
    Ok (fst st).
End PolygonGraph.

(** iter_polygons (graph.py:177-183) on the heap. *)
Definition iter_polygons (h : heap) (b : oid) : result (list oid) :=
  do zs <- kids h b;
  concatM (fun '(_, z) =>
    do ss <- kids h z;
    concatM (fun '(_, s) =>
      do ws <- kids h s;
      concatM (fun '(_, w) => do ps <- kids h w; Ok (dvals ps)) ws) ss) zs.

(** [pl.path] when it exists; [building_graph] first checks that it does. *)
Definition path_of (h : heap) (i : oid) : str :=
  match path h i with Ok p => p | Err _ => [] end.

(** graph_polygon(bdg, facing, overlapping, touching) on the heap. *)
Definition building_graph (bbox isf isc ist : oid -> oid -> bool) (f o t : bool)
    (h : heap) (b : oid) : result graph :=
  do polys <- iter_polygons h b;
  do _ <- mapM (path h) polys;
  graph_polygon (path_of h) bbox isf isc ist f o t polys.

(** remove_last (graph.py:170-174). *)
Fixpoint remove_last (path : str) (n : nat) : str :=
  match n with
  | O => path
  | S n' => remove_last (join_with PATH_SEP (removelast (split_on PATH_SEP path))) n'
  end.

Section Strip.
  (** [list(set(l))]: the iteration order of a Python set is unspecified. *)
  Context (list_of_set : list str -> list str).

  (** First loop of strip_graph (graph.py:154-162). *)
  Fixpoint strip_collect (gnew : graph) (g : graph) (n : nat) : graph :=
    match g with
    | [] => gnew
    | (k, v) :: rest =>
        let new_k := remove_last k n in
        let new_v := map (fun x => remove_last x n) v in
        let new_v := filter (fun x => negb (eqb x new_k)) new_v in
        let gnew := match dget gnew new_k with
                    | Some old => dset gnew new_k (old ++ new_v)
                    | None => dset gnew new_k new_v
                    end in
        strip_collect gnew rest n
    end.

  (** strip_graph (graph.py:148-167). *)
  Definition strip_graph (g : graph) (n : nat) : graph :=
    map (fun '(k, v) => (k, list_of_set v)) (strip_collect [] g n).

  (** ** The graph cache of a building (building/__init__.py:55-58, 143-189) *)
  Context {bdg : Type}.
  (** graph_polygon(self, facing, overlapping, touching) for a building value. *)
  Context (gp : bdg -> bool -> bool -> bool -> graph).

  Record cache : Type := mkCache {
    c_graph : graph; c_wall : graph; c_solid : graph; c_zone : graph }.
  Definition cache0 : cache := mkCache [] [] [] [].

  (** graph_wall / graph_solid / graph_zone (graph.py:82-145): recompute the
      polygon graph if the given one is empty. *)
  Definition graph_level (b : bdg) (f o t : bool) (g : graph) (n : nat) : graph :=
    let g := match g with [] => gp b f o t | _ => g end in strip_graph g n.

  Inductive level : Type := LPolygon | LWall | LSolid | LZone | LOther.

  (** Building.get_graph (building/__init__.py:143-189): new cache and result. *)
  Definition get_graph (c : cache) (b : bdg) (new : bool) (lv : level) (f o t : bool)
      : cache * result graph :=
    let new := match c_graph c with [] => true | _ => new end in
    let c := if new then
      let g := gp b f o t in
      mkCache g (graph_level b f o t g 1) (graph_level b f o t g 2) (graph_level b f o t g 3)
      else c in
    (c, match lv with
        | LPolygon => Ok (c_graph c)
        | LWall => Ok (c_wall c)
        | LSolid => Ok (c_solid c)
        | LZone => Ok (c_zone c)
        | LOther => Err ValueError
        end).
End Strip.

(** ** Building.stitch_solids (building/__init__.py:191-209) *)

(** [set([a, b])] equality of two-element sets. *)
Definition same_pair (p q : str * str) : bool :=
  (eqb (fst p) (fst q) && eqb (snd p) (snd q)) || (eqb (fst p) (snd q) && eqb (snd p) (fst q)).

(** One edge of the solid graph: returns the updated [done] list and the calls
    made.  A path that does not have exactly three components raises
    ValueError when unpacked (lines 201-202). *)
Definition stitch_edge (done : list (str * str)) (s_path adj : str)
    : result (list (str * str) * list (str * str)) :=
  match split_on PATH_SEP s_path, split_on PATH_SEP adj with
  | [_; z1; s]%list, [_; z2; a]%list =>
      if existsb (same_pair (s, a)) done then Ok (done, [])
      else Ok (done ++ [(s, a)], [(s_path, adj)])
  | _, _ => Err ValueError
  end.

Fixpoint stitch_edges (done : list (str * str)) (es : list (str * str))
    : result (list (str * str)) :=
  match es with
  | [] => Ok []
  | (k, a) :: rest =>
      do r <- stitch_edge done k a;
      do cs <- stitch_edges (fst r) rest;
      Ok (snd r ++ cs)
  end.

(** The list of (solid, solid) pairs passed to stitch_solids, in order, for the
    solid graph [g].  Simplification: the pairwise stitch itself is a call whose
    effect on the geometry is not part of this function; it cannot change [g],
    which was computed before the loop.  The lookups
    [self.zones[z].solids[s]] and the changed building are in JoinModel. *)
Definition stitch_calls (g : graph) : result (list (str * str)) :=
  stitch_edges [] (flat_map (fun '(k, v) => map (fun a => (k, a)) v) g).

(** ** find_location (geom/building/find_location.py:6-44) *)
Section FindLocation.
  Context (int_of : str -> option BinNums.Z).
  (** Solid.is_point_inside(p) for the point searched. *)
  Context (inside : oid -> bool).

  (** Lines 19-21. *)
  Definition solid_paths (h : heap) (b : oid) : result (list str) :=
    do zs <- kids h b;
    concatM (fun '(_, z) => do ss <- kids h z; mapM (fun '(_, s) => path h s) ss) zs.

  (** Lines 27-40. *)
  Fixpoint search_solids (h : heap) (b : oid) (l : list str) : result str :=
    match l with
    | [] => Err RuntimeError
    | p :: rest =>
        do s <- building_get int_of h b p;
        match s with
        | GotObj i =>
            do o <- deref h i;
            match o_kind o with
            | KSolid => if inside i then Ok p else search_solids h b rest
            | _ => Err TypeError
            end
        | GotPoint _ _ => Err TypeError
        end
    end.

  (** find_location (geom/building/find_location.py:6-44). *)
  Definition find_location (h : heap) (b : oid) (first_look_at : list str) : result str :=
    do ps <- solid_paths h b;
    do location <- search_solids h b (first_look_at ++ ps);
    match location with [] => Err AssertionError | _ => Ok location end.
End FindLocation.

(** ** find_transparent (sim/rays/find_transparent.py:36-83) *)

(** [_, z0, *_ = split_path(k)]: ValueError with fewer than two components. *)
Definition zone_of (p : str) : result str :=
  do l <- split_path p;
  match l with
  | _ :: z :: _ => Ok z
  | _ => Err ValueError
  end.

(** Lines 60-77; [acc] is transparent_polygons, [added] the set of paths. *)
Fixpoint transparent_loop (g : graph) (acc added : list str) : result (list str) :=
  match g with
  | [] => Ok acc
  | (k, v) :: rest =>
      match v with
      | [] => transparent_loop rest acc added
      | [x] =>
          if negb (memb k added) || negb (memb x added) then
            do z0 <- zone_of k;
            do z1 <- zone_of x;
            if eqb z0 z1
            then transparent_loop rest (acc ++ [k; x]) (x :: k :: added)
            else transparent_loop rest acc added
          else transparent_loop rest acc added
      | _ => Err AssertionError
      end
  end.

(** The whole function with its module-level CACHE, keyed by [id(building)]. *)
Definition find_transparent (c : dict nat (list str)) (bid : nat) (g : graph)
    : dict nat (list str) * result (list str) :=
  match dget c bid with
  | Some s => (c, Ok s)
  | None =>
      match transparent_loop g [] [] with
      | Ok l => let s := nodup eq_dec l in (dset c bid s, Ok s)
      | Err e => (c, Err e)
      end
  end.
