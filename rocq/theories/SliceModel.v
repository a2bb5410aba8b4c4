(** Slicing polygons (geom/polygon/slice/). *)
From Coq Require Import Ascii String Reals List Bool Arith.
From Verif Require Import Prelude TreeModel VecModel GeomModel TriModel PolyModel SolidModel.
Import ListNotations.
Local Open Scope R_scope.

(** Location constants (slice/constants.py): the pair (type, index). *)
Inductive location := Exterior | Interior | AtVertex (i : nat) | AtEdge (i : nat).

(** The first index with a property (the two enumerate loops of
    locate_slicing_points.py:62-69). *)
Fixpoint first_index {A} (f : A -> bool) (l : list A) (i : nat) : option nat :=
  match l with [] => None | x :: r => if f x then Some i else first_index f r (S i) end.
Fixpoint first_index_m {A} (f : A -> result bool) (l : list A) (i : nat) : result (option nat) :=
  match l with [] => Ok None | x :: r => do b <- f x; if b then Ok (Some i) else first_index_m f r (S i) end.
(** locate_point_on_polygon (slice/locate_slicing_points.py:46-71). *)
Definition locate_point (edges : list (vec * vec)) (pts : list vec) (ts : list tri) (p : vec) : result location :=
  do i <- is_point_inside p pts ts true GEOM_ATOL;
  if negb i then Ok Exterior
  else match first_index (points_equal p) pts 0 with
    | Some v => Ok (AtVertex v)
    | None =>
        do e <- first_index_m (fun e => do d <- distance_point_to_edge p (fst e) (snd e); Ok (isclose d 0 RTOL ATOL8)) edges 0;
        match e with Some k => Ok (AtEdge k) | None => Ok Interior end
    end.
(** locate_slicing_points (18-43). *)
Definition locate_points (edges : list (vec * vec)) (pts : list vec) (ts : list tri) (chain : list vec) : result (list location) :=
  match chain with [] => Err GeometryError | _ => mapM (locate_point edges pts ts) chain end.

(** With the above (slice/locate_slicing_points.py:18-43). *)
Definition is_exterior (l : location) : bool := match l with Exterior => true | _ => false end.
(** With the above (slice/locate_slicing_points.py:18-43). *)
Definition is_interior (l : location) : bool := match l with Interior => true | _ => false end.
(** With the above (slice/locate_slicing_points.py:18-43). *)
Definition is_vertex (l : location) : bool := match l with AtVertex _ => true | _ => false end.
(** With the above (slice/locate_slicing_points.py:18-43). *)
Definition is_edge (l : location) : bool := match l with AtEdge _ => true | _ => false end.
(** sum([1 for loc, _ in sploc if loc == ...]). *)
Definition count_locs (f : location -> bool) (ls : list location) : nat := length (filter f ls).

(** add_intersection_points (slice/add_intersection_points.py:15-85). *)

(** Lines 34-55: the point to be added for a pair of edges, if any. *)
Definition new_crossing (e1 e2 : vec * vec) : option vec :=
  match line_segment_intersection (fst e1) (snd e1) (fst e2) (snd e2) with
  | None => None
  | Some q =>
      if points_equal (fst e1) q then None else if points_equal (snd e1) q then None
      else if points_equal (fst e2) q then None else if points_equal (snd e2) q then None else Some q
  end.
(** Lines 26-67: the point list and the two dictionaries from edge numbers to
    lists of point numbers. *)
Definition crossings := (list vec * dict nat (list nat) * dict nat (list nat))%type.
(** With the above (slice/add_intersection_points.py:26-67). *)
Definition dict_append (d : dict nat (list nat)) (k x : nat) : dict nat (list nat) :=
  match dget d k with None => dset d k [x] | Some l => dset d k (l ++ [x]) end.
(** With the above (slice/add_intersection_points.py:26-67). *)
Definition note_crossing (st : crossings) (i1 i2 : nat) (e1 e2 : vec * vec) : crossings :=
  match new_crossing e1 e2 with
  | None => st
  | Some q => let '(ps, d1, d2) := st in (ps ++ [q], dict_append d1 i1 (length ps), dict_append d2 i2 (length ps))
  end.
(** With the above (slice/add_intersection_points.py:26-67). *)
Definition find_crossings (es1 es2 : list (vec * vec)) : crossings :=
  fold_left (fun st x1 => fold_left (fun st' x2 => note_crossing st' (fst x1) (fst x2) (snd x1) (snd x2)) (enumerate es2) st)
    (enumerate es1) ([], [], []).
(** Lines 69-80. *)
Definition insert_crossings (es : list (vec * vec)) (ps : list vec) (d : dict nat (list nat)) : result (list vec) :=
  do parts <- mapM (fun x => do qs <- mapM (at_index ps) (match dget d (fst x) with Some l => l | None => [] end); Ok (fst (snd x) :: qs)) (enumerate es);
  Ok (concat parts).
(** add_intersection_points (geom/polygon/slice/add_intersection_points.py:16-85). *)
Definition add_intersection_points (pts1 pts2 : list vec) : result (list vec * list vec) :=
  do es1 <- polygon_edges pts1; do es2 <- polygon_edges pts2;
  let '(ps, d1, d2) := find_crossings es1 es2 in
  do o1 <- insert_crossings es1 ps d1; do o2 <- insert_crossings es2 ps d2; Ok (o1, o2).

(** remove_redundant_points (slice/remove_redundant_points.py:21-215). *)

(** roll_forward (points/__init__.py:45-65). *)
Definition roll_forward {A} (l : list A) : list A := match l with [] => [] | x :: _ => last l x :: removelast l end.
(** Lines 119-207: what happens to a point, given the locations of the previous
    point, the point, and the next one (None stands for INVALID_LOC). *)
Inductive verdict := Skip | Keep | KeepAndStop.
Definition edge_ends (edges : list (vec * vec)) (i : nat) : result (list vec) := do e <- at_index edges i; Ok [fst e; snd e].
Definition keep_if (b : bool) : verdict := if b then Keep else Skip.
Definition decide (edges : list (vec * vec)) (pts : list vec) (interior : nat) (prev next : option location) (p : vec) (loc : location) : result verdict :=
  let none := (interior =? 0)%nat in
  match loc with
  | Exterior => Ok Skip
  | Interior => Ok Keep
  | _ =>
      if match next with Some Interior => true | _ => false end then Ok Keep
      else if match prev with Some Interior => true | _ => false end then Ok KeepAndStop
      else match loc with
        | AtVertex i =>
            if match next, prev with Some (AtVertex _), Some (AtEdge _) => false | Some (AtVertex _), _ => true | _, _ => false end then
              match next with Some (AtVertex j) => Ok (keep_if (none && negb (i =? j)%nat)) | _ => Ok Skip end
            else if match prev, next with Some (AtVertex _), Some (AtEdge _) => false | Some (AtVertex _), _ => true | _, _ => false end then
              match prev with Some (AtVertex j) => Ok (keep_if (none && negb (i =? j)%nat)) | _ => Ok Skip end
            else match next, prev with
              | Some (AtEdge j), _ => if none then do ends <- edge_ends edges j; Ok (keep_if (negb (is_point_in_array p ends))) else Ok Skip
              | _, Some (AtEdge j) => if none then do ends <- edge_ends edges j; Ok (keep_if (negb (is_point_in_array p ends))) else Ok Skip
              | _, _ => Ok Skip
              end
        | AtEdge i =>
            match next, prev with
            | Some (AtEdge j), _ => Ok (keep_if (none && negb (i =? j)%nat))
            | _, Some (AtEdge j) => Ok (if none && negb (i =? j)%nat then KeepAndStop else Skip)
            | Some (AtVertex j), _ | _, Some (AtVertex j) =>
                if none then do q <- at_index pts j; do ends <- edge_ends edges i; Ok (keep_if (negb (is_point_in_array q ends))) else Ok Skip
            | _, _ => Ok Skip
            end
        | _ => Ok Skip
        end
  end.
(** Lines 89-207: the loop. *)
Fixpoint keep_loop (edges : list (vec * vec)) (pts : list vec) (interior : nat) (prev : option location) (l : list (vec * location)) : result (list vec) :=
  match l with
  | [] => Ok []
  | (p, loc) :: r =>
      do v <- decide edges pts interior prev (match r with [] => None | x :: _ => Some (snd x) end) p loc;
      match v with
      | Skip => keep_loop edges pts interior (Some loc) r
      | Keep => do q <- keep_loop edges pts interior (Some loc) r; Ok (p :: q)
      | KeepAndStop => Ok [p]
      end
  end.
(** Lines 62-215, given the locations. *)
Definition select_points (edges : list (vec * vec)) (pts : list vec) (chain : list vec) (locs : list location) : result (list vec) :=
  if (length chain =? 4)%nat && (length pts =? 4)%nat && (count_locs is_vertex locs =? 2)%nat && (count_locs is_edge locs =? 2)%nat then
    Ok (map fst (filter (fun x => is_edge (snd x)) (combine chain locs)))
  else keep_loop edges pts (count_locs is_interior locs) None (combine chain locs).
(** Lines 48-60: the recursion on num_try; [tries] is len + 1 - num_try. *)
Definition ends_interior (locs : list location) : bool :=
  match locs with [] => false | l :: _ => is_interior l || is_interior (last locs l) end.
Fixpoint remove_redundant_from (edges : list (vec * vec)) (pts : list vec) (ts : list tri) (tries : nat) (chain : list vec) : result (list vec) :=
  do locs <- locate_points edges pts ts chain;
  if ends_interior locs then
    match tries with
    | O => Ok (firstn 1 chain)
    | S tries' => remove_redundant_from edges pts ts tries' (roll_forward chain)
    end
  else select_points edges pts chain locs.
(** remove_redundant_points (geom/polygon/slice/remove_redundant_points.py:22-215). *)
Definition remove_redundant_points (chain pts : list vec) (ts : list tri) : result (list vec) :=
  do edges <- polygon_edges pts; remove_redundant_from edges pts ts (length chain + 1) chain.

(** get_point_arrays (slice/get_point_arrays.py:19-281). *)

(** "for i in range(len(pts)): if ...: x = i" with x = 0 before (lines 98-111,
    196-209, 242-248). *)
Definition last_index {A} (f : A -> bool) (l : list A) : nat := fold_left (fun acc x => if f (snd x) then fst x else acc) (enumerate l) 0%nat.
(** The while loops (lines 120-136, 220-234, 253-270): the indices visited when
    walking round the outline from [next] up to but without [stop]. *)
Definition step (fwd : bool) (n i : nat) : nat :=
  if fwd then (if (i =? n - 1)%nat then 0%nat else S i) else match i with O => (n - 1)%nat | S j => j end.
(** With the above (slice/get_point_arrays.py:120-136, 220-234, 253-270). *)
Fixpoint walk (fuel : nat) (fwd : bool) (n next stop : nat) : result (list nat) :=
  if (next =? stop)%nat then Ok []
  else match fuel with O => Err OutOfFuel | S fuel' => do r <- walk fuel' fwd n (step fwd n next) stop; Ok (next :: r) end.
(** With the above (slice/get_point_arrays.py:120-136, 220-234, 253-270). *)
Definition walk_points (fwd : bool) (pts : list vec) (next stop : nat) : result (list vec) :=
  do ix <- walk (length pts) fwd (length pts) next stop; mapM (at_index pts) ix.

(** Case 1 (lines 85-139).  inc_1 is -1 in both branches of the test. *)
Definition slice_case1 (edges : list (vec * vec)) (pts chain : list vec) (first_loc last_loc : location) : result (list vec * list vec) :=
  match first_loc, last_loc with
  | AtEdge n1, AtEdge n2 =>
      do e1 <- at_index edges n1; do e2 <- at_index edges n2;
      let next1 := last_index (fun p => points_equal p (fst e2)) pts in
      let next2 := last_index (fun p => points_equal p (snd e2)) pts in
      let last1 := last_index (fun p => points_equal p (snd e1)) pts in
      let last2 := last_index (fun p => points_equal p (fst e1)) pts in
      do w1 <- walk_points false pts next1 last1; do q1 <- at_index pts last1;
      do w2 <- walk_points true pts next2 last2; do q2 <- at_index pts last2;
      Ok (chain ++ w1 ++ [q1], chain ++ w2 ++ [q2])
  | _, _ => Err AssertionError
  end.
(** Case 2 (141-171); [k] is the only element of the set of edges.  A corner
    without a normal compares unequal to everything. *)
Definition opt_allclose (a b : option vec) : bool := match a, b with Some x, Some y => allclose x y RTOL ATOL8 | _, _ => false end.
(** With the above (slice/get_point_arrays.py:141-171). *)
Fixpoint insert_chain (ends chain : list vec) (pts : list vec) : list vec :=
  match pts with
  | [] => []
  | p :: r => if is_point_in_array p ends then p :: chain ++ r else p :: insert_chain ends chain r
  end.
(** With the above (slice/get_point_arrays.py:141-171). *)
Definition slice_case2 (edges : list (vec * vec)) (pts chain : list vec) (k : nat) : result (list vec * list vec) :=
  do t <- first_three chain; let '(sl, s0, s1) := t in
  do u <- first_three pts; let '(pl, p0, p1) := u in
  let sn := normal sl s0 s1 in let pn := normal pl p0 p1 in
  do chain' <- (if opt_allclose (option_map vopp sn) pn then Ok chain
                else if opt_allclose sn pn then Ok (rev chain) else Err ValueError);
  do ends <- edge_ends edges k;
  Ok (chain, insert_chain ends chain' pts).
(** Case 3 (173-237); [k] is the only element of the set of edges.  last_1 and
    last_2 are found with the same test. *)
Definition slice_case3 (edges : list (vec * vec)) (pts chain : list vec) (first_loc last_loc : location) (k : nat) : result (list vec * list vec) :=
  do c <- (match first_loc, last_loc with
           | AtVertex _, AtEdge _ => Ok chain
           | AtEdge _, AtVertex _ => Ok (rev chain)
           | _, _ => Err AssertionError
           end);
  do e <- at_index edges k;
  do c0 <- at_index c 0;
  let next1 := last_index (fun p => points_equal p (fst e)) pts in
  let next2 := last_index (fun p => points_equal p (snd e)) pts in
  let last1 := last_index (fun p => points_equal p c0) pts in
  do w1 <- walk_points false pts next1 last1;
  do w2 <- walk_points true pts next2 last1;
  Ok (c ++ w1, c ++ w2).
(** Case 4 (239-276). *)
Definition slice_case4 (pts chain : list vec) : result (list vec * list vec) :=
  match chain with
  | [] => Err IndexError
  | s0 :: r =>
      let start := last_index (fun p => points_equal p s0) pts in
      let stop := last_index (fun p => points_equal p (last chain s0)) pts in
      do w1 <- walk_points true pts start stop;
      do w2 <- walk_points false pts start stop;
      Ok (w1 ++ rev r, w2 ++ rev r)
  end.
(** Lines 62-83: the two sets as lists without repetition. *)
Definition edge_numbers (locs : list location) : list nat := nodup eq_dec (concat (map (fun l => match l with AtEdge i => [i] | _ => [] end) locs)).
(** With the above (slice/get_point_arrays.py:62-83). *)
Definition vertex_numbers (locs : list location) : list nat := nodup eq_dec (concat (map (fun l => match l with AtVertex i => [i] | _ => [] end) locs)).
(** With the above (slice/get_point_arrays.py:62-83). *)
Definition point_arrays (edges : list (vec * vec)) (pts chain : list vec) (locs : list location) : result (list vec * list vec) :=
  let nv := count_locs is_vertex locs in let ne := count_locs is_edge locs in
  do l0 <- at_index locs 0; do l1 <- at_index locs (length chain - 1);
  match ne, nv, edge_numbers locs, vertex_numbers locs with
  | 2%nat, 0%nat, [_; _], _ => slice_case1 edges pts chain l0 l1
  | 2%nat, 0%nat, [k], _ => slice_case2 edges pts chain k
  | 1%nat, 1%nat, [k], _ => slice_case3 edges pts chain l0 l1 k
  | 0%nat, 2%nat, _, [_; _] => slice_case4 pts chain
  | _, _, _, _ => Err NotImplementedError
  end.
(** get_point_arrays (geom/polygon/slice/get_point_arrays.py:20-281). *)
Definition get_point_arrays (pts : list vec) (ts : list tri) (chain : list vec) : result (list vec * list vec) :=
  if (length chain <? 2)%nat then Err GeometryError
  else
    do edges <- polygon_edges pts;
    do locs <- locate_points edges pts ts chain;
    point_arrays edges pts chain locs.

(** make_polygons (slice/__init__.py:74-154).  Names are assigned without
    validation; the names to be used when none is given are arguments. *)
Definition inside_of (p : polygon) (pt : vec) : result bool := is_point_inside pt (p_pts p) (p_tri p) true GEOM_ATOL.
(** With the above (slice/__init__.py:74-154). *)
Definition assign_names (p1 p2 : polygon) (pt1 pt2 : option vec) (n1 n2 : str) : result (str * str) :=
  match pt1, pt2 with
  | Some a, Some b =>
      do x <- inside_of p1 a;
      do m1 <- (if x then Ok n1 else do y <- inside_of p1 b; if y then Ok n2 else Err GeometryError);
      do x' <- inside_of p2 a;
      do m2 <- (if x' then Ok n1 else do y <- inside_of p2 b; if y then Ok n2 else Err GeometryError);
      Ok (m1, m2)
  | Some a, None =>
      do x <- inside_of p1 a;
      if x then Ok (n1, n2) else do y <- inside_of p2 a; if y then Ok (n2, n1) else Err GeometryError
  | None, Some b =>
      do x <- inside_of p1 b;
      if x then Ok (n2, n1) else do y <- inside_of p2 b; if y then Ok (n1, n2) else Err GeometryError
  | None, None => Ok (n1, n2)
  end.
(** With the above (slice/__init__.py:74-154). *)
Definition or_random (name : option str) (rid : str) : str := match name with Some n => n | None => rid end.
(** make_polygons (geom/polygon/slice/__init__.py:74-154). *)
Definition make_polygons (vn : vec) (pts1 pts2 : list vec) (pt1 : option vec) (name1 : option str) (pt2 : option vec) (name2 : option str) (rid1 rid2 : str)
    : result ((str * polygon) * (str * polygon)) :=
  do p1 <- make_polygon pts1 None (Some vn);
  do p2 <- make_polygon pts2 None (Some vn);
  let n1 := or_random name1 rid1 in let n2 := or_random name2 rid2 in
  do m <- assign_names p1 p2 pt1 pt2 n1 n2;
  if eqb (fst m) n1 && eqb (snd m) n2 then Ok ((fst m, p1), (snd m, p2))
  else if eqb (fst m) n2 && eqb (snd m) n1 then Ok ((snd m, p2), (fst m, p1))
  else Err RuntimeError.

(** slice_polygon (slice/__init__.py:17-71). *)
Definition check_normal (vn : vec) (np : str * polygon) : result (str * polygon) :=
  if allclose (p_vn (snd np)) vn GEOM_RTOL ATOL8 then Ok np
  else do q <- flip_named (fst np) (snd np); if allclose (p_vn (snd q)) vn GEOM_RTOL ATOL8 then Ok q else Err AssertionError.
(** slice_polygon (geom/polygon/slice/__init__.py:17-71). *)
Definition slice_polygon (p : polygon) (chain : list vec) (pt1 : option vec) (name1 : option str) (pt2 : option vec) (name2 : option str) (rid1 rid2 : str)
    : result ((str * polygon) * (str * polygon)) :=
  do c <- are_points_coplanar (p_pts p ++ chain) GEOM_ATOL;
  if negb c then Err AssertionError
  else
    do o <- add_intersection_points (p_pts p) chain;
    do ch <- remove_redundant_points (snd o) (p_pts p) (p_tri p);
    if (length ch <? 2)%nat then Err GeometryError
    else
      do a <- get_point_arrays (p_pts p) (p_tri p) ch;
      do pp <- make_polygons (p_vn p) (fst a) (snd a) pt1 name1 pt2 name2 rid1 rid2;
      do q1 <- check_normal (p_vn p) (fst pp);
      do q2 <- check_normal (p_vn p) (snd pp);
      Ok (q1, q2).
