(** Properties C60-C63: slicing polygons. *)
From Coq Require Import Reals List Bool Arith Lia Lra ZArith Permutation.
From Verif Require Import Prelude TreeModel VecModel VecProofs GeomModel GeomSpec GeomProofs1 GeomProofs2 GeomProofs3 GeomProofs4 TriModel PolyModel PolySpec PolyProofs1 PolyProofs2 VisModel VisSpec SliceModel SliceSpec SliceProofs1 SliceProofs3 SliceProofs4 SliceProofs5 SliceProofs6 SliceProofs7 SliceProofs8 SliceProofs9 SliceProofs10.
Import ListNotations.
Local Open Scope R_scope.

(** C60: a chain between two places on the outline with no other point on the
    outline gives the two parts of the outline cut along the chain. *)
Theorem C60_parts pts ts x M y l0 L l1 : told_apart pts -> NoDup pts ->
  locate_points (cyc_pairs pts) pts ts (x :: M ++ [y]) = Ok (l0 :: L ++ [l1]) ->
  known_end pts l0 x -> known_end pts l1 y -> l0 <> l1 -> forallb (fun l => negb (boundary l)) L = true ->
  exists q1 q2, get_point_arrays pts ts (x :: M ++ [y]) = Ok (q1, q2) /\ parts_of pts (x :: M ++ [y]) x l0 y l1 q1 q2.
Proof. exact (parts_spec pts ts x M y l0 L l1). Qed.
(** The edges of two parts are those of the outline and the chain, the latter
    once in each direction. *)
Theorem C60_edges outline chain p1 p2 : cut outline chain p1 p2 ->
  Permutation (cyc_pairs p1 ++ cyc_pairs p2) (cyc_pairs outline ++ chain_edges chain ++ map (fun e => (snd e, fst e)) (chain_edges chain)).
Proof. exact (cut_edges outline chain p1 p2). Qed.
(** The vector areas of the parts make up that of the polygon. *)
Theorem C60_vector_area pts chain x l0 y l1 q1 q2 : l0 <> l1 -> exact_end pts l0 x -> exact_end pts l1 y -> parts_of pts chain x l0 y l1 q1 q2 ->
  match l0, l1 with AtVertex _, AtVertex _ => vsub (vector_area2 q1) (vector_area2 q2) | _, _ => vsub (vector_area2 q2) (vector_area2 q1) end = vector_area2 pts.
Proof. exact (parts_area pts chain x l0 y l1 q1 q2). Qed.
(** So do the areas, exactly when the two arrays go round in opposite
    directions; otherwise the parts are larger than the polygon. *)
Theorem C60_area pts chain x l0 y l1 q1 q2 vn : l0 <> l1 -> exact_end pts l0 x -> exact_end pts l1 y -> parts_of pts chain x l0 y l1 q1 q2 ->
  polygon_area pts vn <= polygon_area q1 vn + polygon_area q2 vn /\
  (polygon_area q1 vn + polygon_area q2 vn = polygon_area pts vn <-> signed_area2 q1 vn * signed_area2 q2 vn <= 0).
Proof. exact (parts_areas pts chain x l0 y l1 q1 q2 vn). Qed.
(** The two polygons returned by slice_polygon: same normal, seen in the positive
    direction, points and areas of the two arrays. *)
Theorem C60_polygons p chain pt1 n1 pt2 n2 r1 r2 a b : slice_polygon p chain pt1 n1 pt2 n2 r1 r2 = Ok (a, b) ->
  exists o ch q1 q2, add_intersection_points (p_pts p) chain = Ok o /\ remove_redundant_points (snd o) (p_pts p) (p_tri p) = Ok ch /\ get_point_arrays (p_pts p) (p_tri p) ch = Ok (q1, q2) /\
    p_vn (snd a) = p_vn p /\ p_vn (snd b) = p_vn p /\
    ((p_pts (snd a) = q1 \/ p_pts (snd a) = rev q1) /\ (p_pts (snd b) = q2 \/ p_pts (snd b) = rev q2) \/ (p_pts (snd a) = q2 \/ p_pts (snd a) = rev q2) /\ (p_pts (snd b) = q1 \/ p_pts (snd b) = rev q1)) /\
    p_area (snd a) + p_area (snd b) = polygon_area q1 (p_vn p) + polygon_area q2 (p_vn p) /\ 0 < signed_area2 (p_pts (snd a)) (p_vn p) /\ 0 < signed_area2 (p_pts (snd b)) (p_vn p).
Proof. exact (slice_polygons p chain pt1 n1 pt2 n2 r1 r2 a b). Qed.
Theorem C60_slice p chain pt1 n1 pt2 n2 r1 r2 a b : slice_polygon p chain pt1 n1 pt2 n2 r1 r2 = Ok (a, b) -> told_apart (p_pts p) -> NoDup (p_pts p) ->
  forall o x M y l0 L l1, add_intersection_points (p_pts p) chain = Ok o -> remove_redundant_points (snd o) (p_pts p) (p_tri p) = Ok (x :: M ++ [y]) ->
  locate_points (cyc_pairs (p_pts p)) (p_pts p) (p_tri p) (x :: M ++ [y]) = Ok (l0 :: L ++ [l1]) -> exact_end (p_pts p) l0 x -> exact_end (p_pts p) l1 y -> l0 <> l1 -> forallb (fun l => negb (boundary l)) L = true ->
  polygon_area (p_pts p) (p_vn p) <= p_area (snd a) + p_area (snd b) /\
  exists q1 q2, parts_of (p_pts p) (x :: M ++ [y]) x l0 y l1 q1 q2 /\ (p_area (snd a) + p_area (snd b) = polygon_area (p_pts p) (p_vn p) <-> signed_area2 q1 (p_vn p) * signed_area2 q2 (p_vn p) <= 0).
Proof. exact (sliced_areas p chain pt1 n1 pt2 n2 r1 r2 a b). Qed.
(** A chain with both ends on one edge k: the first array is the chain, the
    second one the outline with the chain put in after vertex j, in the
    direction given by the first corners. *)
Theorem C60_same_edge pts ts x M y k L s p n : told_apart pts -> NoDup pts -> (k < length pts)%nat ->
  locate_points (cyc_pairs pts) pts ts (x :: M ++ [y]) = Ok (AtEdge k :: L ++ [AtEdge k]) -> forallb (fun l => negb (boundary l)) L = true ->
  first_three (x :: M ++ [y]) = Ok s -> first_three pts = Ok p -> unit n ->
  let '(sl, s0, s1) := s in let '(pl, p0, p1) := p in normal pl p0 p1 = Some n ->
  let j := if (k =? length pts - 1)%nat then 0%nat else k in
  (normal sl s0 s1 = Some n -> get_point_arrays pts ts (x :: M ++ [y]) = Ok (x :: M ++ [y], put_after j (rev (x :: M ++ [y])) pts)) /\
  (normal sl s0 s1 = Some (vopp n) -> get_point_arrays pts ts (x :: M ++ [y]) = Ok (x :: M ++ [y], put_after j (x :: M ++ [y]) pts)) /\
  (normal sl s0 s1 = None -> get_point_arrays pts ts (x :: M ++ [y]) = Err ValueError).
Proof. exact (same_edge_spec pts ts x M y k L s p n). Qed.
(** Put in after the start of its own edge the chain adds its vector area. *)
Theorem C60_same_edge_area pts k c x y a b : nth_error (cyc_pairs pts) k = Some (a, b) -> a <> b -> (exists M, c = x :: M ++ [y]) -> cross (vsub x a) (vsub b a) = vzero -> cross (vsub y a) (vsub b a) = vzero ->
  vector_area2 (put_after k c pts) = vadd (vector_area2 pts) (vector_area2 c).
Proof. exact (put_area pts k c x y a b). Qed.
(** But the index used for the closing edge is 0, so the same notch that can be
    cut out of another edge of a square cannot be cut out of its closing edge. *)
Theorem C60_closing_edge_refuted : exists p, make_polygon (map at3 sq6) None None = Ok p /\
  locate_points (cyc_pairs (p_pts p)) (p_pts p) (p_tri p) (map at3 notch) = Ok [AtEdge 0; Interior; Interior; AtEdge 0] /\
  locate_points (cyc_pairs (p_pts p)) (p_pts p) (p_tri p) (map at3 side_notch) = Ok [AtEdge 3; Interior; Interior; AtEdge 3] /\
  (exists a b, slice_polygon p (map at3 notch) None None None None [] [] = Ok (a, b)) /\ slice_polygon p (map at3 side_notch) None None None None [] [] = Err TriangulationError.
Proof. exact closing_edge. Qed.
(** And for a polygon given from a reflex corner the direction is the wrong one. *)
Theorem C60_reflex_start_refuted : exists p, make_polygon (map at3 lshape) None (Some (at3 up)) = Ok p /\ p_pts p = map at3 lshape /\ p_tri p = lshape_tri /\ p_vn p = at3 up /\
  locate_points (cyc_pairs (p_pts p)) (p_pts p) (p_tri p) (map at3 lnotch) = Ok [AtEdge 3; Interior; Interior; AtEdge 3] /\
  forall r1 r2, slice_polygon p (map at3 lnotch) None None None None r1 r2 = Err TriangulationError.
Proof. exact slice_lshape. Qed.
(** Chains that cannot be used. *)
Theorem C60_short pts ts chain : (length chain < 2)%nat -> get_point_arrays pts ts chain = Err GeometryError.
Proof. exact (short_chain pts ts chain). Qed.
Theorem C60_count pts ts chain ls : pts <> [] -> (2 <= length chain)%nat -> locate_points (cyc_pairs pts) pts ts chain = Ok ls -> count_locs boundary ls <> 2%nat -> get_point_arrays pts ts chain = Err NotImplementedError.
Proof. exact (wrong_count pts ts chain ls). Qed.
Theorem C60_ends_inside pts ts chain ls i l0 l1 : pts <> [] -> (2 <= length chain)%nat -> locate_points (cyc_pairs pts) pts ts chain = Ok ls -> count_locs boundary ls = 2%nat ->
  In (AtEdge i) ls -> (exists j, In (AtVertex j) ls \/ j <> i /\ In (AtEdge j) ls) ->
  nth_error ls 0 = Some l0 -> nth_error ls (length chain - 1) = Some l1 -> boundary l0 = false \/ boundary l1 = false -> get_point_arrays pts ts chain = Err AssertionError.
Proof. exact (ends_inside pts ts chain ls i l0 l1). Qed.
Theorem C60_same_vertex pts ts x M y i L : pts <> [] -> locate_points (cyc_pairs pts) pts ts (x :: M ++ [y]) = Ok (AtVertex i :: L ++ [AtVertex i]) -> get_point_arrays pts ts (x :: M ++ [y]) = Err NotImplementedError.
Proof. exact (same_vertex pts ts x M y i L). Qed.
(** A square cut across between its sides 3 and 1. *)
Example C60_ex : told_apart (map at3 sq6) /\ NoDup (map at3 sq6) /\ locate_points (cyc_pairs (map at3 sq6)) (map at3 sq6) sq6_tri (map at3 across_kept) = Ok [AtEdge 3; Interior; AtEdge 1] /\
  known_end (map at3 sq6) (AtEdge 3) (at3 (0, 3, 0)%Z) /\ known_end (map at3 sq6) (AtEdge 1) (at3 (6, 3, 0)%Z) /\ exact_end (map at3 sq6) (AtEdge 3) (at3 (0, 3, 0)%Z) /\ exact_end (map at3 sq6) (AtEdge 1) (at3 (6, 3, 0)%Z) /\
  get_point_arrays (map at3 sq6) sq6_tri (map at3 across_kept) = Ok (map at3 lower, map at3 upper).
Proof.
  destruct sq6_apart as (T & N & _). split; auto. split; auto. split; [exact across_locs|]. split; [cbn; lia|]. split; [cbn; lia|]. split; [|split; [|exact across_arrays]]; (do 2 eexists; split; [reflexivity|]; unfold at3; vunf; unfold vzero; f_equal; ring).
Qed.
Example C60_slice_ex : exists p p1 p2, make_polygon (map at3 sq6) None None = Ok p /\ slice_polygon p (map at3 across) None None None None [] [] = Ok (([], p1), ([], p2)) /\ p_pts p1 = map at3 (rev lower) /\ p_pts p2 = map at3 upper.
Proof. destruct square_exists as (p & S). destruct (slice_across p S [] []) as (p1 & p2 & H). exists p, p1, p2. split; [apply S|auto]. Qed.
Print Assumptions C60_parts.
Print Assumptions C60_edges.
Print Assumptions C60_vector_area.
Print Assumptions C60_area.
Print Assumptions C60_polygons.
Print Assumptions C60_slice.
Print Assumptions C60_same_edge.
Print Assumptions C60_same_edge_area.
Print Assumptions C60_closing_edge_refuted.
Print Assumptions C60_reflex_start_refuted.
Print Assumptions C60_short.
Print Assumptions C60_count.
Print Assumptions C60_ends_inside.
Print Assumptions C60_same_vertex.

(** The name asked for, or else the random one. *)
Definition given (name : option str) (rid : str) : str := match name with Some n => n | None => rid end.
(** C61: the parts come in the order of the names. *)
Theorem C61_names vn q1 q2 pt1 n1 pt2 n2 r1 r2 a b : make_polygons vn q1 q2 pt1 n1 pt2 n2 r1 r2 = Ok (a, b) ->
  exists p1 p2, make_polygon q1 None (Some vn) = Ok p1 /\ make_polygon q2 None (Some vn) = Ok p2 /\ fst a = given n1 r1 /\ fst b = given n2 r2 /\ (snd a = p1 /\ snd b = p2 \/ snd a = p2 /\ snd b = p1).
Proof. exact (make_polygons_parts vn q1 q2 pt1 n1 pt2 n2 r1 r2 a b). Qed.
(** With different names the part with the first name contains the first
    reference point and the other one the second. *)
Theorem C61_points vn q1 q2 pt1 name1 pt2 name2 r1 r2 a b : make_polygons vn q1 q2 pt1 name1 pt2 name2 r1 r2 = Ok (a, b) -> given name1 r1 <> given name2 r2 ->
  (forall x, pt1 = Some x -> part_contains (snd a) x true) /\
  (forall y, pt2 = Some y -> part_contains (snd b) y true) /\
  (forall x y, pt1 = Some x -> pt2 = Some y -> part_contains (snd b) x false).
Proof. exact (names_spec vn q1 q2 pt1 name1 pt2 name2 r1 r2 a b). Qed.
(** What happens for every outcome of the containment tests. *)
Theorem C61_outcomes vn q1 q2 name1 name2 r1 r2 p1 p2 : make_polygon q1 None (Some vn) = Ok p1 -> make_polygon q2 None (Some vn) = Ok p2 -> let n1 := given name1 r1 in let n2 := given name2 r2 in n1 <> n2 ->
  (forall x i1 i2, part_contains p1 x i1 -> part_contains p2 x i2 ->
     make_polygons vn q1 q2 (Some x) name1 None name2 r1 r2 = (if i1 then Ok ((n1, p1), (n2, p2)) else if i2 then Ok ((n1, p2), (n2, p1)) else Err GeometryError) /\
     make_polygons vn q1 q2 None name1 (Some x) name2 r1 r2 = (if i1 then Ok ((n1, p2), (n2, p1)) else if i2 then Ok ((n1, p1), (n2, p2)) else Err GeometryError)) /\
  (forall x y i1 i2 j1 j2, part_contains p1 x i1 -> part_contains p2 x i2 -> part_contains p1 y j1 -> part_contains p2 y j2 ->
     make_polygons vn q1 q2 (Some x) name1 (Some y) name2 r1 r2 =
     (if negb (i1 || j1) || negb (i2 || j2) then Err GeometryError
      else match i1, i2 with
           | true, false => Ok ((n1, p1), (n2, p2))
           | false, true => Ok ((n1, p2), (n2, p1))
           | _, _ => Err RuntimeError
           end)).
Proof. exact (names_table vn q1 q2 name1 name2 r1 r2 p1 p2). Qed.
(** Without reference points, or with equal names, the order of the arrays is
    kept, wherever the reference points are. *)
Theorem C61_order vn q1 q2 pt1 name1 pt2 name2 r1 r2 a b : make_polygons vn q1 q2 pt1 name1 pt2 name2 r1 r2 = Ok (a, b) ->
  given name1 r1 = given name2 r2 \/ (pt1 = None /\ pt2 = None) -> make_polygon q1 None (Some vn) = Ok (snd a) /\ make_polygon q2 None (Some vn) = Ok (snd b).
Proof. exact (names_order vn q1 q2 pt1 name1 pt2 name2 r1 r2 a b). Qed.
(** So with equal names the first part need not contain the first point. *)
Theorem C61_equal_names_refuted : exists vn q1 q2 x a b, make_polygons vn q1 q2 (Some x) (Some []) None (Some []) [] [] = Ok (a, b) /\ part_contains (snd a) x false /\ part_contains (snd b) x true.
Proof. exact equal_names. Qed.
(** The two halves of the square, with a point in the upper half. *)
Example C61_ex : exists p1 p2, make_polygon (map at3 lower) None (Some (at3 up)) = Ok p1 /\ make_polygon (map at3 upper) None (Some (at3 up)) = Ok p2 /\ part_contains p1 (at3 (1, 5, 0)%Z) false /\ part_contains p2 (at3 (1, 5, 0)%Z) true.
Proof. exact halves. Qed.
Print Assumptions C61_names.
Print Assumptions C61_points.
Print Assumptions C61_outcomes.
Print Assumptions C61_order.
Print Assumptions C61_equal_names_refuted.

(** C62: every edge's start is followed by its crossings with the edges of the
    other outline, in the order of those edges. *)
Theorem C62_added pts1 pts2 : pts1 <> [] -> pts2 <> [] -> exists o1 o2, add_intersection_points pts1 pts2 = Ok (o1, o2) /\
  with_crossings crossing_of (cyc_pairs pts1) (cyc_pairs pts2) o1 /\ with_crossings (fun e2 e1 q => crossing_of e1 e2 q) (cyc_pairs pts2) (cyc_pairs pts1) o2.
Proof. exact (added_spec pts1 pts2). Qed.
(** The vertices are kept in order and the same points are put into both. *)
Theorem C62_same_points pts1 pts2 o1 o2 : pts1 <> [] -> pts2 <> [] -> add_intersection_points pts1 pts2 = Ok (o1, o2) ->
  subseq pts1 o1 /\ subseq pts2 o2 /\ exists new, Permutation o1 (pts1 ++ new) /\ Permutation o2 (pts2 ++ new) /\ forall q, In q new <-> exists e1 e2, In e1 (cyc_pairs pts1) /\ In e2 (cyc_pairs pts2) /\ crossing_of e1 e2 q.
Proof. exact (added_same pts1 pts2 o1 o2). Qed.
(** Real crossings count, unless the edges seem parallel. *)
Theorem C62_crossing a1 b1 a2 b2 q : ~ seem_zero (vsub b1 a1) -> ~ seem_zero (vsub b2 a2) -> ~ seem_parallel (vsub b1 a1) (vsub b2 a2) -> on_segment a1 b1 q -> on_segment a2 b2 q ->
  points_equal a1 q = false -> points_equal b1 q = false -> points_equal a2 q = false -> points_equal b2 q = false -> crossing_of (a1, b1) (a2, b2) q.
Proof. exact (crossing_complete a1 b1 a2 b2 q). Qed.
(** Several points on an edge need not be in the order along it. *)
Theorem C62_order_refuted : exists pts1 pts2 o1 o2 a b q r rest, add_intersection_points pts1 pts2 = Ok (o1, o2) /\ hd_error (cyc_pairs pts1) = Some (a, b) /\
  o1 = a :: q :: r :: b :: rest /\ on_segment a b q /\ on_segment a b r /\ dist a r < dist a q.
Proof. exact order_refuted. Qed.
Example C62_ex : add_intersection_points (map at3 sq6) (map at3 [(4, -1, 0); (4, 1, 0); (2, 1, 0); (2, -1, 0)]%Z) =
  Ok (map at3 [(0, 0, 0); (4, 0, 0); (2, 0, 0); (6, 0, 0); (6, 6, 0); (0, 6, 0)]%Z, map at3 [(4, -1, 0); (4, 0, 0); (4, 1, 0); (2, 1, 0); (2, 0, 0); (2, -1, 0)]%Z).
Proof. exact wrong_order. Qed.
Print Assumptions C62_added.
Print Assumptions C62_same_points.
Print Assumptions C62_crossing.
Print Assumptions C62_order_refuted.

(** C63: as soon as the points can be located there is a result: points of a
    rotation of the chain, none of them outside the polygon, or just the last
    point when every rotation begins or ends inside. *)
Theorem C63_result chain pts ts ls : pts <> [] -> locate_points (cyc_pairs pts) pts ts chain = Ok ls -> exists out, remove_redundant_points chain pts ts = Ok out /\
  ((exists zs kept, rotation_of (combine chain ls) zs /\ ~ interior_end (map snd zs) /\ subseq kept zs /\ out = map fst kept /\ forall x, In x kept -> snd x <> Exterior) \/
   ((forall zs, rotation_of (combine chain ls) zs -> interior_end (map snd zs)) /\ out = [last chain vzero])).
Proof. exact (removed_spec chain pts ts ls). Qed.
(** The first run of interior points between two points on the outline is kept
    and nothing else. *)
Theorem C63_first_run pts ts A x M y B LA lx LM ly LB : pts <> [] -> length A = length LA -> length M = length LM ->
  locate_points (cyc_pairs pts) pts ts (A ++ x :: M ++ y :: B) = Ok (LA ++ lx :: LM ++ ly :: LB) ->
  forallb (fun l => negb (is_interior l)) LA = true -> boundary lx = true -> forallb is_interior LM = true -> M <> [] -> boundary ly = true -> is_interior (hd Exterior LB) = false -> is_interior (last (ly :: LB) Exterior) = false ->
  remove_redundant_points (A ++ x :: M ++ y :: B) pts ts = Ok (x :: M ++ [y]).
Proof. exact (first_run pts ts A x M y B LA lx LM ly LB). Qed.
(** Without interior points: a step from one edge to another. *)
Theorem C63_straight pts ts A x y B LA i j LB : pts <> [] -> length A = length LA ->
  locate_points (cyc_pairs pts) pts ts (A ++ x :: y :: B) = Ok (LA ++ AtEdge i :: AtEdge j :: LB) ->
  forallb is_exterior LA = true -> i <> j -> forallb (fun l => negb (is_interior l)) LB = true -> is_edge (hd Exterior LB) = false ->
  remove_redundant_points (A ++ x :: y :: B) pts ts = Ok [x; y].
Proof. exact (straight_run pts ts A x y B LA i j LB). Qed.
Example C63_ex : let c := [(-1, 3, 0); (0, 3, 0); (3, 3, 0); (6, 3, 0); (7, 3, 0); (6, 3, 0); (0, 3, 0)]%Z in
  locate_points (cyc_pairs (map at3 sq6)) (map at3 sq6) sq6_tri (map at3 c) = Ok [Exterior; AtEdge 3; Interior; AtEdge 1; Exterior; AtEdge 1; AtEdge 3] /\
  remove_redundant_points (map at3 c) (map at3 sq6) sq6_tri = Ok (map at3 [(0, 3, 0); (3, 3, 0); (6, 3, 0)]%Z).
Proof. split; [apply (z_locs up up1); [discriminate|reflexivity]|exact across_removed]. Qed.
Example C63_straight_ex : locate_points (cyc_pairs (map at3 sq6)) (map at3 sq6) sq6_tri (map at3 [(-1, 3, 0); (0, 3, 0); (6, 3, 0); (7, 3, 0)]%Z) = Ok [Exterior; AtEdge 3; AtEdge 1; Exterior].
Proof. apply (z_locs up up1); [discriminate|reflexivity]. Qed.
(** A single interior point cannot be used. *)
Example C63_give_up_ex : remove_redundant_points (map at3 [(3, 3, 0)]%Z) (map at3 sq6) sq6_tri = Ok (map at3 [(3, 3, 0)]%Z) /\ locate_points (cyc_pairs (map at3 sq6)) (map at3 sq6) sq6_tri (map at3 [(3, 3, 0)]%Z) = Ok [Interior].
Proof. exact single_interior. Qed.
Print Assumptions C63_result.
Print Assumptions C63_first_run.
Print Assumptions C63_straight.
