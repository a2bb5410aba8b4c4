(** Predicates on polygons: intersections, points in polygons, projections,
    distances, facing, crossing and touching polygons; construction of polygons
    and the geometric methods of solids. *)
From Coq Require Import Reals List Bool Arith.
From Verif Require Import Prelude VecModel GeomModel TriModel.
Import ListNotations.
Local Open Scope R_scope.

(** A for loop that returns True at the first hit and False after the last
    iteration; used for all loops of that form below. *)
Fixpoint anyM {A} (f : A -> result bool) (l : list A) : result bool :=
  match l with
  | [] => Ok false
  | x :: r => do b <- f x; if b then Ok true else anyM f r
  end.
(** A loop returning False at the first failure, else True. *)
Fixpoint allM {A} (f : A -> result bool) (l : list A) : result bool :=
  match l with
  | [] => Ok true
  | x :: r => do b <- f x; if b then allM f r else Ok false
  end.

(** line_intersection (points/intersections.py:14-63); None is INVALID_PT.
    np.linalg.lstsq is the exact least-squares solution: the two closest points
    of the lines.  Its denominator is zero only for parallel lines, which the
    tests before have excluded. *)
Definition line_intersection (p1 d1 p2 d2 : vec) : option vec :=
  if allclose d1 vzero RTOL ATOL8 || allclose d2 vzero RTOL ATOL8 then None
  else if allclose (vdiv d1 (norm d1)) (vdiv d2 (norm d2)) RTOL ATOL8 then None
  else if allclose (vdiv d1 (norm d1)) (vdiv (vopp d2) (norm d2)) RTOL ATOL8 then None
  else
    let w := vsub p2 p1 in
    let a := dot d1 d1 in let b := dot d1 d2 in let c := dot d2 d2 in
    let den := a * c - b * b in
    let t := (c * dot d1 w - b * dot d2 w) / den in
    let s := (b * dot d1 w - a * dot d2 w) / den in
    let q1 := vadd p1 (smul t d1) in
    let q2 := vadd p2 (smul s d2) in
    if allclose q1 q2 RTOL ATOL8 then Some q1 else None.

(** line_segment_intersection (points/intersections.py:67-93).  An invalid
    candidate leads to INVALID_PT in either branch. *)
Definition line_segment_intersection (a1 b1 a2 b2 : vec) : option vec :=
  match line_intersection a1 (vsub b1 a1) a2 (vsub b2 a2) with
  | None => None
  | Some q => if is_point_on_segment q a1 b1 GEOM_ATOL && is_point_on_segment q a2 b2 GEOM_ATOL then Some q else None
  end.

(** is_point_at_boundary (polygon/ispointinside.py:22-30). *)
Definition is_point_at_boundary (pt : vec) (pts : list vec) (atol : R) : result bool :=
  do es <- polygon_edges pts;
  Ok (existsb (fun e => is_point_on_segment pt (fst e) (snd e) atol) es).

(** The loop over the triangles in is_point_inside (ispointinside.py:70-85);
    the triangle test uses its own default tolerance. *)
Fixpoint inside_loop (pt : vec) (pts : list vec) (boundary_in : bool) (atol : R) (ts : list tri) : result bool :=
  match ts with
  | [] => Ok false
  | t :: r =>
      do q <- tri_pts pts t; let '(a, b, c) := q in
      do i <- is_point_inside_triangle pt a b c GEOM_ATOL;
      if i then
        if boundary_in then Ok true else do b <- is_point_at_boundary pt pts atol; Ok (negb b)
      else inside_loop pt pts boundary_in atol r
  end.
(** is_point_inside (polygon/ispointinside.py:34-85). *)
Definition is_point_inside (pt : vec) (pts : list vec) (ts : list tri) (boundary_in : bool) (atol : R) : result bool :=
  do bb <- is_point_inside_bbox pt pts (1/100);
  if negb bb then Ok false
  else
    do c <- are_points_coplanar (pts ++ [pt]) atol;
    if negb c then Ok false else inside_loop pt pts boundary_in atol ts.

(** is_point_inside for a point of NaNs, which a polygon without a normal at
    its first corner hands on (ispointinside.py:199-200, crossing.py:111-114):
    all comparisons in the box tests are false, so they pass; the coplanarity
    test fails if any three consecutive points have a normal; a triangle
    accepts the point only if one of its edges has no length. *)
Fixpoint nan_triangles (pts : list vec) (ts : list tri) : result bool :=
  match ts with
  | [] => Ok false
  | t :: r =>
      do q <- tri_pts pts t; let '(a, b, c) := q in
      if existsb (fun e => negb (Rltb EPSILON (norm (vsub (snd e) (fst e))))) [(a, b); (b, c); (c, a)] then Ok true
      else if existsb (fun v => Rltb (norm v) GEOM_ATOL)
          [cross (vsub b a) (vsub c a); cross (vsub c b) (vsub a b); cross (vsub a c) (vsub b c)] then Err GeometryError
      else nan_triangles pts r
  end.
Definition nan_inside (pts : list vec) (ts : list tri) : result bool :=
  match first_normal pts with Some _ => Ok false | None => nan_triangles pts ts end.

(** is_point_inside_margin (polygon/ispointinside.py:89-118). *)
Definition is_point_inside_margin (pt : vec) (margin : R) (pts : list vec) (ts : list tri) : result bool :=
  do i <- is_point_inside pt pts ts true GEOM_ATOL;
  if negb i then Ok false
  else
    do es <- polygon_edges pts;
    allM (fun e => do d <- distance_point_to_edge pt (fst e) (snd e); Ok (negb (Rltb d margin))) es.

(** is_point_inside_ortho_projection (polygon/ispointinside.py:122-152).  The
    compared coefficients are the same numbers, so the assertions fail exactly
    for NaN. *)
Definition is_point_inside_ortho (pt : vec) (pts : list vec) (ts : list tri) : result bool :=
  do pc <- plane_coefficients pts;
  match pc with
  | None => Err AssertionError
  | Some (n, d) =>
      let dp := snd (projection_coefficients pt n) in
      let dist := d - dp in
      is_point_inside pt (map (fun p => vadd p (smul dist n)) pts) ts true GEOM_ATOL
  end.

(** is_point_inside_projection (polygon/ispointinside.py:156-201). *)
Definition is_point_inside_projection (pt v : vec) (pts : list vec) (ts : list tri) (fwd_only : bool) (atol : R) : result bool :=
  do pc <- plane_coefficients pts;
  match pc with
  | None => nan_inside pts ts
  | Some (n, d) =>
      let denom := dot n v in
      if Rltb (Rabs denom) atol then is_point_inside pt pts ts true atol
      else
        let s := (- d - vx n * vx pt - vy n * vy pt - vz n * vz pt) / denom in
        if fwd_only && Rltb s 0 then Ok false
        else is_point_inside (vadd pt (smul s v)) pts ts true atol
  end.

(** distance_point_to_polygon (polygon/distance.py:15-55). *)
Definition distance_point_to_polygon (pt : vec) (pts : list vec) (ts : list tri) (vn : vec) : result R :=
  do pc <- plane_coefficients pts;
  if Reqb (norm vn) 0 then Err ZeroDivisionError
  else
    do i <- is_point_inside_ortho pt pts ts;
    match pc with
    | None => Err AssertionError
    | Some (_, d) =>
        if i then Ok (Rabs ((dot vn pt + d) / norm vn))
        else
          do es <- polygon_edges pts;
          do ds <- mapM (fun e => distance_point_to_edge pt (fst e) (snd e)) es;
          lmin ds
    end.

(** The search of one point among the unmatched points (facing.py:55-61 and
    touching.py:95-102): [matched] is the set of indices used so far, [j] the
    index of the head of [l]. *)
Fixpoint find_match (p : vec) (matched : list nat) (j : nat) (l : list vec) : option nat :=
  match l with
  | [] => None
  | q :: r => if negb (memb j matched) && points_equal p q then Some j else find_match p matched (S j) r
  end.
Fixpoint count_matching (pts1 pts2 : list vec) (matched : list nat) : nat :=
  match pts1 with
  | [] => 0
  | p :: r => match find_match p matched 0 pts2 with
              | Some j => S (count_matching r pts2 (j :: matched))
              | None => count_matching r pts2 matched
              end
  end.

(** are_polygons_facing (polygon/facing.py:14-65). *)
Definition are_polygons_facing (pts1 : list vec) (vn1 : vec) (pts2 : list vec) (vn2 : vec) : result bool :=
  if negb (allclose vn1 (vopp vn2) GEOM_RTOL ATOL8) then Ok false
  else
    do b1 <- bounding_box pts1; do b2 <- bounding_box pts2;
    if negb (are_bboxes_overlapping b1 b2) then Ok false
    else Ok ((count_matching pts1 pts2 [] =? length pts1)%nat && isclose (polygon_area pts1 vn1) (polygon_area pts2 vn2) RTOL ATOL8).

(** np.linspace(0, 1, n) for n >= 2. *)
Definition linspace01 (n : nat) : list R := map (fun i => INR i / INR (n - 1)) (seq 0 n).

(** are_polygons_crossing (polygon/crossing.py:23-69). *)
Definition crossing_pair (pts1 : list vec) (ts1 : list tri) (pts2 : list vec) (ts2 : list tri) (e1 e2 : vec * vec) : result bool :=
  if points_equal (fst e1) (fst e2) || points_equal (fst e1) (snd e2) || points_equal (snd e1) (snd e2) || points_equal (snd e1) (fst e2) then Ok false
  else match line_segment_intersection (fst e1) (snd e1) (fst e2) (snd e2) with
    | None => Ok false
    | Some q =>
        do d1 <- distance_point_to_edge q (fst e1) (snd e1);
        do close <- (if isclose d1 0 RTOL ATOL8 then Ok true
                     else do d2 <- distance_point_to_edge q (fst e2) (snd e2); Ok (isclose d2 0 RTOL ATOL8));
        if close then
          anyM (fun x =>
            do a <- is_point_inside (new_point_between (fst e1) (snd e1) x) pts2 ts2 false GEOM_ATOL;
            if a then Ok true else is_point_inside (new_point_between (fst e2) (snd e2) x) pts1 ts1 false GEOM_ATOL) (linspace01 10)
        else Ok true
    end.
(** are_polygons_crossing (geom/polygon/crossing.py:23-69). *)
Definition are_polygons_crossing (pts1 : list vec) (ts1 : list tri) (pts2 : list vec) (ts2 : list tri) : result bool :=
  do b1 <- bounding_box pts1; do b2 <- bounding_box pts2;
  if negb (are_bboxes_overlapping b1 b2) then Ok false
  else
    do c <- are_points_coplanar (pts1 ++ pts2) GEOM_ATOL;
    if negb c then Ok false
    else
      do es1 <- polygon_edges pts1; do es2 <- polygon_edges pts2;
      anyM (fun e1 => anyM (fun e2 => crossing_pair pts1 ts1 pts2 ts2 e1 e2) es2) es1.

(** is_line_segment_crossing_polygon (polygon/crossing.py:73-114); the division
    is reached only for a denominator of at least epsilon. *)
Definition is_segment_crossing_polygon (a b : vec) (pts : list vec) (ts : list tri) (epsilon : R) : result bool :=
  do pc <- plane_coefficients pts;
  match pc with
  | None => nan_inside pts ts
  | Some (n, d) =>
      let dir := vsub b a in
      if Rltb (Rabs (dot dir n)) epsilon then Ok false
      else
        let t := - (dot n a + d) / dot dir n in
        if Rltb t 0 || Rltb 1 t then Ok false
        else is_point_inside (vadd a (smul t dir)) pts ts true GEOM_ATOL
  end.

(** cube_edges and cube_polygons (bboxes.py:59-156). *)
Definition cube_edges (p0 p1 : vec) : list (vec * vec) :=
  [ (V (vx p0) (vy p0) (vz p0), V (vx p1) (vy p0) (vz p0)); (V (vx p0) (vy p0) (vz p0), V (vx p0) (vy p1) (vz p0));
    (V (vx p0) (vy p1) (vz p0), V (vx p1) (vy p1) (vz p0)); (V (vx p1) (vy p0) (vz p0), V (vx p1) (vy p1) (vz p0));
    (V (vx p0) (vy p0) (vz p1), V (vx p1) (vy p0) (vz p1)); (V (vx p0) (vy p1) (vz p1), V (vx p1) (vy p1) (vz p1));
    (V (vx p0) (vy p0) (vz p1), V (vx p0) (vy p1) (vz p1)); (V (vx p1) (vy p0) (vz p1), V (vx p1) (vy p1) (vz p1));
    (V (vx p0) (vy p0) (vz p0), V (vx p0) (vy p0) (vz p1)); (V (vx p1) (vy p0) (vz p0), V (vx p1) (vy p0) (vz p1));
    (V (vx p0) (vy p1) (vz p0), V (vx p0) (vy p1) (vz p1)); (V (vx p1) (vy p1) (vz p0), V (vx p1) (vy p1) (vz p1)) ].
(** cube_polygons (geom/bboxes.py:99-156). *)
Definition cube_polygons (p0 p1 : vec) : list (list vec) :=
  [ [V (vx p0) (vy p0) (vz p0); V (vx p1) (vy p0) (vz p0); V (vx p1) (vy p1) (vz p0); V (vx p0) (vy p1) (vz p0)];
    [V (vx p0) (vy p1) (vz p1); V (vx p1) (vy p1) (vz p1); V (vx p1) (vy p0) (vz p1); V (vx p0) (vy p0) (vz p1)];
    [V (vx p0) (vy p0) (vz p0); V (vx p0) (vy p1) (vz p0); V (vx p0) (vy p1) (vz p1); V (vx p0) (vy p0) (vz p1)];
    [V (vx p1) (vy p0) (vz p0); V (vx p1) (vy p1) (vz p0); V (vx p1) (vy p1) (vz p1); V (vx p1) (vy p0) (vz p1)];
    [V (vx p0) (vy p0) (vz p0); V (vx p1) (vy p0) (vz p0); V (vx p1) (vy p0) (vz p1); V (vx p0) (vy p0) (vz p1)];
    [V (vx p0) (vy p1) (vz p0); V (vx p1) (vy p1) (vz p0); V (vx p1) (vy p1) (vz p1); V (vx p0) (vy p1) (vz p1)] ].

(** is_polygon_crossing_cube (polygon/crossing.py:118-166). *)
Definition in_cube (eps : R) (lo hi p : vec) : bool :=
  Rleb (vx lo - eps) (vx p) && Rleb (vx p) (vx hi + eps) && Rleb (vy lo - eps) (vy p) && Rleb (vy p) (vy hi + eps)
  && Rleb (vz lo - eps) (vz p) && Rleb (vz p) (vz hi + eps).
(** is_polygon_crossing_cube (geom/polygon/crossing.py:118-166). *)
Definition is_polygon_crossing_cube (pts : list vec) (ts : list tri) (lo hi : vec) : result bool :=
  if existsb (in_cube (1/1000) lo hi) pts then Ok true
  else
    do b <- anyM (fun t =>
      do q <- tri_pts pts t; let '(p1, p2, p3) := q in
      anyM (fun e => anyM (fun face => is_segment_crossing_polygon (fst e) (snd e) face [(0, 1, 2); (0, 2, 3)]%nat (1/10000000000)) (cube_polygons lo hi))
        [(p1, p2); (p2, p3); (p3, p1)]) ts;
    if b then Ok true
    else anyM (fun e => is_segment_crossing_polygon (fst e) (snd e) pts ts (1/10000000000)) (cube_edges lo hi).

(** are_polygons_touching (polygon/touching.py:14-53); are_all_points_same
    (79-106); check_poly_a_against_b (110-155). *)
Definition are_all_points_same (pts1 pts2 : list vec) : bool := (count_matching pts1 pts2 [] =? length pts1)%nat.
(** With the above (polygon/touching.py:14-53). *)
Fixpoint check_loop (pts_a : list vec) (ts_a : list tri) (prev : vec) (pts_b : list vec) (bnd ins : bool) : result (bool * bool) :=
  match pts_b with
  | [] => Ok (bnd, ins)
  | p :: r =>
      do mid <- anyM (fun x => is_point_inside (new_point_between prev p x) pts_a ts_a false GEOM_ATOL) (linspace01 5);
      do at_b <- is_point_at_boundary p pts_a GEOM_ATOL;
      do i <- is_point_inside p pts_a ts_a false GEOM_ATOL;
      check_loop pts_a ts_a p r (if at_b then true else bnd) (if mid || i then true else ins)
  end.
(** With the above (polygon/touching.py:14-53). *)
Definition check_a_against_b (pts_a : list vec) (ts_a : list tri) (pts_b : list vec) : result (bool * bool) :=
  match pts_b with [] => Err IndexError | p :: _ => check_loop pts_a ts_a (last pts_b p) pts_b false false end.
(** are_polygons_touching (geom/polygon/touching.py:14-53). *)
Definition are_polygons_touching (pts1 : list vec) (ts1 : list tri) (pts2 : list vec) (ts2 : list tri) : result bool :=
  do b1 <- bounding_box pts1; do b2 <- bounding_box pts2;
  if negb (are_bboxes_overlapping b1 b2) then Ok false
  else if are_all_points_same pts1 pts2 then Ok false
  else
    do ab <- check_a_against_b pts1 ts1 pts2; do ba <- check_a_against_b pts2 ts2 pts1;
    if snd ab || snd ba then Ok false else Ok (fst ab || fst ba).

(** Geometric part of a Polygon object (polygon/__init__.py:69-90). *)
Record polygon := Poly { p_pts : list vec; p_tri : list tri; p_vn : vec; p_ctr : vec; p_area : R; p_plane : option (vec * R) }.

(** Polygon.__init__ (polygon/__init__.py:42-90) without name, uid and parent.
    A first corner without a normal makes vn NaN: triangulate then raises
    AssertionError at the first corner; a Polygon with given
    triangles and a NaN normal, which the file readers may build, is modelled
    in LoadModel.load_polygon and excluded here by AssertionError. *)
Definition check_polygon (pts : list vec) : result unit :=
  do c <- are_points_coplanar pts GEOM_ATOL;
  if negb c then Err AssertionError else if (length pts <? 3)%nat then Err AssertionError else Ok tt.
(** With the above (polygon/__init__.py:42-90). *)
Definition build_polygon (pts : list vec) (tri0 : option (list tri)) (vn0 : option vec) : result polygon :=
  do vn <- (match vn0 with
            | Some v => Ok v
            | None => do t <- first_three pts; let '(pl, p0, p1) := t in
                      match normal pl p0 p1 with Some n => Ok n | None => Err AssertionError end
            end);
  do pt <- (match tri0 with
            | None => triangulate_pts pts vn
            | Some [] => Err AssertionError
            | Some ts => Ok (pts, ts)
            end);
  let '(pts', ts) := pt in
  do ctr <- polygon_centroid pts' ts;
  do pc <- plane_coefficients pts';
  Ok (Poly pts' ts vn ctr (polygon_area pts' vn) pc).
(** Lines 53-90 without the name; with it, see SolidModel.named_polygon. *)
Definition make_polygon (pts : list vec) (tri0 : option (list tri)) (vn0 : option vec) : result polygon :=
  do _ <- check_polygon pts; build_polygon pts tri0 vn0.

(** Polygon.flip (133-142) and get_some_interior_point (144-153). *)
Definition flip_polygon (p : polygon) : result polygon := make_polygon (rev (p_pts p)) None None.
(** With the above (polygon/__init__.py:144-153). *)
Definition some_interior_point (p : polygon) : result vec :=
  match p_tri p with
  | [] => Err IndexError
  | t :: _ => do q <- tri_pts (p_pts p) t; let '(a, b, c) := q in Ok (triangle_centroid a b c)
  end.
(** Polygon.contains_polygon (158-163) with margin GEOM_ATOL. *)
Definition contains_polygon (p q : polygon) : result bool :=
  allM (fun pt => is_point_inside_margin pt GEOM_ATOL (p_pts p) (p_tri p)) (p_pts q).

(** Solid.volume (solid/__init__.py:231-255) over the list of all polygons. *)
Definition volume_sign (vn p1 p2 : vec) : R :=
  let pos := dot vn (vsub p1 vzero) in
  let pos := if Reqb pos 0 then dot vn (vsub p2 vzero) else pos in
  if Rltb 0 pos then 1 else -1.
(** With the above (solid/__init__.py:231-255). *)
Definition polygon_volume (p : list vec * list tri * vec) : result (list R) :=
  let '(pts, ts, vn) := p in
  mapM (fun t => do q <- tri_pts pts t; let '(a, b, c) := q in Ok (volume_sign vn a b * tetrahedron_volume vzero a b c)) ts.
(** With the above (solid/__init__.py:231-255). *)
Definition solid_volume (polys : list (list vec * list tri * vec)) : result R :=
  do vs <- mapM polygon_volume polys;
  Ok (Rabs (fold_left Rplus (concat vs) 0)).
(** Zone.volume and Building.volume (zone/__init__.py:125-130,
    building/__init__.py:211-216): sums over the children. *)
Definition total_volume (vs : list R) : R := fold_left Rplus vs 0.

(** Solid.bbox, is_point_at_boundary, is_point_inside (solid/__init__.py:121-172). *)
Definition solid_bbox (polys : list (list vec * list tri)) : result (vec * vec) := bounding_box (concat (map fst polys)).
(** With the above (solid/__init__.py:121-172). *)
Definition solid_point_at_boundary (polys : list (list vec * list tri)) (pt : vec) : result bool :=
  anyM (fun p => is_point_inside pt (fst p) (snd p) true GEOM_ATOL) polys.
(** With the above (solid/__init__.py:121-172). *)
Definition ray_dir : vec := let v := V (739/1000) (239/1000) (113/1000) in vdiv v (norm v).
Definition count_true (l : list bool) : nat := length (filter (fun b => b) l).
(** With the above (solid/__init__.py:121-172). *)
Definition solid_point_inside (polys : list (list vec * list tri)) (pt : vec) : result bool :=
  do bb <- solid_bbox polys;
  let '(lo, hi) := bb in
  if Rltb (vx hi) (vx pt) || Rltb (vy hi) (vy pt) || Rltb (vz hi) (vz pt) then Ok false
  else if Rltb (vx pt) (vx lo) || Rltb (vy pt) (vy lo) || Rltb (vz pt) (vz lo) then Ok false
  else
    do hits <- mapM (fun p => is_point_inside_projection pt ray_dir (fst p) (snd p) true GEOM_ATOL) polys;
    if Nat.odd (count_true hits) then Ok true else solid_point_at_boundary polys pt.

(** Solid.is_adjacent_to_solid and has_correct_interface
    (solid/__init__.py:174-229). *)
Definition is_adjacent_to_solid (s1 s2 : list polygon) : result bool :=
  anyM (fun p => anyM (fun q =>
    do c <- are_polygons_crossing (p_pts p) (p_tri p) (p_pts q) (p_tri q);
    if c then Ok true else are_polygons_facing (p_pts p) (p_vn p) (p_pts q) (p_vn q)) s2) s1.
(** has_correct_interface (geom/solid/__init__.py:205-229). *)
Definition has_correct_interface (s1 s2 : list polygon) : result bool :=
  anyM (fun p => anyM (fun q => are_polygons_facing (p_pts p) (p_vn p) (p_pts q) (p_vn q)) s2) s1.
