(** Elementary geometry: tolerances, vectors, points, boxes, triangles,
    tetrahedra and polygons (geom/), in exact arithmetic. *)
From Coq Require Import Reals ZArith List Bool Arith.
From Verif Require Import Prelude MeshModel VecModel VoxModel.
Import ListNotations.
Local Open Scope R_scope.

(** config.py:10-20. *)
Definition EPSILON : R := 1 / 1000000000000.
(** With the above (config.py:10-20). *)
Definition GEOM_ATOL : R := 1 / 10000000000000.
(** With the above (config.py:10-20). *)
Definition GEOM_RTOL : R := 1 / 1000000.
(** numpy's defaults for isclose and allclose. *)
Definition RTOL : R := 1 / 100000.
Definition ATOL8 : R := 1 / 100000000.

(** np.isclose for numbers and np.allclose for points (finite arguments). *)
Definition isclose (a b rtol atol : R) : bool := Rleb (Rabs (a - b)) (atol + rtol * Rabs b).
Definition allclose (a b : vec) (rtol atol : R) : bool :=
  isclose (vx a) (vx b) rtol atol && isclose (vy a) (vy b) rtol atol && isclose (vz a) (vz b) rtol atol.

Definition vdiv (a : vec) (k : R) : vec := V (vx a / k) (vy a / k) (vz a / k).
Definition vopp (a : vec) : vec := smul (-1) a.

(** normal (vectors.py:16-27); None is the vector of NaNs. *)
Definition normal (p0 p1 p2 : vec) : option vec :=
  let vn := cross (vsub p1 p0) (vsub p2 p0) in
  let len := norm vn in
  if isclose len 0 RTOL ATOL8 then None else Some (vdiv vn len).

(** angle (vectors.py:31-46); None is NaN (a zero vector). *)
Definition angle (v1 v2 : vec) : option R :=
  if Reqb (norm v1) 0 || Reqb (norm v2) 0 then None
  else
    let d := dot (vdiv v1 (norm v1)) (vdiv v2 (norm v2)) in
    let d := if Rltb 1 d then 1 else if Rltb d (-1) then -1 else d in
    let rad := acos d in
    Some (if Rltb rad 0 then 2 * PI + rad else rad).

(** points_equal (points/__init__.py:79-81). *)
Definition points_equal (p q : vec) : bool := allclose p q RTOL GEOM_ATOL.
(** is_point_in_array (points/__init__.py:27-35). *)
Definition is_point_in_array (p : vec) (arr : list vec) : bool := existsb (points_equal p) arr.

(** are_points_collinear (points/__init__.py:148-186). *)
Definition dir_from (p0 p : vec) : vec :=
  let v := vsub p p0 in if Rltb EPSILON (norm v) then vdiv v (norm v) else vzero.
(** With the above (points/__init__.py:148-186). *)
Fixpoint chain_close (atol : R) (vs : list vec) : bool :=
  match vs with
  | a :: ((b :: _) as r) => (allclose b a RTOL atol || allclose b (vopp a) RTOL atol) && chain_close atol r
  | _ => true
  end.
(** are_points_collinear (geom/points/__init__.py:148-186). *)
Definition are_points_collinear (pts : list vec) (atol : R) : result bool :=
  match pts with
  | p0 :: ((_ :: _ :: _) as r) => Ok (chain_close atol (map (dir_from p0) r))
  | _ => Err AssertionError
  end.

(** The loop of are_points_coplanar looking for a normal
    (points/__init__.py:119-129). *)
Fixpoint first_normal (pts : list vec) : option vec :=
  match pts with
  | a :: ((b :: c :: _) as r) => match normal a b c with Some n => Some n | None => first_normal r end
  | _ => None
  end.

(** are_points_coplanar (points/__init__.py:99-144). *)
Definition are_points_coplanar (pts : list vec) (atol : R) : result bool :=
  match pts with
  | p0 :: _ :: _ :: _ :: _ =>
      do c <- are_points_collinear pts atol;
      if c then Ok true
      else match first_normal pts with
        | None => Ok true
        | Some n => let d := -1 * dot n p0 in Ok (forallb (fun p => Rltb (Rabs (d + dot n p)) atol) pts)
        end
  | _ => Ok true
  end.

(** new_point_between_2_points (points/__init__.py:190-206). *)
Definition new_point_between (p1 p2 : vec) (rel : R) : vec := vadd (smul (1 - rel) p1) (smul rel p2).
(** many_new_points_between_2_points (points/__init__.py:210-239). *)
Definition many_new_points (p1 p2 : vec) (num : nat) : list vec :=
  p1 :: map (fun i => new_point_between p1 p2 (INR i / INR (num + 1))) (seq 1 num) ++ [p2].

(** is_point_on_segment (points/__init__.py:243-273). *)
Definition is_point_on_segment (pt p1 p2 : vec) (atol : R) : bool :=
  if allclose pt p1 RTOL atol || allclose pt p2 RTOL atol then true
  else if negb (allclose (cross (vsub pt p1) (vsub p2 p1)) vzero RTOL atol) then false
  else
    let d := dot (vsub pt p1) (vsub p2 p1) in
    let l2 := dot (vsub p2 p1) (vsub p2 p1) in
    negb (Rltb d (- atol) || Rltb (l2 + atol) d).

(** distance_point_to_edge (points/distance.py:9-30); the division of two zeros
    is a ZeroDivisionError in compiled code. *)
Definition distance_point_to_edge (pt p1 p2 : vec) : result R :=
  let v21 := vsub p2 p1 in
  let vt1 := vsub pt p1 in
  if Reqb (dot v21 v21) 0 then Err ZeroDivisionError
  else
    let t := dot vt1 v21 / dot v21 v21 in
    if Rltb t 0 then Ok (norm (vsub p1 pt))
    else if Rltb 1 t then Ok (norm (vsub p2 pt))
    else Ok (norm (vsub (vadd p1 (smul t v21)) pt)).

(** np.min and np.max of a column; ValueError for no points. *)
Definition lmin (l : list R) : result R := match l with [] => Err ValueError | x :: r => Ok (fold_left Rmin r x) end.
Definition lmax (l : list R) : result R := match l with [] => Err ValueError | x :: r => Ok (fold_left Rmax r x) end.

(** bounding_box (bboxes.py:9-17). *)
Definition bounding_box (pts : list vec) : result (vec * vec) :=
  do x0 <- lmin (map vx pts); do x1 <- lmax (map vx pts);
  do y0 <- lmin (map vy pts); do y1 <- lmax (map vy pts);
  do z0 <- lmin (map vz pts); do z1 <- lmax (map vz pts);
  Ok (V x0 y0 z0, V x1 y1 z1).

(** (a < b).any() for points. *)
Definition any_lt (a b : vec) : bool := Rltb (vx a) (vx b) || Rltb (vy a) (vy b) || Rltb (vz a) (vz b).
(** a +- k for a point and a number. *)
Definition vshift (a : vec) (k : R) : vec := V (vx a + k) (vy a + k) (vz a + k).

(** is_point_inside_bbox (bboxes.py:21-29). *)
Definition is_point_inside_bbox (pt : vec) (pts : list vec) (atol : R) : result bool :=
  do bb <- bounding_box pts;
  Ok (negb (any_lt pt (vshift (fst bb) (- atol)) || any_lt (vshift (snd bb) atol) pt)).

(** are_bboxes_overlapping (bboxes.py:33-55). *)
Definition are_bboxes_overlapping (b1 b2 : vec * vec) : bool :=
  negb (any_lt (snd b1) (fst b2) || any_lt (snd b2) (fst b1)).

(** triangle_area (triangles.py:19-34). *)
Definition triangle_area (p1 p2 p3 : vec) : R :=
  let a := norm (vsub p2 p1) in
  let b := norm (vsub p3 p2) in
  let c := norm (vsub p3 p1) in
  let s := 1/2 * (a + b + c) in
  sqrt (s * (s - a) * (s - b) * (s - c) + EPSILON).

(** triangle_centroid (triangles.py:38-40). *)
Definition triangle_centroid (p1 p2 p3 : vec) : vec := vdiv (vadd (vadd p1 p2) p3) 3.

(** is_point_on_same_side (triangles.py:44-81). *)
Definition is_point_on_same_side (p1 p2 ptest pref : vec) (atol : R) : result bool :=
  let vt := cross (vsub p2 p1) (vsub ptest p1) in
  let vr := cross (vsub p2 p1) (vsub pref p1) in
  if Rltb (norm vr) atol then Err GeometryError
  else if Rltb (norm vt) atol then Ok false
  else Ok (allclose (vdiv vt (norm vt)) (vdiv vr (norm vr)) RTOL atol).

(** np.round(x, 8): to the nearest multiple of 1e-8, ties to even. *)
Definition rint (x : R) : Z :=
  let f := floor x in
  if Rltb (x - IZR f) (1/2) then f else if Rltb (1/2) (x - IZR f) then (f + 1)%Z else if Z.even f then f else (f + 1)%Z.
Definition round8 (x : R) : R := IZR (rint (x * 100000000)) / 100000000.

(** The range test of is_point_inside for one edge (triangles.py:117-130). *)
Definition within_edge_box (pt p0 p1 : vec) (atol : R) : bool :=
  let out (c : vec -> R) :=
    let t := round8 (c pt) in let a := round8 (c p0) in let b := round8 (c p1) in
    Rltb (Rmax a b + atol) t || Rltb t (Rmin a b - atol) in
  negb (out vx || out vy || out vz).

(** is_point_inside for triangles (triangles.py:85-141): the loop over the
    edges returns at the first collinear one; all three sides are evaluated. *)
Fixpoint edge_verdict (pt : vec) (atol : R) (edges : list (vec * vec)) : result (option bool) :=
  match edges with
  | [] => Ok None
  | (a, b) :: r =>
      do c <- are_points_collinear [a; b; pt] atol;
      if c then Ok (Some (within_edge_box pt a b atol)) else edge_verdict pt atol r
  end.
(** With the above (triangles.py:85-141). *)
Definition is_point_inside_triangle (pt p1 p2 p3 : vec) (atol : R) : result bool :=
  do bb <- is_point_inside_bbox pt [p1; p2; p3] (1/100);
  if negb bb then Ok false
  else if allclose pt p1 RTOL atol || allclose pt p2 RTOL atol || allclose pt p3 RTOL atol then Ok true
  else
    do ev <- edge_verdict pt atol [(p1, p2); (p2, p3); (p3, p1)];
    match ev with
    | Some b => Ok b
    | None =>
        do s1 <- is_point_on_same_side p1 p2 pt p3 atol;
        do s2 <- is_point_on_same_side p2 p3 pt p1 atol;
        do s3 <- is_point_on_same_side p3 p1 pt p2 atol;
        Ok (s1 && s2 && s3)
    end.

(** is_corner_convex (triangles.py:145-190). *)
Definition is_corner_convex (p1 p2 p3 vn : vec) (atol : R) : result bool :=
  if Rltb (Rabs (norm vn - 1)) atol then
    let c := cross (vsub p2 p1) (vsub p3 p2) in
    if Rltb (norm c) atol then Ok false else Ok (allclose (vdiv c (norm c)) vn GEOM_RTOL ATOL8)
  else Err AssertionError.

(** tetrahedron_volume (tetrahedrons.py:10-34). *)
Definition tetrahedron_volume (p0 p1 p2 p3 : vec) : R :=
  let a := norm (vsub p1 p0) in let b := norm (vsub p2 p0) in let c := norm (vsub p3 p0) in
  let d := norm (vsub p2 p1) in let e := norm (vsub p3 p2) in let f := norm (vsub p3 p1) in
  let x := b^2 + c^2 - e^2 in
  let y := a^2 + c^2 - f^2 in
  let z := a^2 + b^2 - d^2 in
  sqrt (4 * a^2 * b^2 * c^2 - a^2 * x^2 - b^2 * y^2 - c^2 * z^2 + x * y * z + EPSILON) / 12.
(** tetrahedron_centroid (tetrahedrons.py:38-46). *)
Definition tetrahedron_centroid (p0 p1 p2 p3 : vec) : vec := vdiv (vadd (vadd (vadd p0 p1) p2) p3) 4.

(** 3x3 matrices by rows. *)
Definition mat := (vec * vec * vec)%type.
Definition mapply (m : mat) (v : vec) : vec := let '(r1, r2, r3) := m in V (dot r1 v) (dot r2 v) (dot r3 v).
Definition mcols (m : mat) : mat :=
  let '(r1, r2, r3) := m in (V (vx r1) (vx r2) (vx r3), V (vy r1) (vy r2) (vy r3), V (vz r1) (vz r2) (vz r3)).
Definition mmul (a b : mat) : mat :=
  let '(r1, r2, r3) := a in let '(c1, c2, c3) := mcols b in
  (V (dot r1 c1) (dot r1 c2) (dot r1 c3), V (dot r2 c1) (dot r2 c2) (dot r2 c3), V (dot r3 c1) (dot r3 c2) (dot r3 c3)).
Definition madd (a b : mat) : mat :=
  let '(a1, a2, a3) := a in let '(b1, b2, b3) := b in (vadd a1 b1, vadd a2 b2, vadd a3 b3).
Definition mscale (k : R) (a : mat) : mat := let '(a1, a2, a3) := a in (smul k a1, smul k a2, smul k a3).
Definition meye : mat := (V 1 0 0, V 0 1 0, V 0 0 1).
Definition mones : mat := (V 1 1 1, V 1 1 1, V 1 1 1).

(** rotation_matrix (rotation.py:19-56). *)
Definition rotation_matrix (u : vec) (phi : R) : result mat :=
  if isclose (norm u) 1 RTOL ATOL8 then
    let w : mat := (V 0 (- vz u) (vy u), V (vz u) 0 (- vx u), V (- vy u) (vx u) 0) in
    Ok (madd (madd meye (mscale (sin phi) w)) (mscale (2 * (sin (phi / 2)) ^ 2) (mmul w w)))
  else Err AssertionError.
(** rotate_points (rotation.py:60-62): pts.dot(R.T). *)
Definition rotate_points (pts : list vec) (m : mat) : list vec := map (mapply m) pts.
(** rotate_points_around_vector (rotation.py:66-89). *)
Definition rotate_points_around_vector (pts : list vec) (u : vec) (phi : R) : result (list vec * mat) :=
  if Rltb (norm u) GEOM_ATOL || Rltb (Rabs phi) GEOM_ATOL then Ok (pts, mones)
  else do m <- rotation_matrix u phi; Ok (rotate_points pts m, m).

(** pts[-1], pts[0], pts[1]; fewer points are an IndexError. *)
Definition first_three (pts : list vec) : result (vec * vec * vec) :=
  match pts with p0 :: p1 :: _ => Ok (last pts p0, p0, p1) | _ => Err IndexError end.

(** rotate_points_to_plane (rotation.py:93-140).  A NaN normal makes the axis
    NaN: the test for no rotation fails and rotation_matrix rejects the axis
    (AssertionError).  A zero [u] makes the cross product zero, so the early
    return is taken before the angle is computed. *)
Definition rotate_points_to_plane (pts : list vec) (anchor u : vec) (d : R) : result (list vec * vec * R) :=
  do t <- first_three pts;
  let '(pl, p0, p1) := t in
  let moved := if points_equal anchor vzero then pts else map (fun p => vsub p anchor) pts in
  match normal pl p0 p1 with
  | None => Err AssertionError
  | Some n =>
      let ax := cross n u in
      if Rltb (Rabs (vx ax)) GEOM_ATOL && Rltb (Rabs (vy ax)) GEOM_ATOL && Rltb (Rabs (vz ax)) GEOM_ATOL then Ok (moved, ax, 0)
      else
        let ax := vdiv ax (norm ax) in
        match angle n u with
        | None => Err AssertionError
        | Some phi =>
            do m <- rotation_matrix ax phi;
            let r := map (mapply m) moved in
            let r := if points_equal anchor vzero then r else map (fun p => vadd p anchor) r in
            Ok (map (fun p => vadd p (smul d u)) r, ax, phi)
        end
  end.

(** polygon_edges (edges.py:9-44): the while loop reads point i into slot j;
    pts[-1] of no points is an IndexError. *)
Fixpoint edge_loop {P} (fuel : nat) (pts : list P) (e0 : option P) (i j : nat) : list (P * P) :=
  match fuel with
  | O => []
  | S fuel' =>
      match nth_error pts i with
      | None => []
      | Some p => if (j =? 0)%nat then edge_loop fuel' pts (Some p) (i + 1) 1
                  else match e0 with
                    | Some a => (a, p) :: edge_loop fuel' pts (Some a) (i + 1 - 1) 0
                    | None => []
                    end
      end
  end.
(** polygon_edges (geom/polygon/edges.py:9-44). *)
Definition polygon_edges {P} (pts : list P) : result (list (P * P)) :=
  match pts with
  | [] => Err IndexError
  | p0 :: _ => Ok (edge_loop (2 * length pts) pts None 0 0 ++ [(last pts p0, p0)])
  end.

(** polygon_area (polygon/area.py:10-38). *)
Definition polygon_area (pts : list vec) (vn : vec) : R :=
  let n := length pts in
  if (n <? 3)%nat then 0
  else
    let total := fold_left (fun tot i =>
        let p1 := nth i pts vzero in
        let p2 := if (i =? n - 1)%nat then nth 0 pts vzero else nth (i + 1) pts vzero in
        vadd tot (cross p1 p2)) (seq 0 n) vzero in
    Rabs (dot total vn / 2).

(** Triangles: rows of an index array; a bad index is an IndexError (indices
    are never negative here). *)
Definition tri := (nat * nat * nat)%type.
Definition tri_pts (pts : list vec) (t : tri) : result (vec * vec * vec) :=
  let '(i, j, k) := t in
  match nth_error pts i, nth_error pts j, nth_error pts k with
  | Some a, Some b, Some c => Ok (a, b, c)
  | _, _, _ => Err IndexError
  end.

(** polygon_centroid (polygon/centroid.py:12-34). *)
Definition polygon_centroid (pts : list vec) (tris : list tri) : result vec :=
  match tris with
  | [] => Err AssertionError
  | _ =>
      do cs <- mapM (fun t => do q <- tri_pts pts t; let '(a, b, c) := q in Ok (triangle_centroid a b c, triangle_area a b c)) tris;
      Ok (fold_left (fun acc cw => vadd acc (smul (snd cw) (fst cw))) cs vzero)
  end.

(** projection_coefficients and plane_coefficients (polygon/plane.py:11-33): a
    pair of normal and offset; None for NaN. *)
Definition projection_coefficients (pt vn : vec) : vec * R := (vn, -1 * dot vn pt).
(** plane_coefficients (geom/polygon/plane.py:26-33). *)
Definition plane_coefficients (pts : list vec) : result (option (vec * R)) :=
  do t <- first_three pts;
  let '(pl, p0, p1) := t in
  Ok (option_map (projection_coefficients p0) (normal pl p0 p1)).
