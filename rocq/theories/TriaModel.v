(** Triangulation of a polygon (_to_be_ported/mesh/triangulation.py).

    The file imports modules that are not in the repository any more; the
    functions that still exist (rotations, areas, centroids, normals, the
    polygon and its tests) are those of geom/.  What is not in the repository
    is an argument: equality of points [same] (Point.__eq__), the points on the
    edges [between] (create_points_between_list_of_points), [in_set]
    (are_points_in_set).  So are scipy's answers [delaunay], by the number of
    the call, and the random numbers [jog], by pass, column and row. *)
From Coq Require Import ZArith Reals List Bool Arith.
From Verif Require Import Prelude UtilModel MeshModel VecModel VoxModel GeomModel TriModel PolyModel StatModel.
Import ListNotations.
Local Open Scope R_scope.

(** config.py:23, 29. *)
Definition MESH_JOGGLE : R := 1 / 10.
Definition MESH_REL_DIST_TO_POINTS : R := 1 / 2.
(** Lines 58-59: all points get the height of the first. *)
Definition flat (z : R) (p : vec) : vec := V (vx p) (vy p) z.
(** np.array([[p.x, p.y] for p in ...]) (113, 156). *)
Definition plan_of (pts : list vec) : list (R * R) := map (fun p => (vx p, vy p)) pts.
(** All vertex numbers of a list of triangles; np.unique drops repetitions. *)
Definition indices (ts : list itri) : list nat := concat (map (fun t => let '(i, j, k) := t in [i; j; k]) ts).
(** Lines 123-131: the smallest area seen at each vertex. *)
Definition note_area (a : R) (d : dict nat R) (i : nat) : dict nat R :=
  match dget d i with None => dset d i a | Some b => if Rltb a b then dset d i a else d end.
Definition vertex_areas (pts : list vec) (ts : list itri) : result (dict nat R) :=
  foldM (fun d t => do q <- tri_pts pts t; let '(a, b, c) := q in let '(i, j, k) := t in
           let s := triangle_area a b c in Ok (note_area s (note_area s (note_area s d i) j) k)) ts [].

Section Tria.
  Context (same : vec -> vec -> bool) (in_set : list vec -> list vec -> bool).
  Context (between : list vec -> R -> list vec -> result (list vec)).
  Context (delaunay : nat -> list (R * R) -> result (list itri)) (jog : nat -> nat -> nat -> R * R).

  (** p in l. *)
  Definition pt_in (p : vec) (l : list vec) : bool := existsb (same p) l.
  (** Lines 90-94. *)
  Definition grid_point (pass : nat) (delta z : R) (x y : nat * R) : vec :=
    let u := jog pass (fst x) (fst y) in
    V (snd x + random_within (MESH_JOGGLE * delta) (fst u)) (snd y + random_within (MESH_JOGGLE * delta) (snd u)) z.
  (** Lines 95-100. *)
  Definition is_far (delta : R) (fixed : list vec) (p : vec) : bool :=
    forallb (fun f => negb (Rltb (norm (vsub p f)) (delta * MESH_REL_DIST_TO_POINTS))) fixed.
  (** Lines 86-103, the points that are appended. *)
  Definition grid_points (pass : nat) (delta z : R) (fixed : list vec) (poly2 : polygon) (xs ys : list R) : result (list vec) :=
    do cols <- mapM (fun x =>
        do col <- mapM (fun y =>
            let p := grid_point pass delta z x y in
            if is_far delta fixed p
            then do b <- is_point_inside_margin p (delta / 2) (p_pts poly2) (p_tri poly2); Ok (if b then [p] else [])
            else Ok []) (enumerate ys);
        Ok (concat col)) (enumerate xs);
    Ok (concat cols).
  (** Lines 140-148. *)
  Definition keep_vertex (min_area : R) (areas : dict nat R) (ts : list itri) (fixed edge corners : list vec) (ip : nat * vec) : result (list vec) :=
    let '(i, p) := ip in
    if memb i (indices ts) then
      match dget areas i with
      | None => Err KeyError
      | Some a => Ok (if Rltb min_area a || pt_in p fixed || pt_in p edge || pt_in p corners then [p] else [])
      end
    else Ok [].
  (** One round of the loop (70-178): the points, the triangles, and whether
      the loop ends.  numpy refuses a step of zero; which exception it raises
      depends on the type of the numbers. *)
  Definition mesh_pass (pass : nat) (poly2 : polygon) (corners fixed : list vec) (delta z : R) (pts : list vec)
      : result (list vec * list itri * bool) :=
    do edge <- between pts delta fixed;
    let pts := pts ++ edge in
    do xmin <- lmin (map vx pts); do xmax <- lmax (map vx pts);
    do ymin <- lmin (map vy pts); do ymax <- lmax (map vy pts);
    if Reqb delta 0 then Err ValueError
    else
      do inner <- grid_points pass delta z fixed poly2 (arange (xmin + delta) xmax delta) (arange (ymin + delta) ymax delta);
      let pts := pts ++ inner ++ fixed in
      do ts <- delaunay (2 * pass) (plan_of pts);
      do areas <- vertex_areas pts ts;
      do kept <- mapM (keep_vertex (minimum_triangle_area delta) areas ts fixed edge corners) (enumerate pts);
      let final := concat kept in
      do ts' <- delaunay (2 * pass + 1) (plan_of final);
      if (length (nodup Nat.eq_dec (indices ts')) =? length final)%nat
      then Ok (final, ts', forallb (fun f => pt_in f final) fixed && in_set edge final)
      else Err AssertionError.
  (** The loop (69-178): the next round starts with all points of this one.
      Running out of fuel stands for a loop that does not end in [fuel] rounds. *)
  Fixpoint mesh_loop (fuel pass : nat) (poly2 : polygon) (corners fixed : list vec) (delta z : R) (pts : list vec)
      : result (list vec * list itri) :=
    match fuel with
    | O => Err OutOfFuel
    | S fuel =>
        do r <- mesh_pass pass poly2 corners fixed delta z pts;
        let '(final, ts, ok) := r in
        if ok then Ok (final, ts) else mesh_loop fuel (S pass) poly2 corners fixed delta z final
    end.
  (** Lines 188-199. *)
  Definition keep_face (poly : polygon) (pts : list vec) (t : itri) : result (list itri) :=
    do q <- tri_pts pts t; let '(a, b, c) := q in
    do i <- is_point_inside (triangle_centroid a b c) (p_pts poly) (p_tri poly) true GEOM_ATOL;
    Ok (if i then [t] else []).
  (** Lines 203-220; a face without a normal is left as it is. *)
  Definition turn_face (poly : polygon) (pts : list vec) (t : itri) : result itri :=
    do q <- tri_pts pts t; let '(a, b, c) := q in let '(i, j, k) := t in
    match normal a b c with
    | None => Ok t
    | Some n => Ok (if allclose (vopp n) (p_vn poly) RTOL ATOL8 then (i, k, j) else t)
    end.
  (** delaunay_triangulation (28-237). *)
  Definition delaunay_triangulation (fuel : nat) (poly : polygon) (delta : R) (fixed : list vec) : result (list vec * list itri) :=
    do r <- rotate_points_to_plane (p_pts poly) vzero (V 0 0 1) 0;
    let '(pxy, ax, phi) := r in
    do p0 <- at_index pxy 0;
    let corners := map (flat (vz p0)) pxy in
    do poly2 <- make_polygon corners None None;
    do fixed2 <- (match fixed with [] => Ok [] | _ => do a <- rotate_points_around_vector fixed ax phi; Ok (fst a) end);
    do m <- mesh_loop fuel 0 poly2 corners fixed2 delta (vz p0) corners;
    do back <- rotate_points_around_vector (fst m) ax (- phi);
    let vs := fst back in
    do kept <- mapM (keep_face poly vs) (snd m);
    do faces <- mapM (turn_face poly vs) (concat kept);
    do f0 <- at_index faces 0;
    do q <- tri_pts vs f0; let '(a, b, c) := q in
    match normal a b c with
    | None => Err MeshError
    | Some n => if allclose n (p_vn poly) RTOL GEOM_ATOL then Ok (vs, faces) else Err MeshError
    end.
End Tria.
