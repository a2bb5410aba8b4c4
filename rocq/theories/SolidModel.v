(** Named polygons and walls; box and floor_plan (geom/solid/). *)
From Coq Require Import Ascii String Reals List Bool Arith.
From Verif Require Import Prelude TreeModel IoModel VecModel GeomModel TriModel PolyModel.
Import ListNotations.
Local Open Scope R_scope.

(** Polygon.__init__ with a name (polygon/__init__.py:53-90): the points are
    checked first, then the name, then the polygon is triangulated. *)
Definition named_polygon (name : str) (pts : list vec) : result (str * polygon) :=
  do _ <- check_polygon pts; do n <- validate_name name; do p <- build_polygon pts None None; Ok (n, p).
(** Polygon.flip (polygon/__init__.py:133-142); the new name is the caller's,
    or a random one, which is an argument here. *)
Definition flip_named (new_name : str) (p : polygon) : result (str * polygon) := named_polygon new_name (rev (p_pts p)).

(** A wall with one polygon: its name and the polygon with its name.  All
    walls built here are of this form. *)
Definition wall_t : Type := str * (str * polygon).
(** Wall([poly], name) (wall/__init__.py:20-49). *)
Definition make_wall (name : str) (p : str * polygon) : result wall_t := do n <- validate_name name; Ok (n, p).
(** Solid(walls, name) (solid/__init__.py:27-53, 75-81): walls with a name
    already present are a GeometryError. *)
Fixpoint add_walls (acc ws : list wall_t) : result (list wall_t) :=
  match ws with
  | [] => Ok acc
  | w :: r => if memb (fst w) (map fst acc) then Err GeometryError else add_walls (acc ++ [w]) r
  end.
Definition make_solid (name : str) (ws : list wall_t) : result (list wall_t) :=
  do _ <- validate_name name; add_walls [] ws.

(** box (solid/box.py:10-69). *)
Definition box_point (i j k : R) (x y z : R) (mv : vec) : vec := V (i * x + vx mv) (j * y + vy mv) (k * z + vz mv).
(** box (geom/solid/box.py:10-69). *)
Definition box (x y z : R) (mv : vec) (name : str) : result (list wall_t) :=
  let pt i j k := box_point i j k x y z mv in
  let p0 := pt 0 0 0 in let p1 := pt 1 0 0 in let p2 := pt 1 1 0 in let p3 := pt 0 1 0 in
  let p4 := pt 0 0 1 in let p5 := pt 1 0 1 in let p6 := pt 1 1 1 in let p7 := pt 0 1 1 in
  do fl <- named_polygon (str_of "floor") [p0; p3; p2; p1];
  do w0 <- named_polygon (str_of "poly_0") [p0; p1; p5; p4];
  do w1 <- named_polygon (str_of "poly_1") [p1; p2; p6; p5];
  do w2 <- named_polygon (str_of "poly_2") [p3; p7; p6; p2];
  do w3 <- named_polygon (str_of "poly_3") [p0; p4; p7; p3];
  do rf <- named_polygon (str_of "ceiling") [p4; p5; p6; p7];
  do wfl <- make_wall (str_of "floor") fl;
  do ww0 <- make_wall (str_of "wall_0") w0; do ww1 <- make_wall (str_of "wall_1") w1;
  do ww2 <- make_wall (str_of "wall_2") w2; do ww3 <- make_wall (str_of "wall_3") w3;
  do wrf <- make_wall (str_of "ceiling") rf;
  make_solid name [wfl; ww0; ww1; ww2; ww3; wrf].

(** floor_plan (solid/floor_plan.py:17-166). *)

(** Lines 49-57. *)
Definition plan_wall_names (n : nat) (names : option (list str)) : result (list str) :=
  match names with
  | None => Ok (map (fun i => str_of "wall-" ++ decimal i) (seq 0 n))
  | Some l => if negb (length l =? n)%nat then Err ValueError
              else if negb (length (nodup eq_dec l) =? length l)%nat then Err ValueError else Ok l
  end.
(** Lines 59-84: corner points of floor and ceiling and the floor level. *)
Definition ez : vec := V 0 0 1.
Definition plan_points (plan : list (R * R)) (h : R) (tr : vec) (rot : R) : result (list vec * list vec * R) :=
  match plan with
  | [] => Err ValueError
  | _ =>
      let fl := map (fun xy => V (fst xy) (snd xy) 0) plan in
      let ce := map (fun xy => V (fst xy) (snd xy) h) plan in
      do r <- (if isclose rot 0 RTOL ATOL8 then Ok (fl, ce)
               else do a <- rotate_points_around_vector fl ez rot; do b <- rotate_points_around_vector ce ez rot; Ok (fst a, fst b));
      if allclose tr vzero RTOL ATOL8 then Ok (fst r, snd r, 0)
      else Ok (map (fun p => vadd p tr) (fst r), map (fun p => vadd p tr) (snd r), vz tr)
  end.
(** Corner points of the i-th wall (lines 88-97); indices are in range. *)
Definition wall_points (fl ce : list vec) (i : nat) : list vec :=
  let nxt := if (length fl <=? i + 1)%nat then 0%nat else (i + 1)%nat in
  [nth i fl vzero; nth nxt fl vzero; nth nxt ce vzero; nth i ce vzero].
(** The loop collecting the floor points adjacent to a wall (lines 133-147). *)
Fixpoint adjacent_points (z0_pts f_pts : list vec) (i : nat) (acc : list vec) (prev : option nat) : list vec :=
  match f_pts with
  | [] => acc
  | p :: r =>
      let taken := is_point_in_array p z0_pts in
      let acc' := if taken then acc ++ [p] else acc in
      let '(acc', prev') :=
        if taken then
          match prev with
          | None => (acc', Some i)
          | Some k => if (k + 1 =? i)%nat then (acc', prev) else (rev acc', prev)
          end
        else (acc', prev) in
      if (length acc' =? 2)%nat then acc' else adjacent_points z0_pts r (i + 1) acc' prev'
  end.
(** The orientation fix for one wall (lines 120-157). *)
Definition orient_wall (z0 : R) (f_pts : list vec) (w : wall_t) : result wall_t :=
  let '(wn, (pn, wp)) := w in
  let z0_pts := filter (fun p => Reqb (vz p) z0) (p_pts wp) in
  match z0_pts, adjacent_points z0_pts f_pts 0 [] None with
  | w0 :: w1 :: _, a0 :: a1 :: _ =>
      if points_equal w0 a1 && points_equal w1 a0 then Ok w
      else do q <- flip_named pn wp; Ok (wn, q)
  | _, _ => Err IndexError
  end.
(** Lines 104-107 and 109-112. *)
Definition level_polygon (name rid : str) (pts : list vec) (want : vec) : result (str * polygon) :=
  do p <- named_polygon name pts;
  if allclose (p_vn (snd p)) want RTOL ATOL8 then Ok p else flip_named rid (snd p).
(** [rid_f] and [rid_c] are the random names of a flipped floor and ceiling. *)
Definition floor_plan (plan : list (R * R)) (h : R) (tr : vec) (rot : R) (name : str) (names : option (list str))
    (floor_name ceiling_name rid_f rid_c : str) : result (list wall_t) :=
  do wn <- plan_wall_names (length plan) names;
  do pp <- plan_points plan h tr rot;
  let '(fl, ce, z0) := pp in
  do walls <- mapM (fun i => do p <- named_polygon (nth i wn []) (wall_points fl ce i); make_wall (nth i wn []) p) (seq 0 (length plan));
  do fp <- level_polygon floor_name rid_f fl (V 0 0 (-1));
  do cp <- level_polygon ceiling_name rid_c ce (V 0 0 1);
  do fw <- make_wall floor_name fp;
  do cw <- make_wall ceiling_name cp;
  do walls' <- mapM (orient_wall z0 (p_pts (snd fp))) walls;
  make_solid name (walls' ++ [fw; cw]).
(** The polygons of a solid, in order (solid/__init__.py:235, all_polys). *)
Definition all_polys (ws : list wall_t) : list (list vec * list tri * vec) :=
  map (fun w => let p := snd (snd w) in (p_pts p, p_tri p, p_vn p)) ws.
