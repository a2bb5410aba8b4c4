(** Predefined walls: partition_plan, vertical_wall and
    vertical_wall_with_aperture (_to_be_ported/predefined/walls/).  These files
    import the classes Point and Wall of an earlier version; points are vectors
    here, lists of points stand for arrays, and the wall with an aperture is its
    name, its polygon and the polygon of the aperture, since the class that
    keeps a polygon under a parent no longer exists. *)
From Coq Require Import Ascii String Reals List Bool Arith.
From Verif Require Import Prelude TreeModel IoModel VecModel GeomModel TriModel PolyModel SolidModel.
Import ListNotations.
Local Open Scope R_scope.

(** Lines 29-39 of partition_plan.py; an empty list of names is the default.
    The checks are those of floor_plan. *)
Definition part_names (n : nat) (names : list str) : result (list str) :=
  match names with [] => plan_wall_names n None | _ => plan_wall_names n (Some names) end.
(** Lines 42-62. *)
Definition part_points (plan : list (R * R)) (h : R) (tr : vec) (rot : R) : result (list vec * list vec) :=
  let fl := map (fun xy => V (fst xy) (snd xy) 0) plan in
  let ce := map (fun xy => V (fst xy) (snd xy) h) plan in
  do r <- (if isclose rot 0 RTOL ATOL8 then Ok (fl, ce)
           else do a <- rotate_points_around_vector fl ez rot; do b <- rotate_points_around_vector ce ez rot; Ok (fst a, fst b));
  if allclose tr vzero RTOL ATOL8 then Ok r
  else Ok (map (fun p => vadd p tr) (fst r), map (fun p => vadd p tr) (snd r)).
(** Lines 67-73; indices are in range. *)
Definition part_wall (fl ce : list vec) (i : nat) : list vec :=
  [nth i fl vzero; nth (i + 1) fl vzero; nth (i + 1) ce vzero; nth i ce vzero].
(** partition_plan (partition_plan.py:13-79). *)
Definition partition_plan (plan : list (R * R)) (h : R) (tr : vec) (rot : R) (names : list str) : result (list wall_t) :=
  do wn <- part_names (length plan) names;
  do pp <- part_points plan h tr rot;
  mapM (fun i => do p <- named_polygon (nth i wn []) (part_wall (fst pp) (snd pp) i); make_wall (nth i wn []) p) (seq 0 (length plan - 1)).

(** The corners before they are placed (walls.py:47-50, 110-113). *)
Definition wall_rect (width height : R) : list vec := [V 0 0 0; V 0 0 height; V width 0 height; V width 0 0].
(** Corners of the aperture (walls.py:116-119). *)
Definition aperture_rect (ox oz aw ah : R) : list vec :=
  let a0 := vadd (V 0 0 0) (V ox 0 oz) in
  let a1 := vadd a0 (V 0 0 ah) in
  let a2 := vadd a1 (V aw 0 0) in
  let a3 := vadd a2 (V 0 0 (- ah)) in [a0; a1; a2; a3].
(** Rotation, unless the angle is exactly 0, then translation (walls.py:52-62,
    121-145). *)
Definition place_points (pts : list vec) (tr rv : vec) (phi : R) : result (list vec) :=
  do r <- (if Reqb phi 0 then Ok pts else do a <- rotate_points_around_vector pts rv phi; Ok (fst a));
  Ok (map (fun p => vadd p tr) r).
(** vertical_wall (walls.py:17-67); without a name polygon and wall get random
    ones, rid_p and rid_w. *)
Definition or_random (name : option str) (rid : str) : str := match name with Some n => n | None => rid end.
(** vertical_wall (_to_be_ported/predefined/walls/walls.py:17-68). *)
Definition vertical_wall (w h : R) (tr rv : vec) (phi : R) (name : option str) (rid_p rid_w : str) : result wall_t :=
  do pts <- place_points (wall_rect w h) tr rv phi;
  do p <- named_polygon (or_random name rid_p) pts;
  make_wall (or_random name rid_w) p.
(** vertical_wall_with_aperture (walls.py:70-158): the wall and the polygon of
    the aperture. *)
Definition wall_with_aperture (w h : R) (tr rv : vec) (phi : R) (name : option str) (rid_p rid_w : str) (aw ah ox oz : R) : result (wall_t * (str * polygon)) :=
  do pts <- (if Reqb phi 0 then Ok (wall_rect w h) else do a <- rotate_points_around_vector (wall_rect w h) rv phi; Ok (fst a));
  do aps <- (if Reqb phi 0 then Ok (aperture_rect ox oz aw ah) else do a <- rotate_points_around_vector (aperture_rect ox oz aw ah) rv phi; Ok (fst a));
  do p <- named_polygon (or_random name rid_p) (map (fun p => vadd p tr) pts);
  do q <- named_polygon (fst p ++ str_of "-sub") (map (fun p => vadd p tr) aps);
  do wl <- make_wall (or_random name rid_w) p;
  Ok (wl, q).
