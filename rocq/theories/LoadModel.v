(** Polygons that are read from a file or from arrays: the triangles are given
    and the normal is not. *)
From Coq Require Import Reals List Bool Arith.
From Verif Require Import Prelude VecModel GeomModel TriModel PolyModel.
Import ListNotations.
Local Open Scope R_scope.

(** The attributes of a Polygon (polygon/__init__.py:69-90), where the normal
    and what is computed from it may be NaN (None). *)
Record loaded := Loaded { l_pts : list vec; l_tri : list tri; l_vn : option vec; l_ctr : vec; l_area : option R; l_plane : option (vec * R) }.

(** Polygon(pts, tri=tri) (polygon/__init__.py:53-90) as called in io/b3d.py:99-104,
    io/dotbim.py:176-181 and io/arrayformat.py:128.  The area is the absolute
    value of a product with the normal (polygon/area.py:35-36), so it is NaN
    with it. *)
Definition load_polygon (pts : list vec) (ts : list tri) : result loaded :=
  do _ <- check_polygon pts;
  do t <- first_three pts;
  let '(pl, p0, p1) := t in
  let vn := normal pl p0 p1 in
  match ts with
  | [] => Err AssertionError
  | _ =>
      do ctr <- polygon_centroid pts ts;
      do pc <- plane_coefficients pts;
      Ok (Loaded pts ts vn ctr (option_map (polygon_area pts) vn) pc)
  end.

(** The sign in Solid.volume (solid/__init__.py:244-251): comparisons with NaN
    are false, so the sign is -1. *)
Definition loaded_sign (vn : option vec) (p1 p2 : vec) : R :=
  match vn with Some n => volume_sign n p1 p2 | None => -1 end.
(** The summands for one polygon (solid/__init__.py:237-253). *)
Definition loaded_parts (l : loaded) : result (list R) :=
  mapM (fun t => do q <- tri_pts (l_pts l) t; let '(a, b, c) := q in Ok (loaded_sign (l_vn l) a b * tetrahedron_volume vzero a b c)) (l_tri l).
(** Solid.volume (solid/__init__.py:231-255). *)
Definition loaded_volume (ls : list loaded) : result R :=
  do vs <- mapM loaded_parts ls;
  Ok (Rabs (fold_left Rplus (concat vs) 0)).
