(** Vocabulary for polygons read from files. *)
From Coq Require Import Reals List.
From Verif Require Import Prelude VecModel GeomModel GeomSpec TriModel PolyModel PlanSpec LoadModel.
Import ListNotations.
Local Open Scope R_scope.

(** The polygon as it was, ... *)
Definition as_it_was (p : polygon) : loaded := Loaded (p_pts p) (p_tri p) (Some (p_vn p)) (p_ctr p) (Some (p_area p)) (p_plane p).
(** ... with the opposite normal, ... *)
Definition turned_round (p : polygon) : loaded := Loaded (p_pts p) (p_tri p) (Some (vopp (p_vn p))) (p_ctr p) (Some (p_area p)) (p_plane p).
(** ... and without normal and area. *)
Definition without_normal (p : polygon) : loaded := Loaded (p_pts p) (p_tri p) None (p_ctr p) None (p_plane p).

(** The first corner is that of a triangle of twice this area. *)
Definition corner_size (pts : list vec) : R :=
  match pts with p0 :: p1 :: _ => 2 * true_area (last pts p0) p0 p1 | _ => 0 end.
(** The first corner is convex and not too small. *)
Definition good_start (pts : list vec) : Prop := first_convex pts /\ 1 / 100000000 < corner_size pts.

(** What Solid.volume takes of a polygon. *)
Definition shape (p : polygon) : list vec * list tri * vec := (p_pts p, p_tri p, p_vn p).
(** A polygon that was built in its plane and starts with a good corner. *)
Definition starts_well (p : polygon) : Prop :=
  exists pts vn0 c, make_polygon pts None vn0 = Ok p /\ unit (p_vn p) /\ in_plane (p_vn p) c pts /\ good_start (p_pts p).
