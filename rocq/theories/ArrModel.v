(** The polygons and the box of the simulation loop: what the arrays made from a
    building give back (sim/rays/simulation.py, sim/rays/simulation_loop.py). *)
From Coq Require Import Ascii String List Arith Bool.
From Verif Require Import Prelude TreeModel MeshModel VecModel GeomModel.
Import ListNotations.

Section Meshes.
  Context {P : Type} (mesh_of : oid -> mesh (P := P)).

  (** The loops of to_array_format over the zones, solids, walls and polygons
      (io/arrayformat.py:56-75).  [mesh_of] are pts and tri of a polygon.
      Simplification: the loops read the objects and fill the arrays at once;
      here the meshes are collected first. *)
  Definition building_meshes (h : heap) (b : oid) : result (building_m (P := P)) :=
    do zs <- kids h b;
    mapM (fun '(_, z) =>
      do ss <- kids h z;
      mapM (fun '(_, s) =>
        do ws <- kids h s;
        mapM (fun '(_, w) => do ps <- kids h w; Ok (map mesh_of (dvals ps))) ws) ss) zs.

  (** to_array_format(building) (sim/rays/simulation.py:31). *)
  Definition building_arrays (zero : P) (h : heap) (b : oid) : result (arrays (P := P)) :=
    do m <- building_meshes h b; to_array_format zero m.

  (** The loop that collects points and faces by polygon numbers
      (sim/rays/simulation_loop.py:89-97). *)
  Definition loop_polygons (a : arrays (P := P)) : result (list (mesh (P := P))) :=
    mapM (get_polygon_points_and_faces (a_points a) (a_faces a) (a_polygons a)) (seq 0 (length (a_walls a))).
  (** surf_absorption (sim/rays/simulation.py:63): one number for each entry of the
      array polygons, that is for each triangle. *)
  Definition surf_absorption {A} (default : A) (a : arrays (P := P)) : list A := repeat default (length (a_polygons a)).
  (** surf_absorption[k] for polygon number k (sim/rays/simulation_loop.py:195).
      Numba checks no bounds there: None is a read past the end. *)
  Definition absorption_read {A} (default : A) (a : arrays (P := P)) (k : nat) : option A := nth_error (surf_absorption default a) k.
End Meshes.

(** min_x to max_z (sim/rays/simulation_loop.py:99-105): the smallest and largest
    coordinates, ValueError if there are no points; the same as bounding_box. *)
Definition loop_box (a : arrays (P := vec)) : result (vec * vec) := bounding_box (a_points a).

(** The polygons and the box at the start of the simulation loop. *)
Definition simulation_geometry (mesh_of : oid -> mesh (P := vec)) (h : heap) (b : oid) : result (list (mesh (P := vec)) * (vec * vec)) :=
  do a <- building_arrays mesh_of vzero h b;
  do polys <- loop_polygons a;
  do bx <- loop_box a;
  Ok (polys, bx).
