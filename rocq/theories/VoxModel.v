(** The voxel grid and the search for the surface a ray aims at
    (sim/rays/voxel_grid.py, find_nearby_polygons.py, find_target.py). *)
From Coq Require Import Reals ZArith List Bool Arith.
From Verif Require Import Prelude MeshModel VecModel SimModel.
Import ListNotations.
Local Open Scope R_scope.

(** np.floor as an integer. *)
Definition floor (x : R) : Z := Int_part x.
(** np.ceil as an integer. *)
Definition ceil (x : R) : Z := (- floor (- x))%Z.

Notation cellkey := (Z * Z * Z)%type.

(** np.arange(start, stop, step) in exact arithmetic: ceil((stop-start)/step)
    numbers.  step = 0 (an error in numpy) is not modelled. *)
Definition arange (start stop step : R) : list R :=
  map (fun i => start + INR i * step) (seq 0 (Z.to_nat (ceil ((stop - start) / step)))).

(** Index of the cell containing a coordinate (voxel_grid.py:62,
    simulation_loop.py:166). *)
Definition cell_of (step x : R) : Z := floor (x / step).
Definition key_of (step : R) (p : vec) : cellkey := (cell_of step (vx p), cell_of step (vy p), cell_of step (vz p)).

(** voxel_grid.py:52-66. *)
Definition grid_keys (mn mx : vec) (step eps : R) : list cellkey :=
  let mn' := V (vx mn - eps) (vy mn - eps) (vz mn - eps) in
  let mx' := V (vx mx + eps) (vy mx + eps) (vz mx + eps) in
  flat_map (fun x => flat_map (fun y => map (fun z => (cell_of step x, cell_of step y, cell_of step z))
      (arange (vz mn') (vz mx' + step + eps) step)) (arange (vy mn') (vy mx' + step + eps) step)) (arange (vx mn') (vx mx' + step + eps) step).

(** voxel_grid.py:92-97 for one axis: all vertices below or all above the
    cube.  [all] of an empty array is True. *)
Definition off_axis (c : vec -> R) (pts : list vec) (lo hi : R) : bool :=
  forallb (fun p => Rltb (c p) lo) pts || forallb (fun p => Rltb hi (c p)) pts.

(** voxel_grid.py:83-99. *)
Definition off_cell (key : cellkey) (step : R) (pts : list vec) : bool :=
  let '(kx, ky, kz) := key in
  off_axis vx pts (IZR kx * step) (IZR kx * step + step) ||
  off_axis vy pts (IZR ky * step) (IZR ky * step + step) ||
  off_axis vz pts (IZR kz * step) (IZR kz * step + step).

(** voxel_grid.py:82-104: numbers of the polygons of one cell. *)
Definition cell_polys (key : cellkey) (step : R) (poly_pts : list (list vec)) : list nat :=
  filter (fun pn => negb (off_cell key step (nth pn poly_pts []))) (seq 0 (length poly_pts)).

(** make_voxel_grid (voxel_grid.py:12-111); added_polygons is the union of the
    cells' lists. *)
Definition make_voxel_grid (mn mx : vec) (poly_pts : list (list vec)) (step eps : R) : result (dict cellkey (list nat)) :=
  let keys := grid_keys mn mx step eps in
  let grid := fold_left (fun g key => dset g key (cell_polys key step poly_pts)) keys [] in
  if forallb (fun pn => existsb (fun key => memb pn (cell_polys key step poly_pts)) keys) (seq 0 (length poly_pts))
  then Ok grid else Err ValueError.

(** find_nearby_polygons (find_nearby_polygons.py:7-34); the set as a list in
    order of insertion. *)
Definition set_add (s : list nat) (x : nat) : list nat := if memb x s then s else s ++ [x].
(** With the above (find_nearby_polygons.py:7-34). *)
Definition offsets : list Z := [-1; 0; 1]%Z.
(** find_nearby_polygons (sim/rays/find_nearby_polygons.py:7-34). *)
Definition find_nearby_polygons (key : cellkey) (grid : dict cellkey (list nat)) : list nat :=
  let '(x, y, z) := key in
  fold_left (fun s i => fold_left (fun s j => fold_left (fun s k =>
      match dget grid (x + i, y + j, z + k)%Z with
      | Some l => fold_left set_add l s
      | None => s
      end) offsets s) offsets s) offsets [].

(** find_target_surface (find_target.py:14-77).  [hit] is
    is_point_inside_projection for the ray, [dist] the distance of the position
    to the polygon (both for the given ray); [order] is polygons_to_check in
    its iteration order; None is -1.  A missing key of target_candidates is a
    KeyError. *)
Definition find_target_surface (hit : nat -> bool) (dist : nat -> R) (transparent order : list nat) : result (option nat) :=
  do r <- foldM (fun (st : dict nat R * option nat) pn =>
            let (cands, best) := st in
            if memb pn transparent then Ok st
            else if hit pn then
              let d := dist pn in
              let cands1 := dset cands pn d in
              let b := match best with None => pn | Some b => b end in
              do db <- dlookup cands1 b;
              Ok (cands1, Some (if Rltb d db then pn else b))
            else Ok st) order ([], None);
  Ok (snd r).

(** The search of one ray (simulation_loop.py:166-183), with [order_of] the
    iteration order of a set. *)
Definition sim_target (hit : vec -> vec -> nat -> bool) (dist : vec -> nat -> R) (order_of : list nat -> list nat)
  (step : R) (grid : dict cellkey (list nat)) (transparent : list nat) (pos dir : vec) : result (option nat) :=
  find_target_surface (hit pos dir) (dist pos) transparent (order_of (find_nearby_polygons (key_of step pos) grid)).
