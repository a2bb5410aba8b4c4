(** The voxel grid in floating point (sim/rays/voxel_grid.py). *)
From Coq Require Import Reals List Bool ZArith.
From Verif Require Import Prelude MeshModel VecModel SimModel VoxModel.
Import ListNotations.
Local Open Scope R_scope.

(** Everything of VoxModel.v again with each operation rounded.  Whole numbers
    (indices, keys) are converted to floats without error, as they are up to
    2^53; step = 0, infinities and NaN are left out. *)
Section Grid.
  Context (rnd : R -> R).

  (** np.arange(start, stop, step) as numba compiles it (voxel_grid.py:52-54):
      ceil((stop - start) / step) numbers, number i being start + i * step. *)
  Definition farange (start stop step : R) : list R :=
    map (fun i => rnd (start + rnd (INR i * step))) (seq 0 (Z.to_nat (ceil (rnd (rnd (stop - start) / step))))).

  (** int(np.floor(x / step)) (voxel_grid.py:62-64, simulation_loop.py:166-168). *)
  Definition fcell (step x : R) : Z := VoxModel.floor (rnd (x / step)).
  Definition fkey (step : R) (p : vec) : cellkey := (fcell step (vx p), fcell step (vy p), fcell step (vz p)).

  (** One axis of the range (voxel_grid.py:41-46, 52-54): eps is subtracted
      and added first, then max + step + eps from left to right. *)
  Definition frange (mn mx step eps : R) : list R :=
    farange (rnd (mn - eps)) (rnd (rnd (rnd (mx + eps) + step) + eps)) step.

  (** voxel_grid.py:56-66. *)
  Definition fgrid_keys (mn mx : vec) (step eps : R) : list cellkey :=
    flat_map (fun x => flat_map (fun y => map (fun z => (fcell step x, fcell step y, fcell step z))
      (frange (vz mn) (vz mx) step eps)) (frange (vy mn) (vy mx) step eps)) (frange (vx mn) (vx mx) step eps).

  (** The two ends of a cell along one axis (voxel_grid.py:83-88). *)
  Definition flo (step : R) (k : Z) : R := rnd (IZR k * step).
  Definition fhi (step : R) (k : Z) : R := rnd (flo step k + step).

  (** voxel_grid.py:89-99. *)
  Definition foff_cell (key : cellkey) (step : R) (pts : list vec) : bool :=
    let '(kx, ky, kz) := key in
    off_axis vx pts (flo step kx) (fhi step kx) ||
    off_axis vy pts (flo step ky) (fhi step ky) ||
    off_axis vz pts (flo step kz) (fhi step kz).

  (** voxel_grid.py:80-104. *)
  Definition fcell_polys (key : cellkey) (step : R) (poly_pts : list (list vec)) : list nat :=
    filter (fun pn => negb (foff_cell key step (nth pn poly_pts []))) (seq 0 (length poly_pts)).

  (** make_voxel_grid (voxel_grid.py:12-111). *)
  Definition fmake_voxel_grid (mn mx : vec) (poly_pts : list (list vec)) (step eps : R) : result (dict cellkey (list nat)) :=
    let keys := fgrid_keys mn mx step eps in
    let grid := fold_left (fun g key => dset g key (fcell_polys key step poly_pts)) keys [] in
    if forallb (fun pn => existsb (fun key => memb pn (fcell_polys key step poly_pts)) keys) (seq 0 (length poly_pts))
    then Ok grid else Err ValueError.
End Grid.
