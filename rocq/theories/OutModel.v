(** Results of a simulation: impulse response and ray trails
    (sim/rays/impulse_response.py, movie_from_buffer.py, ray_buff_plotter.py). *)
From Coq Require Import Reals List Bool Arith.
From Verif Require Import Prelude VecModel.
Import ListNotations.
Local Open Scope R_scope.

(** Column j of a matrix given by its rows. *)
Definition column {A} (d : A) (m : list (list A)) (j : nat) : list A := map (fun r => nth j r d) m.

(** The largest of a non-empty list; max() of an empty array is a ValueError. *)
Definition rmax (l : list R) : result R :=
  match l with [] => Err ValueError | x :: l' => Ok (fold_left Rmax l' x) end.

(** np.linspace(0, stop, n) in exact arithmetic. *)
Definition linspace0 (stop : R) (n : nat) : list R :=
  map (fun i => match n with 1%nat => 0 | _ => INR i * (stop / INR (n - 1)) end) (seq 0 n).

(** The DataFrame: time index and columns. *)
Record response := mkResp { ir_time : list R; ir_cols : list (list R) }.

(** impulse_response (impulse_response.py:8-45); [hits] has one row per step
    and num_absorbers columns. *)
Definition impulse_response (hits : list (list R)) (num_absorbers : nat) (time_step : R) : result response :=
  let num_steps := length hits in
  do sum_of_hits <- rmax (map (fun j => Rsum (column 0 hits j)) (seq 0 num_absorbers));
  if Rltb 0 sum_of_hits then
    let inst := map (map (fun x => x / sum_of_hits)) hits in
    Ok (mkResp (linspace0 (INR num_steps * time_step) num_steps) (map (column 0 inst) (seq 0 num_absorbers)))
  else Err AssertionError.

(** position_buffer_to_lines (movie_from_buffer.py:143-170): vertices and the
    flat connectivity list (length, indices, length, indices, ...). *)
Section Lines.
  Context {P : Type} (dflt : P).

  (** position_buffer_to_lines (sim/rays/movie_from_buffer.py:143-170). *)
  Definition position_buffer_to_lines (pb : list (list P)) (num_rays : nat) : list P * list nat :=
    let buf_len := length pb in
    let '(varr, index, _) :=
      fold_left (fun st ray_i =>
        let '(varr, index, curr) := st in
        fold_left (fun st buf_i =>
            let '(varr, index, curr) := st in
            (varr ++ [nth ray_i (nth buf_i pb []) dflt], index ++ [curr], (curr + 1)%nat))
          (seq 0 buf_len) (varr, index ++ [buf_len], curr))
        (seq 0 num_rays) ([], [], 0%nat) in
    (varr, index).

  (** RayBuffPlotter.get_lines (ray_buff_plotter.py:27-38); np.vstack of empty
      lists is a ValueError. *)
  Definition get_lines (pb : list (list P)) (num_rays : nat) : result (list P * list (list nat)) :=
    let line_len := length pb in
    let '(verts, lines, _) :=
      fold_left (fun st rn =>
        let '(verts, lines, curr) := st in
        (verts ++ column dflt pb rn, lines ++ [map (fun i => (curr + i)%nat) (seq 0 line_len)], (curr + line_len)%nat))
        (seq 0 num_rays) ([], [], 0%nat) in
    match verts with [] => Err ValueError | _ => Ok (verts, lines) end.
End Lines.

(** The energies attached to the vertices of the trails: energy.flatten()
    (movie_from_buffer.py:114,135), row after row. *)
Definition trail_energy (energy : list (list R)) : list R := concat energy.

(** The rows shown in frame i (movie_from_buffer.py:72-79). *)
Definition frame_rows {A} (buf : list A) (trail : nat) (i : nat) : list A :=
  firstn (i - (i - trail)) (skipn (i - trail) buf).
