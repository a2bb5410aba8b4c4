(** Saving and reading simulation states (sim/rays/dump_buffers.py). *)
From Coq Require Import Ascii String List Arith Bool.
From Verif Require Import Prelude MeshModel IoModel StlModel WildModel.
Import ListNotations.

Section Buf.
  (** The state of one step in one buffer, an array; [same_shape] compares
      array shapes. *)
  Context {A : Type} (same_shape : A -> A -> bool) (name_ok : str -> bool).

  (** The files: path, contents. *)
  Definition files := dict str A.

  (** The three file patterns in sim_cfg.paths (simulation_config.py:69-75). *)
  Record patterns := mkPat { position_file : str; energy_file : str; hits_file : str }.

  Definition NPY : str := str_of ".npy".
  Definition STEP : str := str_of "step".

  (** np.save adds the extension if it is missing; an existing file is
      overwritten. *)
  Definition npy_name (path : str) : str :=
    if starts_with (rev NPY) (rev path) then path else path ++ NPY.
  Definition np_save (fs : files) (path : str) (a : A) : files := dset fs (npy_name path) a.
  Definition np_load (fs : files) (path : str) : result A :=
    match dget fs path with Some a => Ok a | None => Err FileNotFoundError end.

  (** Lines 44-50 for one buffer. *)
  Definition save_step (dir file : str) (buf : list A) (init step : nat) (fs : files) : result files :=
    do wp <- new_wpath name_ok file;
    do path <- fill wp dir [(STEP, decimal (step + init))];
    match nth_error buf step with
    | Some a => Ok (np_save fs path a)
    | None => Err IndexError
    end.

  (** dump_buffers (lines 15-52). *)
  Definition dump_buffers (pos enr hit : list A) (dir : str) (pat : patterns) (init : nat) (fs : files) : result files :=
    foldM (fun fs step =>
      do fs1 <- save_step dir (position_file pat) pos init step fs;
      do fs2 <- save_step dir (energy_file pat) enr init step fs1;
      save_step dir (hits_file pat) hit init step fs2) (seq 0 (length pos)) fs.

  (** Lines 83-85. *)
  Definition max_step (d : dict str (dict str nat)) : result nat :=
    do steps <- mapM (fun pd => match dget (snd pd) STEP with Some n => Ok n | None => Err KeyError end) d;
    Ok (list_max steps + 1).

  (** Lines 97-117 for one buffer.  Arrays of another shape than the first are
      rejected (the code may also broadcast or pad them). *)
  Definition load_step (fs : files) (wp : wpath) (dir : str) (step : nat) : result A :=
    do path <- fill wp dir [(STEP, decimal step)];
    np_load fs path.

  (** read_buffers (lines 55-119); [listing] is what the glob in the directory
      returns. *)
  Definition read_buffers (fs : files) (listing : list str) (dir : str) (pat : patterns)
    : result (list A * list A * list A) :=
    do wpos <- new_wpath name_ok (position_file pat);
    do wenr <- new_wpath name_ok (energy_file pat);
    do whit <- new_wpath name_ok (hits_file pat);
    do dpos <- dict_values wpos listing;
    do denr <- dict_values wenr listing;
    do dhit <- dict_values whit listing;
    if length dpos =? 0 then Err RuntimeError
    else if length denr =? 0 then Err RuntimeError
    else if length dhit =? 0 then Err RuntimeError
    else
      do mpos <- max_step dpos;
      do menr <- max_step denr;
      do mhit <- max_step dhit;
      if (mpos =? menr) && (menr =? mhit) then
        do rows <- mapM (fun step =>
          do p <- load_step fs wpos dir step;
          do e <- load_step fs wenr dir step;
          do h <- load_step fs whit dir step;
          Ok (p, e, h)) (seq 0 mpos);
        match rows with
        | [] => Ok ([], [], [])
        | (p0, e0, h0) :: _ =>
            if forallb (fun r => same_shape p0 (fst (fst r)) && same_shape e0 (snd (fst r)) && same_shape h0 (snd r)) rows
            then Ok (map (fun r => fst (fst r)) rows, map (fun r => snd (fst r)) rows, map snd rows)
            else Err ValueError
        end
      else Err AssertionError.

  (** The dumps of Simulation.run (simulation.py:171-206): batch after batch,
      the initial step growing by the batch size. *)
  Fixpoint run_dumps (dir : str) (pat : patterns) (size : nat) (batches : list (list A * list A * list A)) (step : nat) (fs : files)
    : result files :=
    match batches with
    | [] => Ok fs
    | (pos, enr, hit) :: batches' =>
        do fs' <- dump_buffers pos enr hit dir pat step fs;
        run_dumps dir pat size batches' (step + size) fs'
    end.
End Buf.
