(** A whole simulation: Simulation.run and the checks before it
    (sim/rays/simulation.py). *)
From Coq Require Import Reals Ascii String List Arith Bool ZArith.
From Verif Require Import Prelude VecModel SimModel BufModel.
Import ListNotations.
Local Open Scope R_scope.

(** The contents of a saved file: positions of the rays, or energies or hits.
    Arrays have the same shape if they are of the same kind and length. *)
Inductive data : Type := DPos (l : list vec) | DNum (l : list R).
Definition data_shape (a b : data) : bool :=
  match a, b with
  | DPos l, DPos m => (length l =? length m)%nat
  | DNum l, DNum m => (length l =? length m)%nat
  | _, _ => false
  end.

(** The checks of the constructor (sim/rays/simulation.py:82-84).  The second
    one divides: ZeroDivisionError for batch size 0. *)
Definition check_steps (num_steps batch_size : Z) : result Datatypes.unit :=
  if (num_steps <? batch_size)%Z then Err AssertionError
  else if (batch_size =? 0)%Z then Err ZeroDivisionError
  else if (num_steps mod batch_size =? 0)%Z then Ok tt else Err AssertionError.

(** Lines 126-130 for one ray: [u] is the row of np.random.rand.  The division
    of the zero vector by its norm gives NaN: None. *)
Definition init_direction (u : vec) : option vec :=
  let d := vsub (smul 2 u) (V 1 1 1) in
  if Reqb (norm d) 0 then None else Some (smul (/ norm d) d).
Definition init_velocity (speed : R) (u : vec) : option vec :=
  match init_direction u with Some d => Some (smul speed d) | None => None end.

Section Run.
  Context (sc : scene) (fuel : nat) (name_ok : str -> bool) (dir : str) (pat : patterns).

  (** The loop of run (lines 169-209): a batch, its dump, the state for the
      next one.  [fuel] bounds the reflections in a step, [rounds] the
      batches.  The buffers of the last batch are returned; before the first
      batch there are none. *)
  Fixpoint run_loop (rounds size num_steps step : nat) (pos vel : list vec) (en hits : list R) (fs : files) (last : option buffers)
    : result (option buffers * files) :=
    match rounds with
    | O => Err OutOfFuel
    | S rounds' =>
        if (step <? num_steps)%nat then
          do b <- simulation_loop sc fuel size pos vel en hits;
          do fs' <- dump_buffers name_ok (map DPos (b_pos b)) (map DNum (b_en b)) (map DNum (b_hit b)) dir pat step fs;
          run_loop rounds' size num_steps (step + size) (row (b_pos b) (length (b_pos b) - 1)) (next_velocity sc b)
            (row (b_en b) (length (b_en b) - 1)) (row (b_hit b) (length (b_hit b) - 1)) fs' (Some b)
        else Ok (last, fs)
    end.

  (** Simulation.run (lines 117-209) with the velocities of lines 126-130: all
      rays start at the source with energy 1, no hits.  The voxel grid
      (lines 137-166) is part of the scene. *)
  Definition run (rounds size num_steps : nat) (source : vec) (vel : list vec) (fs : files) : result (option buffers * files) :=
    run_loop rounds size num_steps 0 (repeat source (length vel)) vel (repeat 1 (length vel)) (repeat 0 (length (absorbers sc))) fs None.
End Run.
