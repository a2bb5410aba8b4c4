(** The ray simulation (sim/rays/simulation_loop.py, simulation.py). *)
From Coq Require Import Reals List Bool Arith.
From Verif Require Import Prelude MeshModel VecModel.
Import ListNotations.
Local Open Scope R_scope.

(** One ray: the rows of the arrays position, velocity, delta_pos, energy.
    target_surfs (line 128) is written before it is read in every iteration
    and is left out. *)
Record ray := mkRay { r_pos : vec; r_vel : vec; r_dpos : vec; r_en : R }.

(** The state of the loop: the rays and the hits array. *)
Record simstate := mkSim { s_rays : list ray; s_hits : list R }.

(** What does not change during a simulation. *)
Record scene := mkScene {
  (** The surface a ray at a position with a direction aims at: lines 166-181
      (cell, nearby polygons, find_target_surface); None for -1.  See
      [sim_target] in VoxModel.v. *)
  target : vec -> vec -> option nat;
  (** Distance of a position to polygon pn, line 188; finite. *)
  pdist : vec -> nat -> R;
  (** The polygon's normal, line 187; no NaN. *)
  pnormal : nat -> vec;
  (** surf_absorption[pn]. *)
  surf : nat -> R;
  (** The bounding box of the points (lines 100-105). *)
  bbmin : vec; bbmax : vec;
  (** The absorbers, their radius, eps, the time step and ray_speed. *)
  absorbers : list vec; radius : R; eps : R; dt : R; speed : R }.

Section Sim.
  Context (sc : scene).

  (** Line 87. *)
  Definition reflection_dist : R := (speed sc) * (dt sc) * (101 / 100).

  (** Lines 143-147 for one ray with energy > eps; [sn] counts absorbers, hits
      are updated in place. *)
  Fixpoint check_absorbers (abs : list vec) (hits : list R) (r : ray) : list R * ray :=
    match abs, hits with
    | a :: abs', h :: hits' =>
        let d := vsub (r_pos r) a in
        if Rltb (dot d d) ((radius sc) * (radius sc)) then
          let (hs, r') := check_absorbers abs' hits' (mkRay (r_pos r) (r_vel r) (r_dpos r) 0) in (h + r_en r :: hs, r')
        else
          let (hs, r') := check_absorbers abs' hits' r in (h :: hs, r')
    | _, _ => (hits, r)
    end.

  (** Lines 140-147. *)
  Fixpoint absorb (rays : list ray) (hits : list R) : list ray * list R :=
    match rays with
    | [] => ([], hits)
    | r :: rays' =>
        if Rleb (r_en r) (eps sc) then
          let (rs, hs) := absorb rays' hits in (r :: rs, hs)
        else
          let (hits1, r1) := check_absorbers (absorbers sc) hits r in
          let (rs, hs) := absorb rays' hits1 in (r1 :: rs, hs)
    end.

  (** Lines 155-162. *)
  Definition outside (p : vec) : bool :=
    Rltb (vx p) (vx (bbmin sc) - (eps sc)) || Rltb (vy p) (vy (bbmin sc) - (eps sc)) || Rltb (vz p) (vz (bbmin sc) - (eps sc)) ||
    Rltb (vx (bbmax sc) + (eps sc)) (vx p) || Rltb (vy (bbmax sc) + (eps sc)) (vy p) || Rltb (vz (bbmax sc) + (eps sc)) (vz p).

  (** Distance comparisons; without a target the distance is infinite
      (lines 189-191). *)
  Definition dist_lt (p : vec) (t : option nat) : bool :=
    match t with Some k => Rltb ((pdist sc) p k) reflection_dist | None => false end.
  Definition dist_gt (p : vec) (t : option nat) : bool :=
    match t with Some k => Rltb reflection_dist ((pdist sc) p k) | None => true end.

  (** The body of the parallel loop (lines 149-235) for one ray as a sequence
      of small steps: [Start] is line 150, [Loop t] is the head of the while
      loop (line 193) with target t. *)
  Inductive phase := Start | Loop (t : option nat) | Done.
  Definition rstate := (phase * ray)%type.

  Definition reflect (r : ray) (k : nat) (en : R) : ray :=
    let vn := (pnormal sc) k in
    let d := dot vn (r_vel r) in
    let vel := vsub (r_vel r) (smul (2 * d) vn) in
    mkRay (r_pos r) vel (smul (dt sc) vel) en.

  Definition micro (st : rstate) : rstate :=
    let (ph, r) := st in
    match ph with
    | Start =>
        if Rleb (r_en r) (eps sc) then (Done, r)
        else
          let en := if Rltb 0 (r_en r) && outside (r_pos r) then 0 else r_en r in
          let r1 := mkRay (r_pos r) (r_vel r) (r_dpos r) en in
          (Loop ((target sc) (r_pos r) (r_vel r)), r1)
    | Loop t =>
        match t with
        | Some k =>
            if dist_lt (r_pos r) t && Rltb (eps sc) (r_en r) then
              let en := r_en r - (surf sc) k in
              if Rleb en (eps sc) then (Done, mkRay (r_pos r) (r_vel r) (r_dpos r) 0)
              else
                let r1 := reflect r k en in
                (Loop ((target sc) (r_pos r1) (r_vel r1)), r1)
            else if Rltb (eps sc) (r_en r) && dist_gt (r_pos r) t then
              (Done, mkRay (vadd (r_pos r) (r_dpos r)) (r_vel r) (r_dpos r) (r_en r))
            else (Done, r)
        | None =>
            if Rltb (eps sc) (r_en r) && dist_gt (r_pos r) t then
              (Done, mkRay (vadd (r_pos r) (r_dpos r)) (r_vel r) (r_dpos r) (r_en r))
            else (Done, r)
        end
    | Done => st
    end.

  (** The whole iteration; [fuel] bounds the number of small steps. *)
  Definition step_ray (fuel : nat) (r : ray) : result ray :=
    match Nat.iter fuel micro (Start, r) with
    | (Done, r') => Ok r'
    | _ => Err OutOfFuel
    end.

  (** One pass of the loop over steps (lines 132-240) without the buffers. *)
  Definition sim_step (fuel : nat) (st : simstate) : result simstate :=
    let (rays1, hits1) := absorb (s_rays st) (map (fun _ => 0) (s_hits st)) in
    do rays2 <- mapM (step_ray fuel) rays1;
    Ok (mkSim rays2 hits1).

  (** The same with the rays processed by threads: the schedule lists which
      ray makes its next small step. *)
  Definition run_schedule (sched : list nat) (l : list rstate) : list rstate :=
    fold_left (fun l i => match nth_error l i with Some s => set_nth l i (micro s) | None => l end) sched l.

  (** The buffers (lines 107-116, 238-240): allocated with num_steps+1 rows,
      row 0 filled with the initial state. *)
  Record buffers := mkBuf { b_pos : list (list vec); b_en : list (list R); b_hit : list (list R) }.

  Definition write_buf (b : buffers) (i : nat) (st : simstate) : buffers :=
    mkBuf (set_nth (b_pos b) i (map r_pos (s_rays st))) (set_nth (b_en b) i (map r_en (s_rays st))) (set_nth (b_hit b) i (s_hits st)).

  Definition new_buf (num_steps num_rays : nat) : buffers :=
    mkBuf (repeat (repeat vzero num_rays) (num_steps + 1)) (repeat (repeat 1 num_rays) (num_steps + 1))
          (repeat (repeat 0 (length (absorbers sc))) (num_steps + 1)).

  (** The initial state from the arrays given (line 85). *)
  Definition init_rays (pos vel : list vec) (en : list R) : list ray :=
    map (fun pve => let '(p, v, e) := pve in mkRay p v (smul (dt sc) v) e) (combine (combine pos vel) en).

  (** simulation_loop (lines 21-249). *)
  Definition simulation_loop (fuel num_steps : nat) (pos vel : list vec) (en hits : list R) : result buffers :=
    let st0 := mkSim (init_rays pos vel en) hits in
    do r <- foldM (fun sb i => let (st, b) := sb : simstate * buffers in
                     do st' <- sim_step fuel st;
                     Ok (st', write_buf b (i + 1) st'))
              (seq 0 num_steps) (st0, write_buf (new_buf num_steps (length pos)) 0 st0);
    Ok (snd r).

  (** The batches of Simulation.run (simulation.py:164-206): the next batch
      starts with the last rows and the velocity of the last move. *)
  Definition row {A} (l : list (list A)) (i : nat) : list A := nth i l [].
  Definition next_velocity (b : buffers) : list vec :=
    let n := length (b_pos b) in
    map (fun pq => smul (/ (dt sc)) (vsub (fst pq) (snd pq))) (combine (row (b_pos b) (n - 1)) (row (b_pos b) (n - 2))).

  Fixpoint run_batches (fuel size n : nat) (pos vel : list vec) (en hits : list R) : result (list buffers) :=
    match n with
    | O => Ok []
    | S n' =>
        do b <- simulation_loop fuel size pos vel en hits;
        do bs <- run_batches fuel size n' (row (b_pos b) (length (b_pos b) - 1)) (next_velocity b)
                   (row (b_en b) (length (b_en b) - 1)) (row (b_hit b) (length (b_hit b) - 1));
        Ok (b :: bs)
    end.
End Sim.
