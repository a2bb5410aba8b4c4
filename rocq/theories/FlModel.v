(** Energies and random numbers in floating point. *)
From Coq Require Import Reals List Bool Arith ZArith.
From Verif Require Import Prelude MeshModel VecModel VoxModel GeomModel SimModel.
Import ListNotations.
Local Open Scope R_scope.

(** The value of a float64 operation (FLOAT, geom/types.py:8) is the exact one
    rounded to 53 binary digits, ties to even, with exponents from -1074 on;
    overflow to infinity is left out. *)
Definition expo (x : R) : Z := Z.max (VoxModel.floor (ln (Rabs x) / ln 2) - 52) (-1074).
Definition round64 (x : R) : R :=
  if Req_EM_T x 0 then 0 else IZR (rint (x / powerRZ 2 (expo x))) * powerRZ 2 (expo x).

(** ** The simulation loop with rounded energies

    Everything that concerns the motion of rays is left open: [A] holds the
    rows of the arrays position, velocity and delta_pos in whatever arithmetic,
    NaN included. *)
Record motion (A : Type) := mkMotion {
  (** The target surface (sim/rays/simulation_loop.py:166-181, 205-224). *)
  m_target : A -> option nat;
  (** dist < reflection_dist and dist > reflection_dist (lines 193, 232). *)
  m_near : A -> nat -> bool;
  m_far : A -> nat -> bool;
  (** Reflection (lines 202-204) and moving (line 233). *)
  m_turn : A -> nat -> A;
  m_move : A -> A;
  (** Outside of the bounding box (lines 155-162). *)
  m_out : A -> bool;
  (** Within the radius of absorber sn (lines 144-145). *)
  m_within : A -> nat -> bool;
  (** surf_absorption and eps. *)
  m_surf : nat -> R;
  m_eps : R }.
Arguments mkMotion {A}.
Arguments m_target {A}. Arguments m_near {A}. Arguments m_far {A}. Arguments m_turn {A}. Arguments m_move {A}.
Arguments m_out {A}. Arguments m_within {A}. Arguments m_surf {A}. Arguments m_eps {A}.

Section Float.
  Context {A : Type} (rnd : R -> R) (mo : motion A).

  (** Lines 143-147 for one ray. *)
  Fixpoint fcheck (sn : nat) (hits : list R) (a : A) (en : R) : list R * R :=
    match hits with
    | [] => ([], en)
    | h :: hits' =>
        if m_within mo a sn then
          let (hs, en') := fcheck (S sn) hits' a 0 in (rnd (h + en) :: hs, en')
        else
          let (hs, en') := fcheck (S sn) hits' a en in (h :: hs, en')
    end.

  (** Lines 140-147. *)
  Fixpoint fabsorb (rays : list (A * R)) (hits : list R) : list (A * R) * list R :=
    match rays with
    | [] => ([], hits)
    | (a, en) :: rays' =>
        if Rleb en (m_eps mo) then
          let (rs, hs) := fabsorb rays' hits in ((a, en) :: rs, hs)
        else
          let (hits1, en1) := fcheck 0 hits a en in
          let (rs, hs) := fabsorb rays' hits1 in ((a, en1) :: rs, hs)
    end.

  (** The body of the parallel loop (lines 149-235) in small steps, as in
      SimModel.v. *)
  Definition fmove (a : A) (en : R) (far : bool) : phase * (A * R) :=
    if Rltb (m_eps mo) en && far then (Done, (m_move mo a, en)) else (Done, (a, en)).
  Definition fmicro (st : phase * (A * R)) : phase * (A * R) :=
    let '(ph, (a, en)) := st in
    match ph with
    | Start =>
        if Rleb en (m_eps mo) then (Done, (a, en))
        else (Loop (m_target mo a), (a, if Rltb 0 en && m_out mo a then 0 else en))
    | Loop (Some k) =>
        if m_near mo a k && Rltb (m_eps mo) en then
          let en1 := rnd (en - m_surf mo k) in
          if Rleb en1 (m_eps mo) then (Done, (a, 0))
          else (Loop (m_target mo (m_turn mo a k)), (m_turn mo a k, en1))
        else fmove a en (m_far mo a k)
    | Loop None => fmove a en true
    | Done => st
    end.
  Definition fstep (fuel : nat) (r : A * R) : result (A * R) :=
    match Nat.iter fuel fmicro (Start, r) with
    | (Done, r') => Ok r'
    | _ => Err OutOfFuel
    end.

  (** One pass of the loop over steps (lines 132-240): the rays and the hits. *)
  Definition fsim_step (fuel : nat) (st : list (A * R) * list R) : result (list (A * R) * list R) :=
    let (rays1, hits1) := fabsorb (fst st) (map (fun _ => 0) (snd st)) in
    do rays2 <- mapM (fstep fuel) rays1;
    Ok (rays2, hits1).

  (** The rows of the buffers, the initial state first. *)
  Fixpoint frows (fuel n : nat) (st : list (A * R) * list R) : result (list (list (A * R) * list R)) :=
    match n with
    | O => Ok [st]
    | S n' => do st' <- fsim_step fuel st; do rest <- frows fuel n' st'; Ok (st :: rest)
    end.
End Float.

(** The motion of SimModel.v. *)
Definition exact_motion (sc : scene) : motion (vec * vec * vec) :=
  mkMotion (fun a => target sc (fst (fst a)) (snd (fst a)))
    (fun a k => dist_lt sc (fst (fst a)) (Some k))
    (fun a k => dist_gt sc (fst (fst a)) (Some k))
    (fun a k => let r := reflect sc (mkRay (fst (fst a)) (snd (fst a)) (snd a) 0) k 0 in (r_pos r, r_vel r, r_dpos r))
    (fun a => (vadd (fst (fst a)) (snd a), snd (fst a), snd a))
    (fun a => outside sc (fst (fst a)))
    (fun a sn => match nth_error (absorbers sc) sn with
                 | Some c => Rltb (dot (vsub (fst (fst a)) c) (vsub (fst (fst a)) c)) (radius sc * radius sc)
                 | None => false
                 end)
    (surf sc) (eps sc).

(** ** Random numbers *)

(** random_within (random/__init__.py:30-35); [u] is the random number. *)
Definition fwithin (rnd : R -> R) (lim u : R) : R :=
  if Req_EM_T lim 0 then 0 else rnd (rnd (2 * lim) * rnd (u - 1 / 2)).

(** random_between (random/__init__.py:38-47). *)
Definition fbetween (rnd : R -> R) (lo hi u : R) : R :=
  let '(lo, hi) := if Rltb hi lo then (hi, lo) else (lo, hi) in
  rnd (rnd (u * rnd (hi - lo)) + lo).
