(** Specification vocabulary for the simulation. *)
From Coq Require Import Reals List Bool Arith.
From Verif Require Import Prelude VecModel SimModel.
Import ListNotations.
Local Open Scope R_scope.

(** Mirror image of a velocity at a surface with normal n. *)
Definition mirror (n v : vec) : vec := vsub v (smul (2 * dot n v) n).

Definition with_energy (r : ray) (e : R) : ray := mkRay (r_pos r) (r_vel r) (r_dpos r) e.

(** Squared-distance test for absorber number sn; the first one that contains
    the point. *)
Definition within (sc : scene) (p : vec) (sn : nat) : Prop :=
  exists a, nth_error (absorbers sc) sn = Some a /\ dot (vsub p a) (vsub p a) < radius sc * radius sc.
Definition first_within (sc : scene) (p : vec) (sn : nat) : Prop :=
  within sc p sn /\ forall j, (j < sn)%nat -> ~ within sc p j.

(** An energetic ray within an absorber loses all energy, other rays stay as
    they are. *)
Definition absorbed (sc : scene) (r r1 : ray) : Prop :=
  (eps sc < r_en r /\ (exists sn, within sc (r_pos r) sn) /\ r1 = with_energy r 0) \/
  (~ (eps sc < r_en r /\ exists sn, within sc (r_pos r) sn) /\ r1 = r).

(** What a ray contributes to absorber sn. *)
Definition credit (sc : scene) (sn : nat) (r : ray) (x : R) : Prop :=
  (eps sc < r_en r /\ first_within sc (r_pos r) sn /\ x = r_en r) \/
  (~ (eps sc < r_en r /\ first_within sc (r_pos r) sn) /\ x = 0).

(** Outside the bounding box by more than eps. *)
Definition left_box (sc : scene) (p : vec) : Prop :=
  vx p < vx (bbmin sc) - eps sc \/ vy p < vy (bbmin sc) - eps sc \/ vz p < vz (bbmin sc) - eps sc \/
  vx p > vx (bbmax sc) + eps sc \/ vy p > vy (bbmax sc) + eps sc \/ vz p > vz (bbmax sc) + eps sc.

(** The reflection distance: 1.01 times the length of a move. *)
Definition rdist (sc : scene) : R := speed sc * dt sc * (101 / 100).

(** Starting with velocity v at pos, the ray is mirrored at the surfaces ps,
    each being the current target and near. *)
Inductive bounces (sc : scene) (pos v : vec) : list nat -> vec -> Prop :=
| bounces_nil : bounces sc pos v [] v
| bounces_snoc ps v1 k : bounces sc pos v ps v1 -> target sc pos v1 = Some k -> pdist sc pos k < rdist sc ->
    bounces sc pos v (ps ++ [k]) (mirror (pnormal sc k) v1).

Definition total_surf (sc : scene) (ps : list nat) : R := Rsum (map (surf sc) ps).

(** What a step does with a ray (after the absorbers). *)
Inductive outcome (sc : scene) (r r' : ray) : Prop :=
| out_dead : r_en r <= eps sc -> r' = r -> outcome sc r r'
| out_left : eps sc < r_en r -> left_box sc (r_pos r) -> r' = with_energy r 0 -> outcome sc r r'
| out_moved ps :
    eps sc < r_en r -> ~ left_box sc (r_pos r) -> bounces sc (r_pos r) (r_vel r) ps (r_vel r') ->
    r_en r' = r_en r - total_surf sc ps -> eps sc < r_en r' ->
    r_dpos r' = match ps with [] => r_dpos r | _ => smul (dt sc) (r_vel r') end ->
    (target sc (r_pos r) (r_vel r') = None \/ exists k, target sc (r_pos r) (r_vel r') = Some k /\ rdist sc < pdist sc (r_pos r) k) ->
    r_pos r' = vadd (r_pos r) (r_dpos r') -> outcome sc r r'
| out_stalled ps k :
    eps sc < r_en r -> ~ left_box sc (r_pos r) -> bounces sc (r_pos r) (r_vel r) ps (r_vel r') ->
    r_en r' = r_en r - total_surf sc ps -> eps sc < r_en r' ->
    r_dpos r' = match ps with [] => r_dpos r | _ => smul (dt sc) (r_vel r') end ->
    target sc (r_pos r) (r_vel r') = Some k -> pdist sc (r_pos r) k = rdist sc ->
    r_pos r' = r_pos r -> outcome sc r r'
| out_spent ps k :
    eps sc < r_en r -> ~ left_box sc (r_pos r) -> bounces sc (r_pos r) (r_vel r) ps (r_vel r') ->
    target sc (r_pos r) (r_vel r') = Some k -> pdist sc (r_pos r) k < rdist sc ->
    eps sc < r_en r - total_surf sc ps -> r_en r - total_surf sc (ps ++ [k]) <= eps sc ->
    r_dpos r' = match ps with [] => r_dpos r | _ => smul (dt sc) (r_vel r') end ->
    r_en r' = 0 -> r_pos r' = r_pos r -> outcome sc r r'.

(** The states of a run: sts starts with s0 and each one is the step of the
    previous one. *)
Definition history (step : simstate -> result simstate) (s0 : simstate) (sts : list simstate) : Prop :=
  nth_error sts 0 = Some s0 /\
  forall i s s', nth_error sts i = Some s -> nth_error sts (S i) = Some s' -> step s = Ok s'.

(** Ray k in state number i. *)
Definition ray_at (sts : list simstate) (i k : nat) (r : ray) : Prop :=
  exists s, nth_error sts i = Some s /\ nth_error (s_rays s) k = Some r.

(** Energy lost by a ray at surfaces or by leaving (not to absorbers). *)
Definition loss (sc : scene) (r r' : ray) (x : R) : Prop :=
  (x = 0 /\ r_en r' = r_en r) \/
  (left_box sc (r_pos r) /\ x = r_en r /\ r_en r' = 0) \/
  (exists ps, bounces sc (r_pos r) (r_vel r) ps (r_vel r') /\ x = total_surf sc ps /\ r_en r' = r_en r - x) \/
  (exists ps k, bounces sc (r_pos r) (r_vel r) ps (r_vel r') /\ target sc (r_pos r) (r_vel r') = Some k /\
     x = r_en r /\ r_en r' = 0 /\ r_en r - total_surf sc (ps ++ [k]) <= eps sc).

(** One step as a relation on states: absorbers first, then the movement;
    the hits are those of this step only. *)
Definition steps_to (sc : scene) (s s' : simstate) : Prop :=
  (exists rs, Forall2 (absorbed sc) (s_rays s) rs /\ Forall2 (outcome sc) rs (s_rays s')) /\
  length (s_hits s') = length (absorbers sc) /\
  forall sn, (sn < length (absorbers sc))%nat ->
    exists xs, Forall2 (credit sc sn) (s_rays s) xs /\ nth_error (s_hits s') sn = Some (Rsum xs).

Definition run_of (sc : scene) (s0 : simstate) (sts : list simstate) : Prop :=
  nth_error sts 0 = Some s0 /\
  forall i s s', nth_error sts i = Some s -> nth_error sts (S i) = Some s' -> steps_to sc s s'.

(** The state given by the input arrays. *)
Definition initial (sc : scene) (pos vel : list vec) (en hits : list R) (s : simstate) : Prop :=
  map r_pos (s_rays s) = pos /\ map r_vel (s_rays s) = vel /\ map r_en (s_rays s) = en /\ s_hits s = hits /\
  Forall (fun r => r_dpos r = smul (dt sc) (r_vel r)) (s_rays s).

(** Entry k of row i. *)
Definition cell {A} (b : list (list A)) (i k : nat) (x : A) : Prop :=
  exists row, nth_error b i = Some row /\ nth_error row k = Some x.

(** The result of rays processed in some interleaving. *)
Definition all_done (l : list rstate) : Prop := forall s, In s l -> fst s = Done.
