(** Properties of energies and random numbers in floating point. *)
From Coq Require Import Reals List Bool Arith ZArith Lra Lia.
From Verif Require Import Prelude MeshModel VecModel VecProofs VoxModel GeomModel EqProofs SimModel FlModel FlSpec FlProofs FlProofs2 FlProofs3 FlProofs4 FlProofs5.
Import ListNotations.
Local Open Scope R_scope.

(** A demo: a ray in a corner is reflected three times at once and moves on;
    absorber 1 is where the ray gets to. *)
Definition demo_motion : motion nat :=
  mkMotion (fun _ => Some 0%nat) (fun a _ => Nat.ltb a 3) (fun a _ => negb (Nat.ltb a 3)) (fun a _ => S a) (fun a => (a + 10)%nat)
    (fun _ => false) (fun a sn => Nat.eqb sn 1 && Nat.eqb a 13) (fun _ => 1 / 8) (1 / 100).

(** ** C95: energies *)
Theorem C95_rounding : to_nearest round64.
Proof. exact round64_nearest. Qed.
Print Assumptions C95_rounding.

Lemma grid_8 k : (Z.abs k <= 2 ^ 53)%Z -> f64 (IZR k / 8).
Proof. intros H. exists k, (-3)%Z. split; [simpl; lra|]. split; auto. apply Z.leb_le. reflexivity. Qed.
Lemma id_8 k : (Z.abs k <= 2 ^ 53)%Z -> round64 (IZR k / 8) = IZR k / 8.
Proof. intros H. apply (rnd_id _ round64_nearest). apply grid_8. auto. Qed.

Example C95_rounding_ex : round64 (1 - powerRZ 2 (-60)) = 1 /\ round64 (7 / 8) = 7 / 8.
Proof.
  split; [|apply (id_8 7); lia]. apply (drop_none _ round64_nearest). split; [left; apply b2_pos|].
  unfold ulp. replace (-53)%Z with (7 + -60)%Z by reflexivity. rewrite powerRZ_add by lra. pose proof (b2_pos (-60)). simpl powerRZ at 2. lra.
Qed.

(** Energies never grow, exhausted rays stay as they are. *)
Theorem C95_never_grow : forall (A : Type) (rnd : R -> R) (mo : motion A) (fuel n : nat) (st : list (A * R) * list R) rows,
  to_nearest rnd -> (forall k, 0 <= m_surf mo k) -> 0 <= m_eps mo -> Forall unit_energy (fst st) ->
  frows rnd mo fuel n st = Ok rows ->
  length rows = S n /\
  forall i j st1 st2, (i <= j)%nat -> nth_error rows i = Some st1 -> nth_error rows j = Some st2 ->
    length (fst st1) = length (fst st) /\ length (fst st2) = length (fst st) /\
    forall q r1 r2, nth_error (fst st1) q = Some r1 -> nth_error (fst st2) q = Some r2 ->
      unit_energy r1 /\ unit_energy r2 /\ snd r2 <= snd r1 /\ (snd r1 <= m_eps mo -> r2 = r1).
Proof. intros A rnd mo fuel n st rows NR. exact (rows_energies rnd NR mo fuel n st rows). Qed.
Print Assumptions C95_never_grow.

Ltac dec := repeat first
  [ match goal with |- context [Rleb ?a ?b] => first [replace (Rleb a b) with false by (symmetry; apply Rleb_false; lra) | replace (Rleb a b) with true by (symmetry; apply Rleb_true; lra)] end
  | match goal with |- context [Rltb ?a ?b] => first [replace (Rltb a b) with false by (symmetry; apply Rltb_false; lra) | replace (Rltb a b) with true by (symmetry; apply Rltb_true; lra)] end ].

Ltac go := dec; cbn [andb negb Nat.ltb Nat.leb].

Example demo_rows : frows round64 demo_motion 5 2 ([(0%nat, 1)], [0; 0]) =
  Ok [([(0%nat, 1)], [0; 0]); ([(13%nat, 5 / 8)], [0; 0]); ([(13%nat, 0)], [0; 5 / 8])].
Proof.
  assert (E1 : round64 (1 - 1 / 8) = 7 / 8) by (replace (1 - 1 / 8) with (7 / 8) by lra; apply (id_8 7); lia).
  assert (E2 : round64 (7 / 8 - 1 / 8) = 6 / 8) by (replace (7 / 8 - 1 / 8) with (6 / 8) by lra; apply (id_8 6); lia).
  assert (E3 : round64 (6 / 8 - 1 / 8) = 5 / 8) by (replace (6 / 8 - 1 / 8) with (5 / 8) by lra; apply (id_8 5); lia).
  assert (E4 : round64 (0 + 5 / 8) = 5 / 8) by (rewrite Rplus_0_l; apply (id_8 5); lia).
  assert (S1 : fsim_step round64 demo_motion 5 ([(0%nat, 1)], [0; 0]) = Ok ([(13%nat, 5 / 8)], [0; 0])).
  { unfold fsim_step. cbn [fst snd map fabsorb fcheck demo_motion m_eps m_within Nat.eqb andb]. dec. cbn [mapM fstep].
    unfold fstep, fmicro, fmove. cbn [Nat.iter nat_rect demo_motion m_eps m_target m_near m_far m_turn m_move m_out m_surf Nat.ltb Nat.leb negb andb].
    rewrite ?andb_false_r. go. rewrite E1. go. rewrite E2. go. rewrite E3. go. reflexivity. }
  assert (S2 : fsim_step round64 demo_motion 5 ([(13%nat, 5 / 8)], [0; 0]) = Ok ([(13%nat, 0)], [0; 5 / 8])).
  { unfold fsim_step. cbn [fst snd map fabsorb fcheck demo_motion m_eps m_within Nat.eqb andb]. rewrite E4. dec. cbn [mapM fstep].
    unfold fstep, fmicro, fmove. cbn [Nat.iter nat_rect demo_motion m_eps m_target m_near m_far m_turn m_move m_out m_surf Nat.ltb Nat.leb negb andb].
    dec. reflexivity. }
  cbn [frows]. rewrite S1. cbn [rbind]. rewrite S2. reflexivity.
Qed.
Example C95_never_grow_ex : Forall unit_energy (fst ([(0%nat, 1)], [0; 0])) /\ (forall k, 0 <= m_surf demo_motion k) /\ 0 <= m_eps demo_motion.
Proof. split; [constructor; [split; [apply f64_1|simpl; lra]|constructor]|]. split; [intros k|]; simpl; lra. Qed.

(** The hits are the energies absorbed up to one rounding per ray. *)
Theorem C95_hits : forall (A : Type) (rnd : R -> R) (mo : motion A) (fuel n : nat) (st : list (A * R) * list R) rows,
  to_nearest rnd -> (forall k, 0 <= m_surf mo k) -> 0 <= m_eps mo -> Forall unit_energy (fst st) ->
  frows rnd mo fuel n st = Ok rows ->
  forall i st1 st2 sn h x, nth_error rows i = Some st1 -> nth_error rows (S i) = Some st2 ->
    nth_error (snd st2) sn = Some h -> due mo sn (fst st1) x ->
    f64 h /\ 0 <= h /\ Rabs (h - x) <= ((1 + ulp) ^ (length (fst st)) - 1) * x.
Proof. intros A rnd mo fuel n st rows NR. exact (rows_hits rnd NR mo fuel n st rows). Qed.
Print Assumptions C95_hits.

Theorem C95_due : forall (A : Type) (mo : motion A) (sn : nat) (rays : list (A * R)), exists x, due mo sn rays x.
Proof. intros A mo sn rays. exact (due_exists mo sn rays). Qed.
Print Assumptions C95_due.

Example C95_hits_ex : due demo_motion 1 [(13%nat, 5 / 8)] (5 / 8 + 0) /\ due demo_motion 0 [(13%nat, 5 / 8)] 0.
Proof.
  split.
  - apply (due_in demo_motion 1 (13%nat, 5 / 8)); [|constructor]. split; [simpl; lra|]. split; [reflexivity|]. intros j J. assert (j = 0)%nat by lia. subst. reflexivity.
  - apply due_out; [|constructor]. intros (_ & W & _). discriminate.
Qed.

(** With absorptions above 2^-54 every step ends. *)
Theorem C95_ends : forall (A : Type) (rnd : R -> R) (mo : motion A) (b : R) (m fuel n : nat) (st : list (A * R) * list R),
  to_nearest rnd -> ulp / 2 < b -> (forall k, b <= m_surf mo k) -> 0 <= m_eps mo -> 1 <= m_eps mo + INR m * (b / 2) ->
  (m + 2 <= fuel)%nat -> Forall unit_energy (fst st) -> exists rows, frows rnd mo fuel n st = Ok rows.
Proof. intros A rnd mo b m fuel n st NR. exact (rows_end rnd NR mo b m fuel n st). Qed.
Print Assumptions C95_ends.

Lemma ulp_small : ulp < 1 / 8.
Proof. unfold ulp. apply Rle_lt_trans with (powerRZ 2 (-4)); [apply b2_le; lia|simpl; lra]. Qed.
Example C95_ends_ex : ulp / 2 < 1 / 8 /\ (forall k, 1 / 8 <= m_surf demo_motion k) /\ 0 <= m_eps demo_motion /\ 1 <= m_eps demo_motion + INR 16 * (1 / 8 / 2).
Proof. pose proof ulp_small. pose proof ulp_pos. split; [lra|]. split; [intros k; simpl; lra|]. split; simpl; lra. Qed.

(** With absorptions below 2^-54 a step need not end. *)
Theorem C95_loops : forall (A : Type) (rnd : R -> R) (mo : motion A) (I : A -> Prop),
  to_nearest rnd -> m_eps mo < 1 ->
  (forall a, I a -> exists k, m_target mo a = Some k /\ m_near mo a k = true /\ 0 <= m_surf mo k < ulp / 2 /\ I (m_turn mo a k)) ->
  forall a, I a -> m_out mo a = false -> forall fuel, fstep rnd mo fuel (a, 1) = Err OutOfFuel.
Proof. intros A rnd mo I NR. exact (step_loops rnd NR mo I). Qed.
Print Assumptions C95_loops.

(** So that all absorptions be positive is not enough, as it is in exact
    arithmetic (C34). *)
Definition narrow_motion : motion Datatypes.unit :=
  mkMotion (fun _ => Some 0%nat) (fun _ _ => true) (fun _ _ => false) (fun a _ => a) (fun a => a) (fun _ => false) (fun _ _ => false)
    (fun _ => ulp / 4) (1 / 1000000).
Lemma narrow_loops : (forall k, 0 < m_surf narrow_motion k) /\ forall rnd fuel, to_nearest rnd -> fstep rnd narrow_motion fuel (tt, 1) = Err OutOfFuel.
Proof.
  pose proof ulp_pos as U. split; [intros k; simpl; lra|]. intros rnd fuel NR. apply (step_loops rnd NR narrow_motion (fun _ => True)); auto; [simpl; lra|].
  intros a _. exists 0%nat. simpl. split; [auto|]. split; [auto|]. split; [lra|auto].
Qed.
Theorem C95_positive_absorption_refuted : ~ forall (A : Type) (rnd : R -> R) (mo : motion A) (b : R) (r : A * R),
  to_nearest rnd -> 0 < b -> (forall k, b <= m_surf mo k) -> 0 < m_eps mo -> unit_energy r -> exists fuel r', fstep rnd mo fuel r = Ok r'.
Proof.
  exact (fun H => match H Datatypes.unit round64 narrow_motion (ulp / 4) (tt, 1) round64_nearest
                    ltac:(pose proof ulp_pos; lra) ltac:(intros k; simpl; lra) ltac:(simpl; lra) ltac:(split; [apply f64_1|simpl; lra]) with
                  | ex_intro _ fuel (ex_intro _ r' E) => ltac:(rewrite (proj2 narrow_loops round64 fuel round64_nearest) in E; discriminate)
                  end).
Qed.
Print Assumptions C95_positive_absorption_refuted.

(** Without rounding and with the motion of SimModel.v this is the exact model. *)
Theorem C95_exact : forall (sc : scene) (fuel : nat) (st : simstate),
  fsim_step (fun x => x) (exact_motion sc) fuel (map as_row (s_rays st), s_hits st) =
  match sim_step sc fuel st with
  | Ok s => Ok (map as_row (s_rays s), s_hits s)
  | Err e => Err e
  end.
Proof. exact fsim_step_exact. Qed.
Print Assumptions C95_exact.

(** ** C96: random numbers *)
Theorem C96_between : forall rnd lo hi u, to_nearest rnd -> f64 lo -> f64 hi -> 0 <= u <= 1 - ulp ->
  Rmin lo hi <= fbetween rnd lo hi u <= Rmax lo hi.
Proof. intros rnd lo hi u NR. exact (between_range rnd NR lo hi u). Qed.
Print Assumptions C96_between.

Example C96_between_ex : f64 5 /\ f64 (3 / 8) /\ 0 <= 1 / 2 <= 1 - ulp.
Proof. pose proof ulp_small. pose proof ulp_pos. split; [apply f64_Z; lia|]. split; [apply (grid_8 3); lia|]. lra. Qed.

(** The upper end can be the result. *)
Theorem C96_below_refuted : forall rnd, to_nearest rnd ->
  ~ forall lo hi u, f64 lo -> f64 hi -> lo < hi -> f64 u -> 0 <= u < 1 -> fbetween rnd lo hi u < hi.
Proof.
  exact (fun rnd NR H => Rlt_irrefl 3 (eq_ind (fbetween rnd 2 3 (1 - ulp)) (fun v => v < 3)
    (H 2 3 (1 - ulp) ltac:(apply f64_Z; lia) ltac:(apply f64_Z; lia) ltac:(lra) f64_below_1 ltac:(pose proof ulp_small; pose proof ulp_pos; lra)) 3 (between_top rnd NR))).
Qed.
Print Assumptions C96_below_refuted.

Theorem C96_within : forall rnd lim u, to_nearest rnd -> f64 lim -> f64 u -> 0 <= u <= 1 - ulp ->
  Rabs (fwithin rnd lim u) <= Rabs lim /\ (powerRZ 2 (-1022) <= lim -> fwithin rnd lim u < lim).
Proof.
  exact (fun rnd lim u NR Fl Fu U => conj (within_range rnd NR lim u Fl ltac:(pose proof ulp_pos; lra)) (fun L => within_below rnd NR lim u Fl L Fu U)).
Qed.
Print Assumptions C96_within.

Example C96_within_ex : fwithin round64 3 (1 / 4) = - (3 / 2) /\ powerRZ 2 (-1022) <= 3.
Proof.
  split.
  - unfold fwithin. destruct (Req_EM_T 3 0) as [C|_]; [lra|].
    replace (2 * 3) with (48 / 8) by lra. rewrite (id_8 48) by lia. replace (1 / 4 - 1 / 2) with (-2 / 8) by lra. rewrite (id_8 (-2)) by lia.
    replace (48 / 8 * (-2 / 8)) with (-12 / 8) by lra. rewrite (id_8 (-12)) by lia. lra.
  - apply Rle_trans with (powerRZ 2 0); [apply b2_le; lia|simpl; lra].
Qed.

(** For the least limits it is not below. *)
Theorem C96_tiny_refuted : forall rnd, to_nearest rnd -> fwithin rnd (powerRZ 2 (-1074)) (1 - ulp) = powerRZ 2 (-1074).
Proof. exact within_tiny. Qed.
Print Assumptions C96_tiny_refuted.
