(** Properties C41, C42, C75: impulse response, ray trails, movie frames. *)
From Coq Require Import Reals List Bool Arith Lia Lra.
From Verif Require Import Prelude VecModel VecProofs OutModel OutSpec OutProofs.
Import ListNotations.
Local Open Scope R_scope.

(** C41: every column is divided by the same positive number; column sums are
    at most 1 and one of them is 1. *)
Theorem C41_normalised hits n dt r : impulse_response hits n dt = Ok r ->
  exists s, 0 < s /\ length (ir_cols r) = n /\
    (forall j, (j < n)%nat -> nth_error (ir_cols r) j = Some (map (fun row => nth j row 0 / s) hits)) /\
    (forall j col, nth_error (ir_cols r) j = Some col -> Rsum col <= 1) /\
    (exists j col, nth_error (ir_cols r) j = Some col /\ Rsum col = 1).
Proof. exact (response_spec hits n dt r). Qed.
Print Assumptions C41_normalised.

(** It fails exactly when no absorber has a positive total. *)
Theorem C41_fails_without_hits hits n dt :
  (exists e, impulse_response hits n dt = Err e) <-> forall j, (j < n)%nat -> col_total hits j <= 0.
Proof. exact (response_error hits n dt). Qed.
Print Assumptions C41_fails_without_hits.

(** The time of row i is i * time_step * N/(N-1), for N rows ... *)
Theorem C41_time_axis hits n dt r : impulse_response hits n dt = Ok r -> (2 <= length hits)%nat ->
  length (ir_time r) = length hits /\
  forall i t, nth_error (ir_time r) i = Some t -> t = INR i * dt * (INR (length hits) / INR (length hits - 1)).
Proof. exact (response_time hits n dt r). Qed.
Print Assumptions C41_time_axis.

Definition demo_hits : list (list R) := [[2; 0]; [1; 1]].
Lemma demo_response : exists r, impulse_response demo_hits 2 1 = Ok r.
Proof.
  destruct (impulse_response demo_hits 2 1) as [r|e] eqn:E; [eauto|]. exfalso.
  pose proof (proj1 (C41_fails_without_hits demo_hits 2 1) (ex_intro _ e E) 0%nat ltac:(lia)) as H.
  unfold col_total, demo_hits, Rsum in H. cbn -[IZR] in H. lra.
Qed.
(** ... so it is not the time i * time_step of simulation step i. *)
Theorem C41_time_axis_refuted :
  ~ (forall hits n dt r, impulse_response hits n dt = Ok r -> forall i t, nth_error (ir_time r) i = Some t -> t = INR i * dt).
Proof.
  intros H. destruct demo_response as (r & E). destruct (C41_time_axis _ _ _ _ E ltac:(simpl; lia)) as (L & T).
  destruct (nth_error (ir_time r) 1) as [t|] eqn:Et; [|apply nth_error_None in Et; rewrite L in Et; simpl in Et; lia].
  pose proof (H _ _ _ _ E _ _ Et). pose proof (T _ _ Et) as T1. simpl in T1, H0. lra.
Qed.
Print Assumptions C41_time_axis_refuted.

(** Example: the totals 3 and 1 become 1 and 1/3. *)
Example demo_response_cols : exists r, impulse_response demo_hits 2 1 = Ok r /\ ir_cols r = [[2/3; 1/3]; [0; 1/3]].
Proof.
  unfold impulse_response, demo_hits, rmax, column, Rsum. cbn -[Rmax Rltb IZR Rdiv]. rewrite Rmax_left by lra.
  replace (Rltb 0 (2 + (1 + 0))) with true by (symmetry; apply Rltb_true; lra). eexists. split; [reflexivity|]. cbn -[IZR Rdiv]. repeat (first [lra | progress f_equal]).
Qed.

(** C42: the lines of a movie frame: line k goes through the positions of ray k
    in order of time; every vertex is used exactly once. *)
Theorem C42_buffer_to_lines {P : Type} (dflt : P) (pb : list (list P)) n verts index : rect n pb ->
  position_buffer_to_lines dflt pb n = (verts, index) ->
  exists lines, decodes index lines /\ draws_rays verts lines pb n.
Proof. exact (pb_to_lines dflt pb n verts index). Qed.
Print Assumptions C42_buffer_to_lines.

(** The reading of the connectivity list is unambiguous. *)
Theorem C42_decoding_unique l a b : decodes l a -> decodes l b -> a = b.
Proof. exact (decodes_fun l a b). Qed.
Print Assumptions C42_decoding_unique.

(** The same for the plotter, except that an empty buffer is an error. *)
Theorem C42_plotter_lines {P : Type} (dflt : P) (pb : list (list P)) n : rect n pb -> (1 <= n)%nat -> (1 <= length pb)%nat ->
  exists verts lines, get_lines dflt pb n = Ok (verts, lines) /\ draws_rays verts lines pb n.
Proof. exact (get_lines_spec dflt pb n). Qed.
Print Assumptions C42_plotter_lines.
Theorem C42_plotter_empty {P : Type} (dflt : P) (pb : list (list P)) n : n = 0%nat \/ pb = [] -> get_lines dflt pb n = Err ValueError.
Proof. exact (get_lines_empty dflt pb n). Qed.
Print Assumptions C42_plotter_empty.

(** Example: two rays, three steps. *)
Example demo_lines : position_buffer_to_lines 0%nat [[10; 20]; [11; 21]; [12; 22]]%nat 2 =
  ([10; 11; 12; 20; 21; 22], [3; 0; 1; 2; 3; 3; 4; 5])%nat.
Proof. reflexivity. Qed.
Example demo_plotter_lines : get_lines 0%nat [[10; 20]; [11; 21]; [12; 22]]%nat 2 =
  Ok ([10; 11; 12; 20; 21; 22], [[0; 1; 2]; [3; 4; 5]])%nat.
Proof. reflexivity. Qed.

(** C75: vertex v of the trails belongs to ray v / steps at step v mod steps,
    but gets the energy of ray v mod rays at step v / rays. *)
Theorem C75_trail_energy (energy : list (list R)) n i k x : rect n energy -> (k < n)%nat ->
  nth_error (trail_energy energy) (i * n + k) = Some x ->
  exists row, nth_error energy i = Some row /\ nth_error row k = Some x.
Proof. exact (fun R L => concat_nth energy n R i k x L). Qed.
Print Assumptions C75_trail_energy.

(** So trails do not carry the energies of their rays (2 rays, 2 steps). *)
Theorem C75_trail_energy_refuted :
  ~ (forall (pos energy : list (list R)) n verts index lines, rect n pos -> rect n energy -> length pos = length energy ->
       position_buffer_to_lines 0 pos n = (verts, index) -> decodes index lines ->
       forall k line, nth_error lines k = Some line ->
         map (nth_error (trail_energy energy)) line = map (fun row => nth_error row k) energy).
Proof.
  intros H. specialize (H [[0; 0]; [0; 0]] [[1; 1/2]; [1; 1/2]] 2%nat [0; 0; 0; 0] [2; 0; 1; 2; 2; 3]%nat [[0; 1]; [2; 3]]%nat).
  assert (R : forall a b c d : R, rect 2 [[a; b]; [c; d]]) by (intros; repeat constructor).
  specialize (H (R _ _ _ _) (R _ _ _ _) eq_refl eq_refl).
  specialize (H (decodes_cons [0; 1]%nat _ _ (decodes_cons [2; 3]%nat _ _ decodes_nil)) 0%nat [0; 1]%nat eq_refl).
  cbn in H. inversion H. lra.
Qed.
Print Assumptions C75_trail_energy_refuted.

(** They do for a single ray or a single row. *)
Theorem C75_trail_energy_single (pos energy : list (list R)) n verts index lines : rect n pos -> rect n energy -> length pos = length energy ->
  (n = 1%nat \/ length pos = 1%nat) ->
  position_buffer_to_lines 0 pos n = (verts, index) -> decodes index lines ->
  forall k line, nth_error lines k = Some line ->
    map (nth_error (trail_energy energy)) line = map (fun row => nth_error row k) energy.
Proof. exact (trail_energy_single pos energy n verts index lines). Qed.
Print Assumptions C75_trail_energy_single.

(** A frame i (1 <= i < steps) shows row i-1 as current ... *)
Theorem C75_frame_current {A : Type} (buf : list A) trail i : (1 <= i <= length buf)%nat -> (1 <= trail)%nat ->
  forall x, nth_error buf (i - 1) = Some x -> nth_error (frame_rows buf trail i) (length (frame_rows buf trail i) - 1) = Some x.
Proof. exact (frame_last buf trail i). Qed.
Print Assumptions C75_frame_current.
(** ... and only rows before i, so the last row of the buffer is in no frame. *)
Theorem C75_frame_index {A : Type} (buf : list A) trail i j x : nth_error (frame_rows buf trail i) j = Some x ->
  (i - trail + j < i)%nat /\ nth_error buf (i - trail + j) = Some x.
Proof. exact (frame_index buf trail i j x). Qed.
Print Assumptions C75_frame_index.
Example demo_frames : map (frame_rows [0; 1; 2; 3]%nat 2) [1; 2; 3]%nat = [[0]; [0; 1]; [1; 2]]%nat.
Proof. reflexivity. Qed.
