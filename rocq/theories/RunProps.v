(** Properties C101 and C102: whole simulations. *)
From Coq Require Import Reals Ascii String List Arith Bool ZArith Lia Lra.
From Verif Require RoomProofs3.
From Verif Require Import StlModel Prelude TreeModel VecModel SimModel SimSpec SimDemo GeomModel GeomSpec VecProofs GeomProofs1 WildModel WildSpec WildProofs4 BufModel BufSpec BufProps VoxModel VoxSpec PolyModel SolidModel CrossSpec InsideSpec RoomSpec BoxSpec BoxProofs6 RunModel RunSpec RunProofs2 RunProofs3.
Import ListNotations.
Local Open Scope R_scope.

(** C101: the checks accept a batch size other than 0, not above the number
    of steps, of which that number is a multiple ... *)
Theorem C101_checks num batch : check_steps num batch = Ok tt <-> (batch <> 0 /\ batch <= num /\ exists q, num = q * batch)%Z.
Proof. exact (check_ok num batch). Qed.
Theorem C101_checks_errors num batch e : check_steps num batch = Err e <->
  (e = AssertionError /\ (num < batch \/ (batch <> 0 /\ batch <= num /\ ~ exists q, num = q * batch)) \/ e = ZeroDivisionError /\ batch = 0 /\ batch <= num)%Z.
Proof. exact (check_err num batch e). Qed.
(** ... so negative batch sizes pass. *)
Theorem C101_negative_batch_refuted : check_steps 4 (-2) = Ok tt.
Proof. exact eq_refl. Qed.
Print Assumptions C101_checks.
Print Assumptions C101_checks_errors.
Print Assumptions C101_negative_batch_refuted.

(** The starting velocity has the given speed and points from the centre of
    the unit cube to the random point; there is none for the centre. *)
Theorem C101_velocity speed u v : 0 <= speed -> init_velocity speed u = Some v ->
  norm v = speed /\ exists d, init_direction u = Some d /\ v = smul speed d /\ norm d = 1 /\ exists k, 0 < k /\ vsub u (V (1 / 2) (1 / 2) (1 / 2)) = smul k d.
Proof.
  exact (fun P E => match velocity_some speed u v P E with conj A (ex_intro _ d (conj B C)) => conj A (ex_intro _ d (conj B (conj C (direction_some u d B)))) end).
Qed.
Theorem C101_no_velocity speed u : init_velocity speed u = None <-> u = V (1 / 2) (1 / 2) (1 / 2).
Proof. exact (velocity_none speed u). Qed.
Print Assumptions C101_velocity.
Print Assumptions C101_no_velocity.
Example C101_velocity_instance : init_velocity 1 (V 1 (1 / 2) (1 / 2)) = Some (V 1 0 0).
Proof. exact right_velocity. Qed.

(** If every surface absorbs, the run ends and returns the buffers of its last
    batch ... *)
Theorem C101_completes sc name_ok dir Lp Le Lh a n0 fuel rounds size num source us vel :
  0 <= eps sc -> 0 < dt sc -> 0 <= speed sc -> (forall p v k, target sc p v = Some k -> dot (pnormal sc k) (pnormal sc k) = 1) ->
  name_ok STEP = true -> ~ In NL dir -> file_stem Lp -> file_stem Le -> file_stem Lh -> Lp <> Le -> Lp <> Lh -> Le <> Lh ->
  let pat := mkPat (step_pattern Lp) (step_pattern Le) (step_pattern Lh) in
  0 < a -> (forall k, a <= surf sc k) -> 1 <= eps sc + INR n0 * a -> (n0 + 2 <= fuel)%nat -> (num < rounds)%nat ->
  check_steps (Z.of_nat num) (Z.of_nat size) = Ok tt -> Forall2 (fun u v => init_velocity (speed sc) u = Some v) us vel ->
  exists b fs, run sc fuel name_ok dir pat rounds size num source vel [] = Ok (Some b, fs).
Proof.
  intros Ep Dt Sp Un OK ND Fp Fe Fh D1 D2 D3 pat A0 Sa En Fu Ro C F.
  exact (run_ends sc Ep Dt Sp (fun k => Rle_trans _ _ _ (Rlt_le _ _ A0) (Sa k)) Un name_ok OK dir ND Lp Le Lh Fp Fe Fh D1 D2 D3 a n0 fuel rounds size num source us vel A0 Sa En Fu Ro C F).
Qed.
(** ... a run that ends leaves three files for each step and the initial state;
    read back, they are the record of a simulation, and the returned buffers
    are its last rows. *)
Theorem C101_saved sc name_ok dir Lp Le Lh fuel rounds size num source us vel lb fs :
  0 <= eps sc -> 0 < dt sc -> 0 <= speed sc -> (forall k, 0 <= surf sc k) -> (forall p v k, target sc p v = Some k -> dot (pnormal sc k) (pnormal sc k) = 1) ->
  name_ok STEP = true -> ~ In NL dir -> file_stem Lp -> file_stem Le -> file_stem Lh -> Lp <> Le -> Lp <> Lh -> Le <> Lh ->
  let pat := mkPat (step_pattern Lp) (step_pattern Le) (step_pattern Lh) in
  check_steps (Z.of_nat num) (Z.of_nat size) = Ok tt -> Forall2 (fun u v => init_velocity (speed sc) u = Some v) us vel ->
  run sc fuel name_ok dir pat rounds size num source vel [] = Ok (lb, fs) ->
  NoDup (dkeys fs) /\ length fs = (3 * (num + 1))%nat /\ glob_of dir fs (dkeys fs) /\
  forall listing, glob_of dir fs listing -> exists ps es hs b,
    read_buffers data_shape name_ok fs listing dir pat = Ok (map DPos ps, map DNum es, map DNum hs) /\
    simulated sc source (length us) num ps es hs /\ lb = Some b /\ length (b_pos b) = S size /\ suffix_of (b_pos b) ps /\ suffix_of (b_en b) es /\ suffix_of (b_hit b) hs.
Proof.
  intros Ep Dt Sp Sf Un OK ND Fp Fe Fh D1 D2 D3 pat C F E.
  exact (run_saved sc Ep Dt Sp Sf Un name_ok OK dir ND Lp Le Lh Fp Fe Fh D1 D2 D3 fuel rounds size num source us vel lb fs C F E).
Qed.
(** Positions do not pass for energies or hits, nor rows of different lengths
    for one another. *)
Theorem C101_shapes a b : data_shape a b = true <-> (exists l m, a = DPos l /\ b = DPos m /\ length l = length m) \/ (exists l m, a = DNum l /\ b = DNum m /\ length l = length m).
Proof. destruct a as [l|l], b as [m|m]; cbn [data_shape]; rewrite ?Nat.eqb_eq; (split; [intros E; try discriminate; eauto 7|intros [(x & y & A & B & C)|(x & y & A & B & C)]; congruence]). Qed.
Print Assumptions C101_shapes.
Print Assumptions C101_completes.
Print Assumptions C101_saved.

(** Three batches of two steps between two walls. *)
Definition stem_p : str := str_of "position_".
Definition stem_e : str := str_of "energy_".
Definition stem_h : str := str_of "hits_".
Lemma stems : file_stem stem_p /\ file_stem stem_e /\ file_stem stem_h /\ stem_p <> stem_e /\ stem_p <> stem_h /\ stem_e <> stem_h.
Proof. destruct C27_instance as (A & B & C & _). do 3 (split; [assumption|]). repeat split; discriminate. Qed.
Lemma no_newline : ~ In NL (str_of "out/states").
Proof. cbn. intros H. repeat (destruct H as [H|H]; [discriminate H|]). exact H. Qed.
Example C101_instance : exists b fs,
  run demo 12 (fun _ => true) (str_of "out/states") buf_pat 7 2 6 (V 5 5 5) [V 1 0 0] [] = Ok (Some b, fs) /\
  Forall2 (fun u v => init_velocity (speed demo) u = Some v) [V 1 (1 / 2) (1 / 2)] [V 1 0 0] /\ length fs = 21%nat.
Proof.
  destruct stems as (S1 & S2 & S3 & S4 & S5 & S6).
  assert (F : Forall2 (fun u v => init_velocity (speed demo) u = Some v) [V 1 (1 / 2) (1 / 2)] [V 1 0 0]) by (constructor; [exact right_velocity|constructor]).
  assert (U : forall p v k, target demo p v = Some k -> dot (pnormal demo k) (pnormal demo k) = 1) by (intros p v [|k] _; unfold dot; simpl; lra).
  destruct (C101_completes demo (fun _ => true) (str_of "out/states") stem_p stem_e stem_h (1 / 10) 10 12 7 2 6 (V 5 5 5) [V 1 (1 / 2) (1 / 2)] [V 1 0 0]) as (b & fs & E);
    auto using no_newline; try (simpl; lra); try lia; try reflexivity. { intros; simpl; lra. }
  exists b, fs. split; [exact E|]. split; [exact F|].
  destruct (C101_saved demo (fun _ => true) (str_of "out/states") stem_p stem_e stem_h 12 7 2 6 (V 5 5 5) [V 1 (1 / 2) (1 / 2)] [V 1 0 0] (Some b) fs) as (_ & L & _);
    auto using no_newline; try (simpl; lra); try reflexivity. intros; simpl; lra.
Qed.

(** C102: in the record of a simulation energies lie between 0 and 1 and never
    grow ... *)
Theorem C102_energies sc source rays steps pos en hit : simulated sc source rays steps pos en hit ->
  forall i j k x y, (i <= j)%nat -> cell en i k x -> cell en j k y -> 0 <= y <= x /\ x <= 1.
Proof. exact (energy_at sc source rays steps pos en hit). Qed.
(** ... a ray without energy stays as it is ... *)
Theorem C102_dead_rays sc source rays steps pos en hit : simulated sc source rays steps pos en hit ->
  forall i j k x p, (i <= j)%nat -> (j <= steps)%nat -> cell en i k x -> x <= eps sc -> cell pos i k p -> cell en j k x /\ cell pos j k p.
Proof. exact (dead_at sc source rays steps pos en hit). Qed.
(** ... no ray is farther from the source than its speed allows ... *)
Theorem C102_reach sc source rays steps pos en hit : simulated sc source rays steps pos en hit -> 0 <= speed sc * dt sc ->
  forall i k p, cell pos i k p -> norm (vsub p source) <= INR i * (speed sc * dt sc).
Proof. exact (reach_at sc source rays steps pos en hit). Qed.
(** ... and what the absorbers got in all steps and the rays still have is at
    most one unit per ray. *)
Theorem C102_budget sc source rays steps pos en hit : simulated sc source rays steps pos en hit ->
  forall e, nth_error en steps = Some e -> Rsum e + Rsum (map Rsum hit) <= INR rays.
Proof. exact (budget_all sc source rays steps pos en hit). Qed.
Print Assumptions C102_energies.
Print Assumptions C102_dead_rays.
Print Assumptions C102_reach.
Print Assumptions C102_budget.
(** A ray that meets the wall at the first step and an absorber at the second. *)
Example C102_record : simulated demo (V 9 5 5) 1 1 [[V 9 5 5]; [V 8 5 5]] [[1]; [9 / 10]] [[0]; [0]].
Proof.
  unfold simulated. cbn [length repeat]. do 6 (split; [reflexivity|]). intros [|[|i]] p p' e e' h' H1 H2 H3 H4 H5; cbn in *; try discriminate.
  - injection H1 as <-. injection H2 as <-. injection H3 as <-. injection H4 as <-. injection H5 as <-. unfold one_step. cbn [length]. do 3 (split; [reflexivity|]). split; [|split; [|split]].
    + intros [|[|k]] q q' Q Q'; cbn in *; try discriminate. injection Q as <-. injection Q' as <-. right. unfold norm, dot, vsub. cbn [vx vy vz speed dt demo].
      replace ((8 - 9) * (8 - 9) + (5 - 5) * (5 - 5) + (5 - 5) * (5 - 5)) with (1 * 1) by ring. rewrite sqrt_square; lra.
    + intros [|[|k]] q q' Q Q'; cbn in *; try discriminate. injection Q as <-. injection Q' as <-. lra.
    + intros [|[|k]] q Q L; cbn in *; try discriminate. injection Q as <-. lra.
    + unfold Rsum. cbn. lra.
Qed.

(** In a box, the positions read back lie strictly within the box as long as
    the ray has kept clear of the edges. *)
Theorem C102_box x y z mv name ws order_of mn mx s e grid sc name_ok dir Lp Le Lh fuel rounds size num source us vel lb fs :
  box_dims x y z mv -> box x y z mv name = Ok ws -> validate_name name = Ok name -> room (faces_of ws) [] order_of mn mx s e grid sc ->
  0 <= eps sc -> 0 < dt sc -> 1 / 1000 < speed sc * dt sc <= s -> (forall k, 0 <= surf sc k) -> 0 <= speed sc ->
  name_ok STEP = true -> ~ In NL dir -> file_stem Lp -> file_stem Le -> file_stem Lh -> Lp <> Le -> Lp <> Lh -> Le <> Lh ->
  let pat := mkPat (step_pattern Lp) (step_pattern Le) (step_pattern Lh) in
  check_steps (Z.of_nat num) (Z.of_nat size) = Ok tt -> Forall2 (fun u v => init_velocity (speed sc) u = Some v) us vel -> (forall v, In v vel -> no_tiny v) ->
  inside_box x y z mv source -> run sc fuel name_ok dir pat rounds size num source vel [] = Ok (lb, fs) ->
  forall listing, glob_of dir fs listing -> exists ps es hs,
    read_buffers data_shape name_ok fs listing dir pat = Ok (map DPos ps, map DNum es, map DNum hs) /\
    forall k i, (forall j p p' t, (j < i)%nat -> cell ps j k p -> cell ps (S j) k p' -> 0 <= t <= 1 -> ~ near_edge x y z mv (vadd p (smul t (vsub p' p)))) ->
      forall p, cell ps i k p -> inside_box x y z mv p.
Proof.
  intros D Hb Hv Rm Ep Dt Sd Sf Sp OK ND Fp Fe Fh D1 D2 D3 pat C F Nt I E.
  exact (box_saved x y z mv D name ws Hb Hv order_of mn mx s e grid sc Rm Ep Dt Sd Sf name_ok OK dir ND Lp Le Lh Fp Fe Fh D1 D2 D3 fuel rounds size num source us vel lb fs Sp C F Nt I E).
Qed.
Print Assumptions C102_box.
(** A cube of edge 2, its centre as the source. *)
Example C102_box_instance : exists ws grid sc b fs, box_dims 2 2 2 vzero /\ box 2 2 2 vzero cube_name = Ok ws /\ validate_name cube_name = Ok cube_name /\
  room (faces_of ws) [] (fun l => l) vzero (vadd vzero (V 2 2 2)) 1 (1 / 1000) grid sc /\ 0 <= eps sc /\ 0 < dt sc /\ 1 / 1000 < speed sc * dt sc <= 1 /\
  Forall2 (fun u v => init_velocity (speed sc) u = Some v) [V 1 (1 / 2) (1 / 2)] [V 1 0 0] /\ no_tiny (V 1 0 0) /\ inside_box 2 2 2 vzero (V 1 1 1) /\
  run sc 12 (fun _ => true) (str_of "out/states") buf_pat 7 2 6 (V 1 1 1) [V 1 0 0] [] = Ok (Some b, fs).
Proof.
  destruct cube_ok as (C1 & C3 & C2). set (sc0 := mkScene (fun _ _ => None) (fun _ _ => 0) (fun _ => vzero) (fun _ => 1 / 10) vzero (V 2 2 2) [] 1 (1 / 1000) (1 / 10) 1).
  destruct (box_room 2 2 2 vzero cube_name sc0 1 (1 / 1000) C1 C3) as (ws & grid & sc & Hb & Rm & E1 & _ & _ & _ & E2 & E3 & E4); try lra. cbn in E1, E2, E3, E4.
  destruct stems as (S1 & S2 & S3 & S4 & S5 & S6).
  assert (F : Forall2 (fun u v => init_velocity (speed sc) u = Some v) [V 1 (1 / 2) (1 / 2)] [V 1 0 0]) by (rewrite E4; constructor; [exact right_velocity|constructor]).
  destruct (C101_completes sc (fun _ => true) (str_of "out/states") stem_p stem_e stem_h (1 / 10) 10 12 7 2 6 (V 1 1 1) [V 1 (1 / 2) (1 / 2)] [V 1 0 0]) as (b & fs & E);
    auto using no_newline; rewrite ?E1, ?E2, ?E3, ?E4; try (simpl; lra); try lia; try reflexivity. { intros p v k T. eapply RoomProofs3.target_unit; eauto. } { intros; lra. }
  exists ws, grid, sc, b, fs. do 4 (split; [assumption|]). split; [rewrite E2; lra|]. split; [rewrite E3; lra|]. split; [rewrite E3, E4; lra|]. split; [exact F|].
  split; [intros c [<-|[<-|[<-|[]]]]; simpl; [right; rewrite Rabs_R1; lra|auto|auto]|]. split; [unfold inside_box, vzero; simpl; lra|]. exact E.
Qed.
