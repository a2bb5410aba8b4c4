(** Properties of rays that stay in a solid (C130). *)
From Coq Require Import Ascii String Reals List ZArith Bool Arith Lia Lra.
From Verif Require Import Prelude TreeModel TreeSpec GraphModel GraphSpec VecModel SimModel SimSpec VoxModel GeomModel GeomSpec GeomProofs1 TriModel PolyModel PolySpec SolidModel SolidSpec InsideSpec RoomSpec PlanSpec PlanProofs4 PlanProofs5
  BoxProofs6 WindSpec LoopSpec ShellSpec HallSpec HallProofs2 HallProofs3 LocSpec LocProofs1 LocProofs2 LocProps StaySpec StayProofs2 StayProofs4 StayProofs5.
Import ListNotations.
Local Open Scope R_scope.

(** ** C130: closed solids among the walls *)
(** If the faces of a solid match, are walls of the simulation and are met well
    or not at all by a ray, the test whether a point is inside gives one answer
    for all its positions that are off the faces and have a good view. *)
Theorem C130_inside : forall polys transparent order_of mn mx s e grid sc fuel num pos vel en hs b fs T, RoomSpec.room polys transparent order_of mn mx s e grid sc -> 0 <= eps sc -> 0 < dt sc -> 0 < speed sc * dt sc <= s ->
  length vel = length pos -> length en = length pos -> length hs = length (absorbers sc) -> (forall v, In v vel -> norm v = speed sc) -> simulation_loop sc fuel num pos vel en hs = Ok b ->
  walled fs polys transparent -> ok_faces fs -> fs <> [] -> loose_shell fs T ->
  forall k i j p p' bs bs', (i <= j)%nat -> cell (b_pos b) i k p -> cell (b_pos b) j k p' -> travels_well sc b fs k i j ->
  seen_well p fs bs -> seen_well p' fs bs' -> (forall f n d, In (f, n, d) fs -> off_face p f n d) -> (forall f n d, In (f, n, d) fs -> off_face p' f n d) ->
  exists r, solid_point_inside (InsideSpec.solid_of fs) p = Ok r /\ solid_point_inside (InsideSpec.solid_of fs) p' = Ok r.
Proof.
  intros polys transparent order_of mn mx s e grid sc fuel num pos vel en hs b fs T Rm Ep D0 Sp Lv Le Lh Nv E Wl Okf Ne Sh k i j p p' bs bs' L C C' Tw S1 S2 O1 O2.
  exact (run_answer polys transparent order_of mn mx s e grid sc Rm fuel num pos vel en hs b Ep D0 Sp Lv Le Lh Nv E fs Wl Okf (proj1 (proj1 Sh)) T k i j p p' bs bs' Ne Sh L C C' Tw S1 S2 O1 O2).
Qed.
Print Assumptions C130_inside.
(** No point of the way of such a ray is on a face. *)
Theorem C130_unmet : forall polys transparent order_of mn mx s e grid sc fuel num pos vel en hs b fs T, RoomSpec.room polys transparent order_of mn mx s e grid sc -> 0 <= eps sc -> 0 < dt sc -> 0 < speed sc * dt sc <= s ->
  length vel = length pos -> length en = length pos -> length hs = length (absorbers sc) -> (forall v, In v vel -> norm v = speed sc) -> simulation_loop sc fuel num pos vel en hs = Ok b ->
  walled fs polys transparent -> ok_faces fs -> sides fs T ->
  forall k i p p' f n d m, cell (b_pos b) i k p -> cell (b_pos b) (S i) k p' -> In (f, n, d) fs -> meets_well sc (f, n, d) p p' -> on_segment p p' m -> ~ in_mesh f m.
Proof.
  intros polys transparent order_of mn mx s e grid sc fuel num pos vel en hs b fs T Rm Ep D0 Sp Lv Le Lh Nv E Wl Okf Sd k i p p' f n d m.
  exact (unmet polys transparent order_of mn mx s e grid sc Rm fuel num pos vel en hs b Ep D0 Sp Lv Le Lh Nv E fs Wl Okf (proj1 Sd) i k p p' f n d m).
Qed.
Print Assumptions C130_unmet.
(** A ray that is in a box or in a hall over a floor plan stays there: between
    the sides of the box, or between floor and ceiling with the outline of the
    floor around it. *)
Theorem C130_room : forall polys transparent order_of mn mx s e grid sc fuel num pos vel en hs b r ws, RoomSpec.room polys transparent order_of mn mx s e grid sc -> 0 <= eps sc -> 0 < dt sc -> 0 < speed sc * dt sc <= s ->
  length vel = length pos -> length en = length pos -> length hs = length (absorbers sc) -> (forall v, In v vel -> norm v = speed sc) -> simulation_loop sc fuel num pos vel en hs = Ok b ->
  built r ws -> walled (sides_of ws) polys transparent ->
  forall k i j p p', (i <= j)%nat -> cell (b_pos b) i k p -> cell (b_pos b) j k p' -> travels_well sc b (sides_of ws) k i j -> occupies r p -> occupies r p'.
Proof. exact room_run. Qed.
Print Assumptions C130_room.
(** In a building it is located in this room as long as it is simulated. *)
Theorem C130_located : forall polys transparent order_of mn mx s e grid sc fuel num pos vel en hs b int_of inside ops top bo hints rooms walls i0, RoomSpec.room polys transparent order_of mn mx s e grid sc -> 0 <= eps sc -> 0 < dt sc -> 0 < speed sc * dt sc <= s ->
  length vel = length pos -> length en = length pos -> length hs = length (absorbers sc) -> (forall v, In v vel -> norm v = speed sc) -> simulation_loop sc fuel num pos vel en hs = Ok b ->
  NoDup (flat_map added ops) -> let hp := run [] ops in nth_error hp top = Some bo -> o_kind bo = KBuilding -> inside_of hp KSolid top i0 -> walled (sides_of (walls i0)) polys transparent ->
  (forall i q, inside_of hp KSolid top i -> occupies (rooms i) q -> occupies (rooms i0) q -> i = i0) ->
  forall k i j p p', (i <= j)%nat -> cell (b_pos b) i k p -> cell (b_pos b) j k p' -> travels_well sc b (sides_of (walls i0)) k i j -> occupies (rooms i0) p ->
  (forall i, inside_of hp KSolid top i -> built (rooms i) (walls i) /\ clear_view (rooms i) (walls i) p' /\ solid_point_inside (map fst (all_polys (walls i))) p' = Ok (inside i)) ->
  (forall w, In w hints -> exists i, is_solid_at int_of hp top w i) ->
  find_location int_of inside hp top hints = path hp i0.
Proof.
  intros polys transparent order_of mn mx s e grid sc fuel num pos vel en hs b int_of inside ops top bo hints rooms walls i0 Rm Ep D0 Sp Lv Le Lh Nv E Nd hp Eb Kb I0 Wl U k i j p p' L C C' Tw O R Hs.
  assert (O' : occupies (rooms i0) p').
  { destruct (R i0 I0) as (Bu & _). exact (room_run polys transparent order_of mn mx s e grid sc fuel num pos vel en hs b (rooms i0) (walls i0) Rm Ep D0 Sp Lv Le Lh Nv E Bu Wl k i j p p' L C C' Tw O). }
  apply (C129_hints_free int_of inside ops top bo hints rooms walls p' i0 Nd Eb Kb R Hs I0 O'). intros x Ix Ox. apply (U x p'); auto.
Qed.
Print Assumptions C130_located.

(** A guest of the L-shaped hall. *)
Lemma guest_in : occupies (AHall (zplan lplan) 3 vzero 0) guest.
Proof. split; [unfold guest, vzero; cbn [vz]; lra|rewrite guest_turns; discriminate]. Qed.
Lemma guest_built ws : lhall ws -> built (AHall (zplan lplan) 3 vzero 0) ws.
Proof.
  intros H. split; [lra|]. split; [exact lfloor_simple|]. split; [rewrite (lhall_sides ws H); exact lsides_ok|].
  exists vzero, (str_of "s"), (Some six_names), (str_of "floor"), (str_of "ceiling"), (str_of "r1"), (str_of "r2"). split; [exact still|exact H].
Qed.
Lemma guest_near : near_guest guest.
Proof. unfold near_guest, guest. cbn [vx vy vz]. lra. Qed.
Example C130_instance : exists ws T grid sc b p' r, RoomSpec.room hall_polys [] (fun l => l) vzero (V 5 4 3) 1 (1 / 1000) grid sc /\ 0 <= eps sc /\ 0 < dt sc /\ 0 < speed sc * dt sc <= 1 /\ norm slanted = speed sc /\
  simulation_loop sc 3 1 [guest] [slanted] [1] [] = Ok b /\ built (AHall (zplan lplan) 3 vzero 0) ws /\ walled (sides_of ws) hall_polys [] /\ sides_of ws <> [] /\ loose_shell (sides_of ws) T /\
  cell (b_pos b) 0 0 guest /\ cell (b_pos b) 1 0 p' /\ travels_well sc b (sides_of ws) 0 0 1 /\ (exists bs, seen_well p' (sides_of ws) bs) /\ (forall f n d, In (f, n, d) (sides_of ws) -> off_face p' f n d) /\
  occupies (AHall (zplan lplan) 3 vzero 0) p' /\ solid_point_inside (InsideSpec.solid_of (sides_of ws)) guest = Ok r /\ solid_point_inside (InsideSpec.solid_of (sides_of ws)) p' = Ok r.
Proof.
  destruct (lplan_ok lplan (or_introl eq_refl)) as ((ws & H) & _ & _). destruct (guest_room ws H) as (grid & sc & b & Rm & Ep & D0 & Sp & Ab & Nv & E & C & (p' & C') & Ng). pose proof (Ng p' C') as Np.
  pose proof (lhall_sides ws H) as Es. pose proof (guest_built ws H) as Bu. assert (Wl : walled (sides_of ws) hall_polys []) by (rewrite Es; exact lsides_walled).
  destruct (plan_parts _ _ _ _ _ _ _ _ _ _ ws vzero H still lfloor_simple) as (_ & _ & _ & _ & _ & _ & _ & _ & _ & _ & _ & _ & T & Sh). assert (Ne : sides_of ws <> []) by (rewrite Es; discriminate).
  assert (Tw : travels_well sc b (sides_of ws) 0 0 1).
  { intros l ((f, n), d) q q' L Cq Cq' I m Sg M. assert (l = 0%nat) by lia. subst l. exfalso. assert (q = guest) by (destruct C as (r1 & A1 & B1), Cq as (r2 & A2 & B2); congruence). subst q. rewrite Es in I. exact (near_unmet guest q' f n d m guest_near (Ng q' Cq') I Sg M). }
  assert (Nv' : forall v, In v [slanted] -> norm v = speed sc) by (intros v [<-|[]]; exact Nv).
  destruct (C130_inside _ _ _ _ _ _ _ _ sc 3%nat 1%nat [guest] [slanted] [1] [] b (sides_of ws) T Rm Ep D0 Sp eq_refl eq_refl (eq_sym (f_equal (@length _) Ab)) Nv' E Wl (proj1 (proj2 (proj2 Bu))) Ne Sh 0%nat 0%nat 1%nat guest p' [false; false; false; true; false; false; false; false] [false; false; false; true; false; false; false; false]) as (r & R1 & R2);
    auto; try (rewrite Es; auto using near_seen, guest_seen, guest_off; intros; apply near_off; auto).
  exists ws, T, grid, sc, b, p', r. repeat (split; [assumption|]). split; [eexists; rewrite Es; apply near_seen; auto|]. split; [rewrite Es; intros; apply near_off; auto|]. split; [|auto].
  exact (C130_room _ _ _ _ _ _ _ _ sc 3%nat 1%nat [guest] [slanted] [1] [] b (AHall (zplan lplan) 3 vzero 0) ws Rm Ep D0 Sp eq_refl eq_refl (eq_sym (f_equal (@length _) Ab)) Nv' E Bu Wl 0%nat 0%nat 1%nat guest p' (le_S _ _ (le_n _)) C C' Tw guest_in).
Qed.
(** The guest in the building of a box and this hall. *)
Example C130_located_instance : exists walls grid sc b p', let hp := run [] two_rooms in RoomSpec.room hall_polys [] (fun l => l) vzero (V 5 4 3) 1 (1 / 1000) grid sc /\
  simulation_loop sc 3 1 [guest] [slanted] [1] [] = Ok b /\ cell (b_pos b) 0 0 guest /\ cell (b_pos b) 1 0 p' /\ travels_well sc b (sides_of (walls 3%nat)) 0 0 1 /\ occupies (room_at 3%nat) guest /\ walled (sides_of (walls 3%nat)) hall_polys [] /\
  (forall i q, inside_of hp KSolid 0%nat i -> occupies (room_at i) q -> occupies (room_at 3%nat) q -> i = 3%nat) /\
  (forall i, inside_of hp KSolid 0%nat i -> built (room_at i) (walls i) /\ clear_view (room_at i) (walls i) p' /\ solid_point_inside (map fst (all_polys (walls i))) p' = Ok (i =? 3)%nat) /\
  find_location (fun _ => None) (fun i => (i =? 3)%nat) hp 0%nat [str_of "b/z/box"] = Ok (str_of "b/z/hall").
Proof.
  destruct (lplan_ok lplan (or_introl eq_refl)) as ((wh & H) & _ & _). destruct (SolidProofs1.box_ok _ _ _ _ far_fits (str_of "box") eq_refl) as (wb & B & _). destruct (guest_room wh H) as (grid & sc & b & Rm & Ep & D0 & Sp & Ab & Nv & E & C & (p' & C') & Ng). pose proof (Ng p' C') as Np.
  pose proof (lhall_sides wh H) as Es. exists (fun i => if (i =? 2)%nat then wb else wh), grid, sc, b, p'. cbn zeta. cbn [Nat.eqb].
  assert (Nv' : forall v, In v [slanted] -> norm v = speed sc) by (intros v [<-|[]]; exact Nv). assert (Wl : walled (sides_of wh) hall_polys []) by (rewrite Es; exact lsides_walled).
  assert (Tw : travels_well sc b (sides_of wh) 0 0 1).
  { intros l ((f, n), d) q q' L Cq Cq' I m Sg M. assert (l = 0%nat) by lia. subst l. exfalso. assert (q = guest) by (destruct C as (r1 & A1 & B1), Cq as (r2 & A2 & B2); congruence). subst q. rewrite Es in I. exact (near_unmet guest q' f n d m guest_near (Ng q' Cq') I Sg M). }
  pose proof (C130_room _ _ _ _ _ _ _ _ sc 3%nat 1%nat [guest] [slanted] [1] [] b (AHall (zplan lplan) 3 vzero 0) wh Rm Ep D0 Sp eq_refl eq_refl (eq_sym (f_equal (@length _) Ab)) Nv' E (guest_built wh H) Wl 0%nat 0%nat 1%nat guest p' (le_S _ _ (le_n _)) C C' Tw guest_in) as Op.
  repeat (split; [assumption|]). split; [exact guest_in|]. split; [exact Wl|].
  assert (Hall5 : forall q, occupies (room_at 2%nat) q -> occupies (room_at 3%nat) q -> False).
  { intros q (X & _) (_ & W). apply W. cbn [vx] in X. clear -X. destruct q as [x y z]. cbn [vx] in X. unfold foot. cbn [vx vy vz vzero]. rewrite lfloor. unfold winding, zfloor, lplan. cbn [map]. unfold cyc_pairs. cbn [app combine tl hd map zsum fold_right]. unfold edge_turn, left_of, at3, ez. cbn [fst snd vx vy vz]. vunf.
    repeat match goal with |- context [Rle_dec ?x ?y] => destruct (Rle_dec x y); try (exfalso; lra) | |- context [Rlt_dec ?x ?y] => destruct (Rlt_dec x y); try (exfalso; lra) end; reflexivity. }
  split; [intros i q Hi O1 O2; destruct (two_solids i Hi) as [-> | ->]; [destruct (Hall5 q O1 O2)|reflexivity]|]. split; [|reflexivity].
  intros i Hi. apply two_solids in Hi.
  assert (X : built (room_at i) (if (i =? 2)%nat then wb else wh) /\ clear_view (room_at i) (if (i =? 2)%nat then wb else wh) p').
  { destruct Hi as [-> | ->]; cbn [Nat.eqb].
    - split; [split; [exact far_fits|exists (str_of "box"); split; [reflexivity|exact B]]|]. left. left. destruct Np as (Nx & _). cbn [vx]. lra.
    - split; [exact (guest_built wh H)|]. right. split; [exact (proj1 Op)|]. split; [|split; [rewrite Es; intros; apply near_off; auto|eexists; rewrite Es; apply near_seen; auto]].
      clear -Np. destruct p' as [x y z]. unfold near_guest in Np. cbn [vx vy vz] in Np. off_outline. }
  destruct X as (X1 & X2). split; [exact X1|split; [exact X2|]]. destruct (room_test _ _ _ X1 X2) as (x & -> & I). f_equal.
  destruct Hi as [-> | ->]; cbn [Nat.eqb].
  - destruct x; auto. exfalso. destruct I as (I & _). specialize (I eq_refl). destruct I as (I & _), Np as (Nx & _). cbn [vx] in I. lra.
  - destruct I as (_ & I). apply I. exact Op.
Qed.
