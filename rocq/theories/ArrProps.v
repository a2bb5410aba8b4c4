(** Properties of the polygons and the box of the simulation loop (C134). *)
From Coq Require Import Ascii String Reals List ZArith Bool Arith Lia Lra.
From Verif Require Import Prelude TreeModel TreeSpec TreeProofs TreeProofs2 GraphModel GraphSpec MeshModel MeshSpec MeshProofs VecModel VecProofs SimModel SimSpec VoxModel VoxSpec GeomModel GeomSpec GeomProofs4 PolySpec InsideSpec RoomSpec RoomProofs3 ShellSpec StaySpec DoorSpec DoorProofs3 TransModel TransSpec TransProofs1 TransProofs3 TransProps
  ArrModel ArrProofs.
Import ListNotations.
Local Open Scope R_scope.

(** ** C134: what the simulation loop gets from the arrays *)
(** If the triangles of each polygon use its own points and all of them, the loop
    gets the polygons by their numbers, and the smallest box around them. *)
Theorem C134_geometry : forall ops b bo mesh_of num, NoDup (flat_map added ops) -> let h := run [] ops in nth_error h b = Some bo -> o_kind bo = KBuilding ->
  (forall i, inside_of h KPolygon b i -> valid (mesh_of i) /\ all_used (mesh_of i)) -> (exists i, inside_of h KPolygon b i /\ fst (mesh_of i) <> []) ->
  exists num' polys mn mx, number_polygons h b num = Ok num' /\ simulation_geometry mesh_of h b = Ok (polys, (mn, mx)) /\
    (forall k f, nth_error polys k = Some f <-> exists i, inside_of h KPolygon b i /\ dget num' i = Some (Z.of_nat k) /\ f = mesh_of i) /\
    forall c, In c [vx; vy; vz] -> (forall i p, inside_of h KPolygon b i -> In p (fst (mesh_of i)) -> c mn <= c p <= c mx) /\
      (exists i p, inside_of h KPolygon b i /\ In p (fst (mesh_of i)) /\ c p = c mn) /\ (exists i p, inside_of h KPolygon b i /\ In p (fst (mesh_of i)) /\ c p = c mx).
Proof. intros ops b bo mesh_of num N h Eb Kb V Ne. destruct (run_linked ops N) as (W & L). exact (geometry_ok h W L b bo Eb Kb mesh_of num V Ne). Qed.
Print Assumptions C134_geometry.
(** Without points there is no box. *)
Theorem C134_no_points : forall ops b bo mesh_of, NoDup (flat_map added ops) -> let h := run [] ops in nth_error h b = Some bo -> o_kind bo = KBuilding ->
  (forall i, inside_of h KPolygon b i -> mesh_of i = ([], [])) -> simulation_geometry mesh_of h b = Err ValueError.
Proof. intros ops b bo mesh_of N h Eb Kb H. destruct (run_linked ops N) as (W & L). exact (geometry_empty h W b bo Eb Kb mesh_of H). Qed.
Print Assumptions C134_no_points.
(** A triangle that points past the end of its polygon's points gets a point of
    the next polygon; nothing is raised. *)
Theorem C134_foreign_points_refuted : exists ops b bo (mesh_of : oid -> mesh (P := nat)) a polys i f p, NoDup (flat_map added ops) /\ nth_error (run [] ops) b = Some bo /\ o_kind bo = KBuilding /\
  building_arrays mesh_of 0%nat (run [] ops) b = Ok a /\ loop_polygons a = Ok polys /\ inside_of (run [] ops) KPolygon b i /\ number_polygons (run [] ops) b [] = Ok ([(i, 0%Z); (S i, 1%Z)]) /\
  nth_error polys 0 = Some f /\ In p (fst f) /\ ~ In p (fst (mesh_of i)).
Proof.
  pose (ops := [OpNew KBuilding (str_of "b") 0 []; OpNew KZone (str_of "z") 0 []; OpNew KSolid (str_of "s") 0 []; OpNew KWall (str_of "w") 0 []; OpNew KPolygon (str_of "0") 3 []; OpNew KPolygon (str_of "1") 3 []; OpAdd 3 4; OpAdd 3 5; OpAdd 2 3; OpAdd 1 2; OpAdd 0 1]%nat).
  exists ops, 0%nat. eexists. exists (fun i => if (i =? 4)%nat then ([1; 2; 3], [(0, 1, 3)])%nat else ([7; 8; 9], [(0, 1, 2)])%nat). do 2 eexists. exists 4%nat. eexists. exists 7%nat.
  split; [vm_compute; repeat constructor; simpl; intuition discriminate|]. split; [vm_compute; reflexivity|]. split; [reflexivity|]. split; [vm_compute; reflexivity|]. split; [vm_compute; reflexivity|].
  split; [|split; [vm_compute; reflexivity|split; [reflexivity|split; [simpl; auto|simpl; lia]]]].
  destruct (run_linked ops) as (W & L); [vm_compute; repeat constructor; simpl; intuition discriminate|].
  eapply (proj1 (polys_in (run [] ops) W 0%nat _ eq_refl eq_refl 4%nat)). vm_compute. auto.
Qed.
Print Assumptions C134_foreign_points_refuted.

(** The absorption is kept per triangle and read by polygon number: there is an
    entry for every polygon if every polygon has a triangle. *)
Theorem C134_absorption : forall P A (zero : P) (d : A) ops b bo mesh_of num, NoDup (flat_map added ops) -> let h := run [] ops in nth_error h b = Some bo -> o_kind bo = KBuilding ->
  (forall i, inside_of h KPolygon b i -> snd (mesh_of i) <> []) ->
  exists a num', building_arrays mesh_of zero h b = Ok a /\ number_polygons h b num = Ok num' /\ forall i k, inside_of h KPolygon b i -> dget num' i = Some (Z.of_nat k) -> absorption_read d a k = Some d.
Proof.
  intros P A zero d ops b bo mesh_of num N h Eb Kb V. destruct (run_linked ops N) as (W & L). destruct (absorption_ok h W b bo Eb Kb zero mesh_of d V) as (a & Ea & Ha). destruct (numbers_exist h W b bo Eb num) as (num' & En). exists a, num'. split; [exact Ea|]. split; [exact En|].
  intros i k I D. apply Ha. apply (numbered_at h W L b bo Eb Kb num num' k i En I) in D. apply nth_error_Some. congruence.
Qed.
Print Assumptions C134_absorption.
(** So the simulation of a building whose polygons have points, all of them used,
    never reads past the end, whatever ray aims at whatever surface. *)
Theorem C134_reads : forall A (d : A) ops b bo mesh_of a polys mn mx, NoDup (flat_map added ops) -> let h := run [] ops in nth_error h b = Some bo -> o_kind bo = KBuilding ->
  (forall i, inside_of h KPolygon b i -> valid (mesh_of i) /\ all_used (mesh_of i) /\ fst (mesh_of i) <> []) ->
  building_arrays mesh_of vzero h b = Ok a -> simulation_geometry mesh_of h b = Ok (polys, (mn, mx)) ->
  forall transparent order_of s e grid sc, (forall l x, In x (order_of l) <-> In x l) -> 0 < s -> 0 <= e -> make_voxel_grid mn mx (map fst polys) s e = Ok grid -> scene_of polys transparent order_of s grid sc ->
  forall p v k, target sc p v = Some k -> absorption_read d a k = Some d.
Proof.
  intros A d ops b bo mesh_of a polys mn mx N h Eb Kb V Ea Sg transparent order_of s e grid sc Oo S0 E0 G Sc p v k T. destruct (run_linked ops N) as (W & L).
  assert (Vt : forall i, inside_of h KPolygon b i -> snd (mesh_of i) <> []).
  { intros i I X. destruct (V i I) as (_ & U & Ne). destruct (mesh_of i) as (pts, fs). cbn [fst snd] in *. subst fs. destruct pts as [|q r]; [congruence|]. destruct (U 0%nat) as (f & [] & _). cbn. lia. }
  assert (Ne : exists i, inside_of h KPolygon b i /\ fst (mesh_of i) <> []).
  { destruct (polys_of h b) as [|x r] eqn:Ex.
    - exfalso. assert (Z : simulation_geometry mesh_of h b = Err ValueError); [|congruence]. apply (C134_no_points ops b bo _ N Eb Kb). intros x I. apply (polys_in h W b bo Eb Kb) in I. rewrite Ex in I. destruct I.
    - exists x. assert (I : inside_of h KPolygon b x) by (apply (polys_in h W b bo Eb Kb); rewrite Ex; left; auto). split; auto. apply V, I. }
  destruct (C134_geometry ops b bo mesh_of [] N Eb Kb (fun i I => conj (proj1 (V i I)) (proj1 (proj2 (V i I)))) Ne) as (num' & polys1 & mn1 & mx1 & En & Sg1 & Np & Bx). fold h in En, Sg1, Np, Bx. rewrite Sg in Sg1. apply Ok_inj in Sg1. injection Sg1 as <- <- <-.
  destruct (target_wall polys transparent order_of mn mx s e grid sc) with (p := p) (v := v) (b := k) as (f & F); [|exact T|].
  - split; [exact Oo|]. split; [exact S0|]. split; [exact E0|]. split; [|split; assumption]. intros f I. destruct (In_nth_error _ _ I) as (m & M). apply Np in M. destruct M as (x & Ix & _ & ->). split; [apply V, Ix|].
    intros q Iq. unfold VoxSpec.in_box. pose proof (proj1 (Bx vx (or_introl eq_refl)) x q Ix Iq). pose proof (proj1 (Bx vy (or_intror (or_introl eq_refl))) x q Ix Iq). pose proof (proj1 (Bx vz (or_intror (or_intror (or_introl eq_refl)))) x q Ix Iq). tauto.
  - apply Np in F. destruct F as (i & I & D & _). destruct (C134_absorption vec A vzero d ops b bo mesh_of [] N Eb Kb Vt) as (a' & num2 & Ea' & En' & R). fold h in Ea', En', R. rewrite Ea in Ea'. apply Ok_inj in Ea'. subst a'. rewrite En in En'. apply Ok_inj in En'. subst num2. exact (R i k I D).
Qed.
Print Assumptions C134_reads.
(** A polygon without triangles shifts nothing but the length: the number of the
    last polygon is past the end. *)
Theorem C134_absorption_refuted : exists ops b bo (mesh_of : oid -> mesh (P := nat)) a i, NoDup (flat_map added ops) /\ nth_error (run [] ops) b = Some bo /\ o_kind bo = KBuilding /\
  building_arrays mesh_of 0%nat (run [] ops) b = Ok a /\ inside_of (run [] ops) KPolygon b (S i) /\ snd (mesh_of (S i)) <> [] /\ number_polygons (run [] ops) b [] = Ok ([(i, 0%Z); (S i, 1%Z)]) /\
  forall d : R, absorption_read d a 1 = None.
Proof.
  pose (ops := [OpNew KBuilding (str_of "b") 0 []; OpNew KZone (str_of "z") 0 []; OpNew KSolid (str_of "s") 0 []; OpNew KWall (str_of "w") 0 []; OpNew KPolygon (str_of "0") 3 []; OpNew KPolygon (str_of "1") 3 []; OpAdd 3 4; OpAdd 3 5; OpAdd 2 3; OpAdd 1 2; OpAdd 0 1]%nat).
  exists ops, 0%nat. eexists. exists (fun i => if (i =? 4)%nat then ([1; 2; 3], [])%nat else ([7; 8; 9], [(0, 1, 2)])%nat). eexists. exists 4%nat.
  split; [vm_compute; repeat constructor; simpl; intuition discriminate|]. split; [vm_compute; reflexivity|]. split; [reflexivity|]. split; [vm_compute; reflexivity|].
  split; [|split; [discriminate|split; [vm_compute; reflexivity|intros d; reflexivity]]].
  destruct (run_linked ops) as (W & L); [vm_compute; repeat constructor; simpl; intuition discriminate|].
  eapply (proj1 (polys_in (run [] ops) W 0%nat _ eq_refl eq_refl 5%nat)). vm_compute. auto.
Qed.
Print Assumptions C134_absorption_refuted.
(** Two polygons of one triangle each. *)
Example C134_absorption_example : exists a, building_arrays (fun _ => ([7; 8; 9], [(0, 1, 2)])%nat) 0%nat (run [] [OpNew KBuilding (str_of "b") 0 []; OpNew KZone (str_of "z") 0 []; OpNew KSolid (str_of "s") 0 []; OpNew KWall (str_of "w") 0 []; OpNew KPolygon (str_of "0") 3 []; OpNew KPolygon (str_of "1") 3 []; OpAdd 3 4; OpAdd 3 5; OpAdd 2 3; OpAdd 1 2; OpAdd 0 1]%nat) 0%nat = Ok a /\
  absorption_read 5%nat a 1 = Some 5%nat /\ absorption_read 5%nat a 2 = None.
Proof. eexists. split; [vm_compute; reflexivity|split; reflexivity]. Qed.

(** ** Rays of the simulation of a building, from its objects on *)
(** As C133_stays; the polygons and the box are those the loop gets. *)
Theorem C134_stays : forall int_of ops b bo geo bbox isf isc ist c bid num c' l, NoDup (flat_map added ops) -> let h := run [] ops in nth_error h b = Some bo -> o_kind bo = KBuilding ->
  tests_are h b geo bbox isf -> clear_cut h b geo -> dget c bid = None -> one_each h b geo -> simulation_transparent int_of bbox isf isc ist true c bid h b num = (c', Ok l) ->
  (forall i, inside_of h KPolygon b i -> valid (fst (fst (geo i))) /\ all_used (fst (fst (geo i)))) ->
  forall polys mn mx transparent order_of s e grid sc fuel nr pos vel en hs buf ids, simulation_geometry (fun i => fst (fst (geo i))) h b = Ok (polys, (mn, mx)) -> (forall k, In k transparent <-> In (Z.of_nat k) (without_dummy l)) -> grouped h b ids ->
  (forall l x, In x (order_of l) <-> In x l) -> 0 < s -> 0 <= e -> make_voxel_grid mn mx (map fst polys) s e = Ok grid -> scene_of polys transparent order_of s grid sc -> 0 <= eps sc -> 0 < dt sc -> 0 < speed sc * dt sc <= s ->
  length vel = length pos -> length en = length pos -> length hs = length (absorbers sc) -> (forall v, In v vel -> norm v = speed sc) -> simulation_loop sc fuel nr pos vel en hs = Ok buf ->
  forall k i j p p' bs bs', (i <= j)%nat -> cell (b_pos buf) i k p -> cell (b_pos buf) j k p' -> moves_well h b geo sc buf k i j ->
  (forall fs, In fs (map (map geo) ids) -> closed_solid fs /\ viewed fs p /\ viewed fs p') ->
  found (map (map geo) ids) p bs -> hits bs = 1%nat -> found (map (map geo) ids) p' bs' -> (hits bs' <= 1)%nat -> hits bs' = 1%nat.
Proof.
  intros int_of ops b bo geo bbox isf isc ist c bid num c' l N h Eb Kb Te Cc Dc Un E V polys mn mx transparent order_of s e grid sc fuel nr pos vel en hs buf ids Sg Tr G Oo S0 E0 Gr Sc Ep D0 Sp Lv Le Lh Nv Es k i j p p' bs bs' Lij C C' Mw H F H1 F' H2.
  assert (Ne : exists i, inside_of h KPolygon b i /\ fst (fst (fst (geo i))) <> []).
  { destruct (concat ids) as [|x r] eqn:Ec.
    - exfalso. assert (Z : simulation_geometry (fun i => fst (fst (geo i))) h b = Err ValueError); [|congruence]. apply (C134_no_points ops b bo _ N Eb Kb). intros x I. apply (proj2 G) in I. rewrite Ec in I. destruct I.
    - exists x. assert (I : inside_of h KPolygon b x) by (apply (proj2 G); rewrite Ec; left; auto). split; auto. destruct (proj1 Cc x I) as (L3 & _). unfold corners in L3. intros X. rewrite X in L3. cbn in L3. lia. }
  destruct (C134_geometry ops b bo (fun i => fst (fst (geo i))) num N Eb Kb V Ne) as (num' & polys1 & mn1 & mx1 & En & Sg1 & Np & Bx). fold h in En, Sg1, Np, Bx. rewrite Sg in Sg1. apply Ok_inj in Sg1. injection Sg1 as <- <- <-.
  apply (C133_stays int_of ops b bo geo bbox isf isc ist c bid num c' num' l N Eb Kb Te Cc Dc Un E En polys transparent order_of mn mx s e grid sc fuel nr pos vel en hs buf ids) with (k := k) (i := i) (j := j) (p := p) (p' := p') (bs := bs); auto.
  - intros x m I M. apply Np. eauto.
  - split; [exact Oo|]. split; [exact S0|]. split; [exact E0|]. split; [|split; assumption]. intros f I. destruct (In_nth_error _ _ I) as (m & M). apply Np in M. destruct M as (x & Ix & _ & ->). split.
    + destruct (proj1 Cc x Ix) as (L3 & _). unfold corners in L3. intros X. rewrite X in L3. cbn in L3. lia.
    + intros q Iq. unfold VoxSpec.in_box. pose proof (proj1 (Bx vx (or_introl eq_refl)) x q Ix Iq). pose proof (proj1 (Bx vy (or_intror (or_introl eq_refl))) x q Ix Iq). pose proof (proj1 (Bx vz (or_intror (or_intror (or_introl eq_refl)))) x q Ix Iq). tauto.
Qed.
Print Assumptions C134_stays.
(** The building of C133_example: the loop gets the polygons and the box that
    were assumed there. *)
Example C134_example : (forall i, inside_of (run [] flat_ops) KPolygon 0%nat i -> valid (fst (fst (flat_geo i))) /\ all_used (fst (fst (flat_geo i)))) /\
  simulation_geometry (fun i => fst (fst (flat_geo i))) (run [] flat_ops) 0%nat = Ok (flat_polys, (vzero, V 8 4 4)).
Proof.
  assert (V0 : forall i, inside_of (run [] flat_ops) KPolygon 0%nat i -> valid (fst (fst (flat_geo i))) /\ all_used (fst (fst (flat_geo i)))).
  { intros i I. apply flat_inside in I. cbn [seq In] in I. repeat (destruct I as [<-|I]; [split; [apply valid_check|apply used_check]; reflexivity|]). destruct I. }
  split; [exact V0|]. destruct flat_building as (Eb & Kb). destruct (run_linked flat_ops flat_added) as (W & L).
  assert (In6 : forall i, In i (seq 6 12) -> inside_of (run [] flat_ops) KPolygon 0%nat i) by (intros i I; apply flat_inside; exact I).
  destruct (C134_geometry flat_ops 0%nat flat_top (fun i => fst (fst (flat_geo i))) [] flat_added Eb Kb V0) as (num' & polys & mn & mx & _ & Sg & _ & Bx); [exists 6%nat; split; [apply In6; simpl; auto|discriminate]|].
  assert (Ep : polys = flat_polys).
  { destruct (arrays_ok _ W 0%nat flat_top Eb Kb vzero (fun i => fst (fst (flat_geo i))) V0) as (a & Ea & El & _). rewrite (geometry_polys _ _ _ _ _ _ _ Sg Ea El).
    pose proof flat_polys_of as Po. unfold flat_heap in Po. rewrite Po. reflexivity. }
  rewrite Sg. subst polys. clear Sg.
  assert (Hin : forall i p, inside_of (run [] flat_ops) KPolygon 0%nat i -> In p (fst (fst (fst (flat_geo i)))) -> (0 <= vx p <= 8) /\ (0 <= vy p <= 4) /\ (0 <= vz p <= 4)).
  { intros i p I Ip. apply flat_inside in I. change (fst (fst (fst (flat_geo i)))) with (corners (flat_geo i)) in Ip. rewrite zgeo_eq in Ip by exact I. cbn [seq In] in I. repeat (destruct I as [<-|I]; [cbn in Ip; repeat (destruct Ip as [<-|Ip]; [cbn; lra|]); destruct Ip|]). destruct I. }
  assert (Ex : forall i z, In i (seq 6 12) -> In z (zgeo i) -> inside_of (run [] flat_ops) KPolygon 0%nat i /\ In (at3 z) (fst (fst (fst (flat_geo i))))).
  { intros i z I Iz. split; [apply In6, I|]. change (fst (fst (fst (flat_geo i)))) with (corners (flat_geo i)). rewrite zgeo_eq by exact I. apply in_map, Iz. }
  destruct (Ex 10%nat (0, 0, 0)%Z) as (I1 & J1); [cbn; tauto|vm_compute; tauto|]. destruct (Ex 14%nat (8, 4, 4)%Z) as (I2 & J2); [cbn; tauto|vm_compute; tauto|].
  do 3 f_equal.
  - apply vec_ext.
    + destruct (Bx vx) as (A & (i & p & Ii & Ip & C) & _); [simpl; auto|]. pose proof (A _ _ I1 J1) as Q1. pose proof (Hin _ _ Ii Ip) as Q2. clear - Q1 Q2 C. unfold at3, vzero in *. cbn [vx vy vz fst snd] in *. lra.
    + destruct (Bx vy) as (A & (i & p & Ii & Ip & C) & _); [simpl; auto|]. pose proof (A _ _ I1 J1) as Q1. pose proof (Hin _ _ Ii Ip) as Q2. clear - Q1 Q2 C. unfold at3, vzero in *. cbn [vx vy vz fst snd] in *. lra.
    + destruct (Bx vz) as (A & (i & p & Ii & Ip & C) & _); [simpl; auto|]. pose proof (A _ _ I1 J1) as Q1. pose proof (Hin _ _ Ii Ip) as Q2. clear - Q1 Q2 C. unfold at3, vzero in *. cbn [vx vy vz fst snd] in *. lra.
  - apply vec_ext.
    + destruct (Bx vx) as (A & _ & (i & p & Ii & Ip & C)); [simpl; auto|]. pose proof (A _ _ I2 J2) as Q1. pose proof (Hin _ _ Ii Ip) as Q2. clear - Q1 Q2 C. unfold at3, vzero in *. cbn [vx vy vz fst snd] in *. lra.
    + destruct (Bx vy) as (A & _ & (i & p & Ii & Ip & C)); [simpl; auto|]. pose proof (A _ _ I2 J2) as Q1. pose proof (Hin _ _ Ii Ip) as Q2. clear - Q1 Q2 C. unfold at3, vzero in *. cbn [vx vy vz fst snd] in *. lra.
    + destruct (Bx vz) as (A & _ & (i & p & Ii & Ip & C)); [simpl; auto|]. pose proof (A _ _ I2 J2) as Q1. pose proof (Hin _ _ Ii Ip) as Q2. clear - Q1 Q2 C. unfold at3, vzero in *. cbn [vx vy vz fst snd] in *. lra.
Qed.
(** The same building meets what C134_reads asks for, with a grid and a scene. *)
Example C134_reads_example : exists a grid sc, (forall i, inside_of (run [] flat_ops) KPolygon 0%nat i -> valid (fst (fst (flat_geo i))) /\ all_used (fst (fst (flat_geo i))) /\ fst (fst (fst (flat_geo i))) <> []) /\
  building_arrays (fun i => fst (fst (flat_geo i))) vzero (run [] flat_ops) 0%nat = Ok a /\ simulation_geometry (fun i => fst (fst (flat_geo i))) (run [] flat_ops) 0%nat = Ok (flat_polys, (vzero, V 8 4 4)) /\
  make_voxel_grid vzero (V 8 4 4) (map fst flat_polys) 1 (1 / 1000) = Ok grid /\ scene_of flat_polys [2; 10]%nat (fun l => l) 1 grid sc /\ absorption_read 5%nat a 11 = Some 5%nat.
Proof.
  destruct C134_example as (V0 & Sg). destruct C133_example as (_ & _ & grid & sc & _ & _ & _ & _ & _ & _ & (_ & _ & _ & _ & G & Sc) & _).
  assert (V1 : forall i, inside_of (run [] flat_ops) KPolygon 0%nat i -> fst (fst (fst (flat_geo i))) <> [] /\ snd (fst (fst (flat_geo i))) <> []).
  { intros i I. apply flat_inside in I. cbn [seq In] in I. repeat (destruct I as [<-|I]; [split; discriminate|]). destruct I. }
  destruct flat_building as (Eb & Kb). destruct (run_linked flat_ops flat_added) as (W & L).
  destruct (absorption_ok (run [] flat_ops) W 0%nat flat_top Eb Kb vzero (fun i => fst (fst (flat_geo i))) 5%nat (fun i I => proj2 (V1 i I))) as (a & Ea & Ha).
  exists a, grid, sc. split; [intros i I; destruct (V0 i I); destruct (V1 i I); auto|]. split; [exact Ea|]. split; [exact Sg|]. split; [exact G|]. split; [exact Sc|]. apply Ha. pose proof flat_polys_of as Po. unfold flat_heap in Po. rewrite Po. cbn. lia.
Qed.
(** A building without polygons. *)
Example C134_no_points_example : (exists bo, nth_error (run [] [OpNew KBuilding (str_of "b") 0 []]) 0 = Some bo /\ o_kind bo = KBuilding) /\ simulation_geometry (fun _ => ([], [])) (run [] [OpNew KBuilding (str_of "b") 0 []]) 0%nat = Err ValueError.
Proof. split; [eexists; split; reflexivity|reflexivity]. Qed.
