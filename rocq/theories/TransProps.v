(** Properties of the transparent polygons of a simulation (C132, C133). *)
From Coq Require Import Ascii String Reals List ZArith Bool Arith Lia Lra Permutation.
From Verif Require Import Prelude TreeModel TreeSpec TreeProofs TreeProofs2 GraphModel GraphSpec GraphProofs VecModel SimModel SimSpec GeomModel GeomSpec GeomProofs1 GeomProofs4 PolyModel PolySpec PolyProofs1 InsideSpec RoomSpec ShellSpec StaySpec DoorSpec DoorProofs3 DoorProps
  TransModel TransSpec TransProofs1 TransProofs2 TransProofs3.
Import ListNotations.
Local Open Scope R_scope.

(** ** C132: the numbers of the transparent polygons *)
(** The polygons of a building are numbered in the order of their paths; others
    keep their numbers. *)
Theorem C132_numbers : forall ops b bo num, NoDup (flat_map added ops) -> let h := run [] ops in nth_error h b = Some bo -> o_kind bo = KBuilding ->
  exists num' l, number_polygons h b num = Ok num' /\ building_polygon_paths h b = Ok l /\
    (forall i k, inside_of h KPolygon b i -> (dget num' i = Some k <-> (0 <= k)%Z /\ exists p, path h i = Ok p /\ nth_error l (Z.to_nat k) = Some p)) /\
    (forall i, ~ inside_of h KPolygon b i -> dget num' i = dget num i).
Proof. intros ops b bo num N h Eb Kb. destruct (run_linked ops N) as (W & L). exact (numbers h W L b bo Eb Kb num). Qed.
Print Assumptions C132_numbers.
(** Of a building not seen before, the numbers are the dummy and those of the
    polygons whose outline, seen from the other side, is that of a polygon of the
    same zone; the paths of these polygons are remembered. *)
Theorem C132_transparent : forall int_of ops b bo geo bbox isf isc ist c bid num, NoDup (flat_map added ops) -> let h := run [] ops in nth_error h b = Some bo -> o_kind bo = KBuilding ->
  tests_are h b geo bbox isf -> clear_cut h b geo -> dget c bid = None -> one_each h b geo ->
  exists s num' l, simulation_transparent int_of bbox isf isc ist true c bid h b num = (dset c bid s, Ok l) /\ number_polygons h b num = Ok num' /\ NoDup l /\
    (forall p, In p s <-> exists i j, divides h b geo i j /\ path h i = Ok p) /\ forall k, In k l <-> k = (-1)%Z \/ exists i j, divides h b geo i j /\ dget num' i = Some k.
Proof. intros int_of ops b bo geo bbox isf isc ist c bid num N h Eb Kb Te Cc Dc Un. destruct (run_linked ops N) as (W & L). exact (transparent h W L b bo Eb Kb geo bbox isf isc ist Te Cc int_of c bid num Dc Un). Qed.
Print Assumptions C132_transparent.
(** A polygon with two opposite ones stops the simulation. *)
Theorem C132_several : forall int_of ops b bo geo bbox isf isc ist c bid num i j k, NoDup (flat_map added ops) -> let h := run [] ops in nth_error h b = Some bo -> o_kind bo = KBuilding ->
  tests_are h b geo bbox isf -> clear_cut h b geo -> dget c bid = None -> inside_of h KPolygon b i -> inside_of h KPolygon b j -> inside_of h KPolygon b k -> i <> j -> i <> k -> j <> k -> opposite (geo i) (geo j) -> opposite (geo i) (geo k) ->
  simulation_transparent int_of bbox isf isc ist true c bid h b num = (c, Err AssertionError).
Proof. intros int_of ops b bo geo bbox isf isc ist c bid num i j k N h Eb Kb Te Cc. destruct (run_linked ops N) as (W & L). exact (crowded h W L b bo Eb Kb geo bbox isf isc ist Te Cc int_of c bid num i j k). Qed.
Print Assumptions C132_several.
(** What is remembered under an id is used for any building that has the id
    later, whatever its polygons are: polygons that now have the remembered paths
    are transparent, and if there is no polygon with such a path, the simulation
    fails. *)
Theorem C132_remembered : forall int_of ops b bo bbox isf isc ist c bid s num, NoDup (flat_map added ops) -> let h := run [] ops in nth_error h b = Some bo -> o_kind bo = KBuilding -> dget c bid = Some s ->
  exists num', number_polygons h b num = Ok num' /\
    ((forall p, In p s -> exists i, inside_of h KPolygon b i /\ path h i = Ok p) ->
      exists l, simulation_transparent int_of bbox isf isc ist true c bid h b num = (c, Ok l) /\ forall k, In k l <-> k = (-1)%Z \/ exists i p, In p s /\ inside_of h KPolygon b i /\ path h i = Ok p /\ dget num' i = Some k) /\
    ((exists p, In p s /\ forall i, inside_of h KPolygon b i -> path h i <> Ok p) -> exists e, simulation_transparent int_of bbox isf isc ist true c bid h b num = (c, Err e)).
Proof. intros int_of ops b bo bbox isf isc ist c bid s num N h Eb Kb Dc. destruct (run_linked ops N) as (W & L). exact (remembered h W L b bo Eb Kb int_of bbox isf isc ist c bid s num Dc). Qed.
Print Assumptions C132_remembered.
(** If the search is switched off there is only the dummy. *)
Theorem C132_off : forall int_of ops b bo bbox isf isc ist c bid num, NoDup (flat_map added ops) -> nth_error (run [] ops) b = Some bo -> o_kind bo = KBuilding ->
  simulation_transparent int_of bbox isf isc ist false c bid (run [] ops) b num = (c, Ok [(-1)%Z]).
Proof. intros int_of ops b bo bbox isf isc ist c bid num N Eb Kb. destruct (C132_numbers ops b bo num N Eb Kb) as (num' & l & E & _). unfold simulation_transparent. rewrite E. reflexivity. Qed.
Print Assumptions C132_off.
(** Without the dummy the set is not empty and has the same proper numbers; the
    dummy is left only if there is no other. *)
Theorem C132_dummy : forall l, NoDup l -> In (-1)%Z l -> without_dummy l <> [] /\ (forall k, (0 <= k)%Z -> (In k (without_dummy l) <-> In k l)) /\ (In (-1)%Z (without_dummy l) -> l = [(-1)%Z]).
Proof.
  intros l N I. destruct (dummy l N I) as (A & B). split; auto. split; auto. unfold without_dummy. rewrite (proj2 (memb_true _ _) I), andb_true_r. destruct (1 <? length l)%nat eqn:E; [intros H; apply in_remove in H; tauto|].
  apply Nat.ltb_ge in E. intros _. destruct l as [|x [|y l]]; [destruct I|destruct I as [->|[]]; reflexivity|cbn [length] in E; lia].
Qed.
Print Assumptions C132_dummy.

(** Two boxes of one zone: only the polygons between them are transparent. *)
Example C132_example : NoDup (flat_map added flat_ops) /\ (exists bo, nth_error (run [] flat_ops) 0%nat = Some bo /\ o_kind bo = KBuilding) /\ tests_are (run [] flat_ops) 0%nat flat_geo flat_bbox flat_isf /\ clear_cut (run [] flat_ops) 0%nat flat_geo /\ one_each (run [] flat_ops) 0%nat flat_geo /\
  exists s l, simulation_transparent (fun _ => None) flat_bbox flat_isf (fun _ _ => false) (fun _ _ => false) true [] 0%nat (run [] flat_ops) 0%nat [] = (dset [] 0%nat s, Ok l) /\ (forall k, In k l <-> In k [-1; 2; 10]%Z).
Proof.
  destruct flat_building as (Eb & Kb). split; [exact flat_added|]. split; [exists flat_top; split; assumption|]. split; [exact flat_tests|]. split; [exact flat_clear|]. split; [exact flat_one|].
  destruct (C132_transparent (fun _ => None) flat_ops 0%nat flat_top flat_geo flat_bbox flat_isf (fun _ _ => false) (fun _ _ => false) [] 0%nat [] flat_added Eb Kb flat_tests flat_clear eq_refl flat_one) as (s & num' & l & E & En & _ & _ & H).
  exists s, l. split; [exact E|]. pose proof flat_numbers as Fn. unfold flat_heap in Fn. rewrite Fn in En. apply Ok_inj in En. subst num'. intros k. rewrite H. split.
  - intros [-> |(i & j & Dv & K)]; [simpl; auto|]. destruct (proj1 (flat_divides i) (ex_intro _ j Dv)) as [-> | ->]; vm_compute in K; injection K as <-; simpl; auto.
  - intros [<-|[<-|[<-|[]]]]; [auto|right|right]; [destruct (proj2 (flat_divides 8%nat) (or_introl eq_refl)) as (j & Dv); exists 8%nat, j|destruct (proj2 (flat_divides 16%nat) (or_intror eq_refl)) as (j & Dv); exists 16%nat, j]; (split; [exact Dv|reflexivity]).
Qed.
(** A polygon is replaced after the first simulation: the next one fails. *)
Definition redo : list op := [OpNew KPolygon (str_of "new") 4 []; OpReplacePolygon 4 (str_of "2") [18]]%nat.
Example C132_remembered_example : simulation_transparent (fun _ => None) flat_bbox flat_isf (fun _ _ => false) (fun _ _ => false) true [(0%nat, [str_of "b/z/west/w/2"; str_of "b/z/east/w/4"])] 0%nat (run [] flat_ops) 0%nat [] = ([(0%nat, [str_of "b/z/west/w/2"; str_of "b/z/east/w/4"])], Ok [-1; 2; 10]%Z) /\
  exists e, snd (simulation_transparent (fun _ => None) flat_bbox flat_isf (fun _ _ => false) (fun _ _ => false) true [(0%nat, [str_of "b/z/west/w/2"; str_of "b/z/east/w/4"])] 0%nat (run (run [] flat_ops) redo) 0%nat []) = Err e.
Proof. split; [vm_compute; reflexivity|eexists; vm_compute; reflexivity]. Qed.
(** Three polygons with the same outline. *)
Example C132_several_example : NoDup (flat_map added three_ops) /\ (exists bo, nth_error (run [] three_ops) 0 = Some bo /\ o_kind bo = KBuilding) /\ tests_are (run [] three_ops) 0%nat three_geo three_bbox three_isf /\ clear_cut (run [] three_ops) 0%nat three_geo /\
  (forall i, In i [4; 5; 6]%nat -> inside_of (run [] three_ops) KPolygon 0%nat i) /\ opposite (three_geo 4%nat) (three_geo 5%nat) /\ opposite (three_geo 4%nat) (three_geo 6%nat).
Proof.
  destruct three_building as (Eb & Kb). split; [exact three_added|]. split; [exists three_top; split; assumption|]. split; [exact three_tests|]. split; [exact three_clear|]. split; [intros i; apply three_inside|]. split; apply flat_opposite.
Qed.

(** ** C133: rays of the simulation of a building *)
(** The faces of the simulation are those of the polygons by their numbers, and
    the transparent ones those found above.  Then, if the solids are closed, the
    number of solids a ray is found in stays odd or stays even. *)
Theorem C133_rooms : forall int_of ops b bo geo bbox isf isc ist c bid num c' num' l, NoDup (flat_map added ops) -> let h := run [] ops in nth_error h b = Some bo -> o_kind bo = KBuilding ->
  tests_are h b geo bbox isf -> clear_cut h b geo -> dget c bid = None -> one_each h b geo -> simulation_transparent int_of bbox isf isc ist true c bid h b num = (c', Ok l) -> number_polygons h b num = Ok num' ->
  forall polys transparent order_of mn mx s e grid sc fuel nr pos vel en hs buf ids, laid_out h b geo num' polys -> (forall k, In k transparent <-> In (Z.of_nat k) (without_dummy l)) -> grouped h b ids ->
  RoomSpec.room polys transparent order_of mn mx s e grid sc -> 0 <= eps sc -> 0 < dt sc -> 0 < speed sc * dt sc <= s ->
  length vel = length pos -> length en = length pos -> length hs = length (absorbers sc) -> (forall v, In v vel -> norm v = speed sc) -> simulation_loop sc fuel nr pos vel en hs = Ok buf ->
  forall k i j p p', (i <= j)%nat -> cell (b_pos buf) i k p -> cell (b_pos buf) j k p' -> moves_well h b geo sc buf k i j ->
  (forall fs, In fs (map (map geo) ids) -> closed_solid fs /\ viewed fs p /\ viewed fs p') -> exists bs bs', found (map (map geo) ids) p bs /\ found (map (map geo) ids) p' bs' /\ Nat.odd (hits bs') = Nat.odd (hits bs).
Proof.
  intros int_of ops b bo geo bbox isf isc ist c bid num c' num' l N h Eb Kb Te Cc Dc Un E En polys transparent order_of mn mx s e grid sc fuel nr pos vel en hs buf ids Lo Tr (Gn & Gi) Rm Ep D0 Sp Lv Le Lh Nv Es k i j p p' L C C' Mw H.
  destruct (C132_transparent int_of ops b bo geo bbox isf isc ist c bid num N Eb Kb Te Cc Dc Un) as (s0 & num1 & l1 & E1 & En1 & Nl & _ & Sl). fold h in E1, En1. assert (l1 = l) by congruence. assert (num1 = num') by congruence. subst l1 num1.
  destruct (C132_numbers ops b bo num N Eb Kb) as (num1 & pl & En2 & _ & Nm & _). fold h in En2. assert (num1 = num') by congruence. subst num1. destruct (split_doors h b geo Un ids Gn Gi) as (ws & ps & P & Hw & Hp).
  destruct (C132_dummy l Nl (proj2 (Sl _) (or_introl eq_refl))) as (_ & Wd & _).
  assert (Has : forall x, inside_of h KPolygon b x -> exists m, dget num' x = Some (Z.of_nat m)).
  { intros x Ix. destruct (run_linked ops N) as (W & Lk). pose proof (proj2 (polys_in h W b bo Eb Kb x) Ix) as Ip. destruct (In_nth_error _ _ Ip) as (m & M). exists m. unfold number_polygons in En. rewrite (iter_polygons_ok h b bo W Eb) in En. apply Ok_inj in En. subst num'. exact (number_from_at _ 0%Z num m x (polys_nodup h W Lk b bo Eb Kb) M). }
  assert (Inj : forall x y m, inside_of h KPolygon b x -> inside_of h KPolygon b y -> dget num' x = Some m -> dget num' y = Some m -> x = y).
  { intros x y m Ix Iy X Y. destruct (proj1 (Nm x m Ix) X) as (_ & q & Q & M), (proj1 (Nm y m Iy) Y) as (_ & q' & Q' & M'). assert (q' = q) by congruence. subst q'. destruct (run_linked ops N) as (W & Lk). destruct Ix as (_ & ns & Dx), Iy as (_ & ns' & Dy). apply (GraphProofs.descends_same_path h b bo ns x ns' y q W Lk Eb Kb Dx Dy Q Q'). }
  apply (C131_rooms polys transparent order_of mn mx s e grid sc fuel nr pos vel en hs buf (map geo ws) (map (fun d => (geo (fst d), geo (snd d))) ps) (map (map geo) ids) Rm Ep D0 Sp Lv Le Lh Nv Es) with (k := k) (i := i) (j := j); auto.
  - intros f n d I. apply in_map_iff in I. destruct I as (x & Ex & Ix). destruct (Hw x Ix) as (Ii & Nd). destruct (Has x Ii) as (m & M). exists m. pose proof (Lo x m Ii M) as Lx. rewrite Ex in Lx. split; [exact Lx|]. intros T. apply Tr, (Wd _ (Zle_0_nat m)), Sl in T. destruct T as [T|(x' & y & Dv & M')]; [lia|].
    apply Nd. exists y. rewrite (Inj x x' (Z.of_nat m)); auto. apply Dv.
  - intros x y I. apply in_map_iff in I. destruct I as ((i0, j0) & Ed & I). injection Ed as <- <-. pose proof (Hp _ _ I) as (I1 & I2 & _ & O & _). assert (In_fs : forall z, inside_of h KPolygon b z -> exists fs, closed_solid fs /\ In (geo z) fs).
    { intros z Iz. apply Gi, in_concat in Iz. destruct Iz as (g & Ig & Iz). exists (map geo g). split; [apply H, in_map, Ig|apply in_map, Iz]. }
    apply opposite_twins; auto.
  - intros m x q q' Lm Cq Cq' I. apply in_map_iff in I. destruct I as (z & <- & Iz). destruct (Hw z Iz) as (Ii & Nd). apply (Mw m z q q' Lm Cq Cq' Ii). exact Nd.
  - intros m x q q' Lm Cq Cq' I. unfold both_sides in I. apply in_flat_map in I. destruct I as (dd & Id & Ix). apply in_map_iff in Id. destruct Id as ((i0, j0) & <- & Ip). cbn [fst snd In] in Ix. pose proof (Hp _ _ Ip) as Dv.
    destruct Ix as [<-|[<-|[]]]; [apply (Mw m i0 q q' Lm Cq Cq' (proj1 Dv)); eauto|]. apply (Mw m j0 q q' Lm Cq Cq' (proj1 (proj2 Dv))). exists i0. destruct Dv as (A & B & D & O & z & Z1 & Z2). split; [auto|]. split; [auto|]. split; [auto|]. split; [apply opposite_sym; auto|]. exists z. auto.
Qed.
Print Assumptions C133_rooms.
(** So a ray that starts in one solid is later found in one, if solids do not
    overlap there. *)
Theorem C133_stays : forall int_of ops b bo geo bbox isf isc ist c bid num c' num' l, NoDup (flat_map added ops) -> let h := run [] ops in nth_error h b = Some bo -> o_kind bo = KBuilding ->
  tests_are h b geo bbox isf -> clear_cut h b geo -> dget c bid = None -> one_each h b geo -> simulation_transparent int_of bbox isf isc ist true c bid h b num = (c', Ok l) -> number_polygons h b num = Ok num' ->
  forall polys transparent order_of mn mx s e grid sc fuel nr pos vel en hs buf ids, laid_out h b geo num' polys -> (forall k, In k transparent <-> In (Z.of_nat k) (without_dummy l)) -> grouped h b ids ->
  RoomSpec.room polys transparent order_of mn mx s e grid sc -> 0 <= eps sc -> 0 < dt sc -> 0 < speed sc * dt sc <= s ->
  length vel = length pos -> length en = length pos -> length hs = length (absorbers sc) -> (forall v, In v vel -> norm v = speed sc) -> simulation_loop sc fuel nr pos vel en hs = Ok buf ->
  forall k i j p p' bs bs', (i <= j)%nat -> cell (b_pos buf) i k p -> cell (b_pos buf) j k p' -> moves_well h b geo sc buf k i j ->
  (forall fs, In fs (map (map geo) ids) -> closed_solid fs /\ viewed fs p /\ viewed fs p') ->
  found (map (map geo) ids) p bs -> hits bs = 1%nat -> found (map (map geo) ids) p' bs' -> (hits bs' <= 1)%nat -> hits bs' = 1%nat.
Proof.
  intros int_of ops b bo geo bbox isf isc ist c bid num c' num' l N h Eb Kb Te Cc Dc Un E En polys transparent order_of mn mx s e grid sc fuel nr pos vel en hs buf ids Lo Tr G Rm Ep D0 Sp Lv Le Lh Nv Es k i j p p' bs bs' L C C' Mw H F H1 F' H2.
  destruct (C133_rooms int_of ops b bo geo bbox isf isc ist c bid num c' num' l N Eb Kb Te Cc Dc Un E En polys transparent order_of mn mx s e grid sc fuel nr pos vel en hs buf ids Lo Tr G Rm Ep D0 Sp Lv Le Lh Nv Es k i j p p' L C C' Mw H) as (b1 & b2 & A & B & O).
  rewrite (found_same _ p b1 bs A F), (found_same _ p' b2 bs' B F'), H1 in O. destruct (hits bs') as [|[|m]]; [discriminate O|reflexivity|lia].
Qed.
Print Assumptions C133_stays.
(** The two boxes of C132_example and the ray of C131_example. *)
Example C133_example : exists s l grid sc buf, simulation_transparent (fun _ => None) flat_bbox flat_isf (fun _ _ => false) (fun _ _ => false) true [] 0%nat (run [] flat_ops) 0%nat [] = (dset [] 0%nat s, Ok l) /\
  (exists num', number_polygons (run [] flat_ops) 0%nat [] = Ok num' /\ laid_out (run [] flat_ops) 0%nat flat_geo num' flat_polys) /\ (forall k, In k [2; 10]%nat <-> In (Z.of_nat k) (without_dummy l)) /\ grouped (run [] flat_ops) 0%nat [seq 6 6; seq 12 6]%nat /\ map (map flat_geo) [seq 6 6; seq 12 6]%nat = [west; east] /\
  RoomSpec.room flat_polys [2; 10]%nat (fun l => l) vzero (V 8 4 4) 1 (1 / 1000) grid sc /\ simulation_loop sc 5 1 [here] [ahead] [1] [] = Ok buf /\ cell (b_pos buf) 0 0 here /\ cell (b_pos buf) 1 0 there /\ moves_well (run [] flat_ops) 0%nat flat_geo sc buf 0 0 1 /\
  found [west; east] here [true; false] /\ found [west; east] there [false; true].
Proof.
  destruct C132_example as (_ & _ & _ & _ & _ & s & l & E & Sl). destruct C131_example as (grid & sc & buf & Rm & _ & _ & _ & _ & _ & Es & _ & _ & _ & C0 & C1 & Tw & Dw & _ & F1 & F2). exists s, l, grid, sc, buf. split; [exact E|].
  split; [eexists; split; [exact flat_numbers|exact flat_laid]|].
  assert (Nl : NoDup l). { destruct flat_building as (Eb & Kb). destruct (C132_transparent (fun _ => None) flat_ops 0%nat flat_top flat_geo flat_bbox flat_isf (fun _ _ => false) (fun _ _ => false) [] 0%nat [] flat_added Eb Kb flat_tests flat_clear eq_refl flat_one) as (s1 & n1 & l1 & E1 & _ & Nl & _). congruence. }
  split; [intros k; destruct (C132_dummy l Nl (proj2 (Sl _) (or_introl eq_refl))) as (_ & Wd & _); rewrite (Wd _ (Zle_0_nat k)), Sl; cbn [In]; lia|].
  split; [split; [apply (seq_NoDup 12 6)|intros i; rewrite flat_inside; reflexivity]|]. split; [reflexivity|]. do 4 (split; [assumption|]). split; [|split; assumption].
  intros m x q q' Lm Cq Cq' Ix. apply flat_inside in Ix. rewrite flat_divides. split.
  - intros Dv. apply (Dw m); auto. destruct Dv as [-> | ->]; [left; reflexivity|right; left; reflexivity].
  - intros Nd. apply (Tw m); auto. apply (opaque (x - 6)%nat); [|cbn [In]; cbn [seq In] in Ix; lia]. unfold flat_geo. apply nth_error_nth'. apply in_seq in Ix. cbn. lia.
Qed.
