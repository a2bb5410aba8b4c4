(** Properties of locating points in a building (C129). *)
From Coq Require Import Ascii String Reals List ZArith Bool Arith Lia Lra.
From Verif Require Import Prelude TreeModel TreeSpec GraphModel GraphSpec VecModel GeomModel GeomSpec GeomProofs1 TriModel PolyModel PolySpec SolidModel SolidSpec SolidProofs1 InsideSpec RoomSpec PlanSpec PlanProofs4 PlanProofs5
  WindSpec LoopSpec ShellSpec HallSpec HallProofs2 HallProofs3 LocSpec LocProofs1 LocProofs2.
Import ListNotations.
Local Open Scope R_scope.

(** ** C129: buildings of boxes and halls *)
(** A point with a clear view of all rooms is located in a room it is in; if
    there is none, it is not located. *)
Theorem C129_located : forall int_of inside ops b bo hints rooms walls q, NoDup (flat_map added ops) ->
  let h := run [] ops in
  nth_error h b = Some bo -> o_kind bo = KBuilding ->
  (forall i, inside_of h KSolid b i -> built (rooms i) (walls i) /\ clear_view (rooms i) (walls i) q /\ solid_point_inside (map fst (all_polys (walls i))) q = Ok (inside i)) ->
  (forall p, In p hints -> exists i, is_solid_at int_of h b p i) ->
  (exists i, inside_of h KSolid b i /\ occupies (rooms i) q /\ find_location int_of inside h b hints = path h i) \/
  (find_location int_of inside h b hints = Err RuntimeError /\ forall i, inside_of h KSolid b i -> ~ occupies (rooms i) q).
Proof.
  intros int_of inside ops b bo hints rooms walls q Nd h Eb Kb R Hs. apply (locate_some int_of inside (fun i => occupies (rooms i) q) ops b bo hints Nd Eb Kb); [|exact Hs].
  intros i Hi. destruct (R i Hi) as (B & C & E). destruct (room_test _ _ _ B C) as (x & E' & I). rewrite E in E'. injection E' as <-. exact I.
Qed.
Print Assumptions C129_located.
(** If it is in one room only, it is located there, wherever the search starts. *)
Theorem C129_hints_free : forall int_of inside ops b bo hints rooms walls q i, NoDup (flat_map added ops) ->
  let h := run [] ops in
  nth_error h b = Some bo -> o_kind bo = KBuilding ->
  (forall i, inside_of h KSolid b i -> built (rooms i) (walls i) /\ clear_view (rooms i) (walls i) q /\ solid_point_inside (map fst (all_polys (walls i))) q = Ok (inside i)) ->
  (forall p, In p hints -> exists i, is_solid_at int_of h b p i) ->
  inside_of h KSolid b i -> occupies (rooms i) q -> (forall j, inside_of h KSolid b j -> occupies (rooms j) q -> j = i) ->
  find_location int_of inside h b hints = path h i.
Proof.
  intros int_of inside ops b bo hints rooms walls q i Nd h Eb Kb R Hs Hi Oi U.
  destruct (C129_located int_of inside ops b bo hints rooms walls q Nd Eb Kb R Hs) as [(j & Hj & Oj & E)|(_ & N)]; [rewrite <- (U j Hj Oj); exact E|destruct (N i Hi Oi)].
Qed.
Print Assumptions C129_hints_free.

(** A box and an L-shaped hall in one zone: the guest of the hall is found there
    even if the search starts with the box. *)
Definition two_rooms : list op :=
  [ OpNew KBuilding (str_of "b") 0 []; OpNew KZone (str_of "z") 0 []; OpNew KSolid (str_of "box") 0 []; OpNew KSolid (str_of "hall") 0 []; OpAdd 0 1; OpAdd 1 2; OpAdd 1 3 ]%nat.
Definition room_at (i : oid) : room := if (i =? 2)%nat then ABox 1 1 1 (V 10 0 0) else AHall (zplan lplan) 3 vzero 0.
Lemma far_fits : box_fits 1 1 1 (V 10 0 0).
Proof. exists 1. cbn [vx vy vz]. rewrite Rabs_R0, (Rabs_right 10) by lra. repeat split; lra. Qed.
Lemma two_solids i : inside_of (run [] two_rooms) KSolid 0%nat i -> i = 2%nat \/ i = 3%nat.
Proof.
  intros ((o & E & K) & _). do 4 (destruct i as [|i]; [cbn in E; injection E as <-; cbn in K; auto; discriminate|]). destruct i; discriminate E.
Qed.
Example C129_instance : exists walls, let h := run [] two_rooms in NoDup (flat_map added two_rooms) /\
  (forall i, inside_of h KSolid 0%nat i -> built (room_at i) (walls i) /\ clear_view (room_at i) (walls i) guest /\ solid_point_inside (map fst (all_polys (walls i))) guest = Ok (i =? 3)%nat) /\
  (exists i, is_solid_at (fun _ => None) h 0%nat (str_of "b/z/box") i) /\ inside_of h KSolid 0%nat 3%nat /\ occupies (room_at 3%nat) guest /\
  (forall j, inside_of h KSolid 0%nat j -> occupies (room_at j) guest -> j = 3%nat) /\
  find_location (fun _ => None) (fun i => (i =? 3)%nat) h 0%nat [str_of "b/z/box"] = Ok (str_of "b/z/hall").
Proof.
  destruct (lplan_ok lplan (or_introl eq_refl)) as ((wh & H) & _ & _). destruct (box_ok _ _ _ _ far_fits (str_of "box") eq_refl) as (wb & B & _).
  pose proof (lhall_sides wh H) as E. exists (fun i => if (i =? 2)%nat then wb else wh). cbn zeta.
  assert (Ob : ~ occupies (room_at 2%nat) guest) by (cbn; lra).
  assert (Oh : occupies (room_at 3%nat) guest) by (cbn [room_at Nat.eqb occupies]; split; [unfold guest, vzero; cbn [vz]; lra|rewrite guest_turns; discriminate]).
  split; [repeat (constructor; [cbn; intuition discriminate|]); constructor|]. split; [|split; [exists 2%nat; split; [reflexivity|eexists; split; reflexivity]|split; [|split; [exact Oh|split; [|reflexivity]]]]].
  - intros i Hi. apply two_solids in Hi.
    assert (X : built (room_at i) (if (i =? 2)%nat then wb else wh) /\ clear_view (room_at i) (if (i =? 2)%nat then wb else wh) guest).
    { destruct Hi as [-> | ->]; cbn [room_at Nat.eqb built clear_view].
      - split; [split; [exact far_fits|exists (str_of "box"); split; [reflexivity|exact B]]|]. left. left. unfold guest. cbn [vx]. lra.
      - split; [split; [lra|split; [exact lfloor_simple|split; [rewrite E; exact lsides_ok|]]]|].
        + exists vzero, (str_of "s"), (Some six_names), (str_of "floor"), (str_of "ceiling"), (str_of "r1"), (str_of "r2"). split; [exact still|exact H].
        + right. split; [unfold guest, vzero; cbn [vz]; lra|]. split; [exact guest_foot|]. split; [rewrite E; exact guest_off|]. eexists. rewrite E. exact guest_seen. }
    destruct X as (X1 & X2). split; [exact X1|split; [exact X2|]]. destruct (room_test _ _ _ X1 X2) as (x & -> & I). f_equal.
    destruct Hi as [-> | ->]; cbn [Nat.eqb]; destruct x; tauto || (exfalso; intuition discriminate).
  - split; [eexists; split; reflexivity|]. exists [str_of "z"; str_of "hall"].
    eapply (desc_child _ _ [str_of "z"] 1%nat); [|reflexivity|right; left; reflexivity]. eapply (desc_child _ _ [] 0%nat); [constructor|reflexivity|left; reflexivity].
  - intros j Hj O. destruct (two_solids j Hj) as [-> | ->]; [contradiction|reflexivity].
Qed.
