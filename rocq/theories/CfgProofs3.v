(** Statements over histories. *)
From Coq Require Import Ascii String List Arith Bool ZArith Lia.
From Verif Require Import Prelude TreeModel TreeSpec TreeProofs TreeProofs2 MeshModel CfgModel CfgSpec CfgProofs CfgProofs2.
Import ListNotations.

Lemma hist_set {V} int_of ops b bo l (sf sf' : dict str (dict str V)) param sp v : NoDup (flat_map added ops) ->
  nth_error (run [] ops) b = Some bo -> o_kind bo = KBuilding -> building_polygon_paths (run [] ops) b = Ok l ->
  set_surface_param int_of (run [] ops) b sf param sp v = Ok sf' -> forall param' p,
    (param' = param /\ In p l /\ at_or_below sp p -> value_of sf' param' p = Some v) /\
    (~ (param' = param /\ In p l /\ at_or_below sp p) -> value_of sf' param' p = value_of sf param' p).
Proof. intros ND Eb Kb El S. destruct (run_linked ops ND) as (W & L). apply (set_param_effect (run [] ops) W L b bo Eb Kb int_of sf sf' param sp v l El S). Qed.

Lemma hist_outcome {V} int_of ops b bo (sf : dict str (dict str V)) param sp v : NoDup (flat_map added ops) ->
  nth_error (run [] ops) b = Some bo -> o_kind bo = KBuilding ->
  (forall i, building_get int_of (run [] ops) b sp = Ok (GotObj i) -> In param (dkeys sf) ->
     exists sf', set_surface_param int_of (run [] ops) b sf param sp v = Ok sf') /\
  (forall i k, building_get int_of (run [] ops) b sp = Ok (GotPoint i k) -> set_surface_param int_of (run [] ops) b sf param sp v = Err TypeError) /\
  (forall e, building_get int_of (run [] ops) b sp = Err e -> set_surface_param int_of (run [] ops) b sf param sp v = Err e).
Proof.
  intros ND Eb Kb. destruct (run_linked ops ND) as (W & L). destruct (set_param_err (run [] ops) b int_of sf param sp v) as (E1 & E2).
  split; [|split; auto]. intros i G I. apply (set_param_ok (run [] ops) W L b bo Eb Kb int_of sf param sp v i G).
  intros C. apply dget_None in C. contradiction.
Qed.

Lemma hist_settings {V} int_of ops b bo l (dflt : V) st : NoDup (flat_map added ops) ->
  nth_error (run [] ops) b = Some bo -> o_kind bo = KBuilding -> building_polygon_paths (run [] ops) b = Ok l ->
  exists sf0, new_surfaces (run [] ops) b dflt = Ok sf0 /\ forall p, In p l ->
    let final := value_of (apply_settings int_of (run [] ops) b sf0 st) (str_of "absorption") p in
    ((forall sp v, In (str_of "absorption", sp, v) st -> ~ at_or_below sp p) -> final = Some dflt) /\
    (forall st1 sp v st2, st = st1 ++ (str_of "absorption", sp, v) :: st2 -> at_or_below sp p ->
       (forall sp' v', In (str_of "absorption", sp', v') st2 -> ~ at_or_below sp' p) -> final = Some v).
Proof.
  intros ND Eb Kb El. destruct (run_linked ops ND) as (W & L).
  destruct (new_surfaces_ok (run [] ops) W b bo Eb Kb int_of dflt l El) as (sf0 & E & Np & V0). exists sf0. split; auto.
  intros p I. cbv zeta. split.
  - intros U. rewrite (settings_untouched (run [] ops) W L b bo Eb Kb int_of l st (str_of "absorption") p El); [|intros sp v Is (_ & C); apply (U sp v Is C)].
    rewrite V0. destruct (in_dec eq_dec p (DEFAULT :: l)) as [|N]; auto. exfalso. apply N. simpl. auto.
  - intros st1 sp v st2 -> AB U. apply (settings_last (run [] ops) W L b bo Eb Kb int_of l); auto.
Qed.

Lemma hist_array {V} int_of ops b bo l (num : oid -> option Z) (zero dv : V) sf param :
  nth_error (run [] ops) b = Some bo -> o_kind bo = KBuilding -> building_polygon_paths (run [] ops) b = Ok l ->
  value_of sf param DEFAULT = Some dv ->
  (forall p i, In p l -> building_get int_of (run [] ops) b p = Ok (GotObj i) -> exists k, num i = Some k /\ (0 <= k < Z.of_nat (length l))%Z) ->
  (forall p q i j, In p l -> In q l -> building_get int_of (run [] ops) b p = Ok (GotObj i) ->
     building_get int_of (run [] ops) b q = Ok (GotObj j) -> num i = num j -> p = q) ->
  exists arr, surface_params_to_array int_of zero num (run [] ops) b sf param = Ok arr /\ length arr = length l /\
    forall p i k, In p l -> building_get int_of (run [] ops) b p = Ok (GotObj i) -> num i = Some k ->
      nth_error arr (Z.to_nat k) = Some (match value_of sf param p with Some v => v | None => dv end).
Proof.
  intros Eb Kb El E Rn Inj. assert (W := run_wf ops [] wf_nil).
  assert (R : forall p, In p l -> exists i, building_get int_of (run [] ops) b p = Ok (GotObj i)).
  { intros p I. destruct (listed_paths_resolve int_of _ b bo l p W Eb Kb El I) as (i & o & G & _). eauto. }
  destruct (array_ok (run [] ops) W b bo Eb Kb int_of num zero l sf param dv El E) as (arr & Ea & La & Va).
  - intros p I. destruct (R p I) as (i & G). destruct (Rn p i I G) as (k & K). exists k. unfold number_of. rewrite G. auto.
  - intros p q Ip Iq. destruct (R p Ip) as (i & G). destruct (R q Iq) as (j & G'). unfold number_of. rewrite G, G'. intros N.
    apply (Inj p q i j); auto.
  - exists arr. split; auto. split; auto. intros p i k I G N. apply Va; auto. unfold number_of. rewrite G. auto.
Qed.

Lemma hist_unnumbered {V} int_of ops b bo l (num : oid -> option Z) (zero dv : V) sf param :
  nth_error (run [] ops) b = Some bo -> o_kind bo = KBuilding -> building_polygon_paths (run [] ops) b = Ok l ->
  value_of sf param DEFAULT = Some dv ->
  (forall p i k, In p l -> building_get int_of (run [] ops) b p = Ok (GotObj i) -> num i = Some k -> (0 <= k < Z.of_nat (length l))%Z) ->
  (exists p i, In p l /\ building_get int_of (run [] ops) b p = Ok (GotObj i) /\ num i = None) ->
  surface_params_to_array int_of zero num (run [] ops) b sf param = Err RuntimeError.
Proof.
  intros Eb Kb El E Rn (p & i & I & G & N). assert (W := run_wf ops [] wf_nil).
  unfold value_of in E. destruct (dget sf param) as [d|] eqn:D; [|discriminate].
  apply (array_unnumbered (run [] ops) W b bo Eb Kb int_of num zero l sf param d dv El D E).
  - intros q k Iq. unfold number_of. destruct (building_get int_of (run [] ops) b q) as [[j|]|] eqn:Gq; try discriminate. apply (Rn q j k Iq Gq).
  - exists p. split; auto. unfold number_of. rewrite G. auto.
Qed.

Lemma hist_ignored {V} int_of ops b bo (dflt : V) st n : NoDup (flat_map added ops) ->
  nth_error (run [] ops) b = Some bo -> o_kind bo = KBuilding ->
  exists sf0, new_surfaces (run [] ops) b dflt = Ok sf0 /\
    simulation_absorption (apply_settings int_of (run [] ops) b sf0 st) n = Ok (repeat dflt n).
Proof.
  intros ND Eb Kb. destruct (run_linked ops ND) as (W & L).
  destruct (building_paths_spec (run [] ops) b bo W Eb Kb) as (l & El & _).
  destruct (new_surfaces_ok (run [] ops) W b bo Eb Kb int_of dflt l El) as (sf0 & E & Np & V0). exists sf0. split; auto.
  apply (simulation_ignores_settings (run [] ops) W L b bo Eb Kb int_of st sf0 dflt n).
  rewrite V0. destruct (in_dec eq_dec DEFAULT (DEFAULT :: l)) as [|N]; auto. exfalso. apply N. simpl. auto.
Qed.
