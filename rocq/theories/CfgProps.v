(** Properties C28, C29 and C74: surface parameters and directories. *)
From Coq Require Import Ascii String List Arith Bool ZArith Lia.
From Verif Require Import Prelude TreeModel TreeSpec MeshModel CfgModel CfgSpec CfgProofs2 CfgProofs3.
Import ListNotations.

(** The building of the examples: building 0 "b", zone 1 "z", solid 2 "s",
    walls 3 "w1" and 4 "w2", polygons 5 "p" (in w1), 6 "p" (in w2), 7 "q" (in w1). *)
Definition cfg_ops : list op :=
  [ OpNew KBuilding (str_of "b") 0 []; OpNew KZone (str_of "z") 0 [];
    OpNew KSolid (str_of "s") 0 []; OpNew KWall (str_of "w1") 0 []; OpNew KWall (str_of "w2") 0 [];
    OpNew KPolygon (str_of "p") 4 []; OpNew KPolygon (str_of "p") 4 []; OpNew KPolygon (str_of "q") 3 [];
    OpAdd 0 1; OpAdd 1 2; OpAdd 2 3; OpAdd 2 4; OpAdd 3 5; OpAdd 4 6; OpAdd 3 7 ].
Definition cfg_demo : heap := run [] cfg_ops.
Definition no_int : str -> option Z := fun _ => None.

(** C28: one call changes exactly the polygons at or below the path. *)
Theorem C28_set_changes_exactly :
  forall V int_of ops b bo l (sf sf' : dict str (dict str V)) param sp v, NoDup (flat_map added ops) ->
  nth_error (run [] ops) b = Some bo -> o_kind bo = KBuilding -> building_polygon_paths (run [] ops) b = Ok l ->
  set_surface_param int_of (run [] ops) b sf param sp v = Ok sf' -> forall param' p,
    (param' = param /\ In p l /\ at_or_below sp p -> value_of sf' param' p = Some v) /\
    (~ (param' = param /\ In p l /\ at_or_below sp p) -> value_of sf' param' p = value_of sf param' p).
Proof. exact @hist_set. Qed.
Print Assumptions C28_set_changes_exactly.

(** When the call succeeds and what it raises. *)
Theorem C28_set_outcome :
  forall V int_of ops b bo (sf : dict str (dict str V)) param sp v, NoDup (flat_map added ops) ->
  nth_error (run [] ops) b = Some bo -> o_kind bo = KBuilding ->
  (forall i, building_get int_of (run [] ops) b sp = Ok (GotObj i) -> In param (dkeys sf) ->
     exists sf', set_surface_param int_of (run [] ops) b sf param sp v = Ok sf') /\
  (forall i k, building_get int_of (run [] ops) b sp = Ok (GotPoint i k) -> set_surface_param int_of (run [] ops) b sf param sp v = Err TypeError) /\
  (forall e, building_get int_of (run [] ops) b sp = Err e -> set_surface_param int_of (run [] ops) b sf param sp v = Err e).
Proof. exact @hist_outcome. Qed.
Print Assumptions C28_set_outcome.

(** After any sequence of calls on a new configuration every polygon has the
    value of the last call that covers it, or the default. *)
Theorem C28_last_setting_wins :
  forall V int_of ops b bo l (dflt : V) st, NoDup (flat_map added ops) ->
  nth_error (run [] ops) b = Some bo -> o_kind bo = KBuilding -> building_polygon_paths (run [] ops) b = Ok l ->
  exists sf0, new_surfaces (run [] ops) b dflt = Ok sf0 /\ forall p, In p l ->
    let final := value_of (apply_settings int_of (run [] ops) b sf0 st) (str_of "absorption") p in
    ((forall sp v, In (str_of "absorption", sp, v) st -> ~ at_or_below sp p) -> final = Some dflt) /\
    (forall st1 sp v st2, st = st1 ++ (str_of "absorption", sp, v) :: st2 -> at_or_below sp p ->
       (forall sp' v', In (str_of "absorption", sp', v') st2 -> ~ at_or_below sp' p) -> final = Some v).
Proof. exact @hist_settings. Qed.
Print Assumptions C28_last_setting_wins.

(** The array holds at index k the value of polygon number k. *)
Theorem C28_array :
  forall V int_of ops b bo l (num : oid -> option Z) (zero dv : V) sf param,
  nth_error (run [] ops) b = Some bo -> o_kind bo = KBuilding -> building_polygon_paths (run [] ops) b = Ok l ->
  value_of sf param (str_of "default") = Some dv ->
  (forall p i, In p l -> building_get int_of (run [] ops) b p = Ok (GotObj i) -> exists k, num i = Some k /\ (0 <= k < Z.of_nat (length l))%Z) ->
  (forall p q i j, In p l -> In q l -> building_get int_of (run [] ops) b p = Ok (GotObj i) ->
     building_get int_of (run [] ops) b q = Ok (GotObj j) -> num i = num j -> p = q) ->
  exists arr, surface_params_to_array int_of zero num (run [] ops) b sf param = Ok arr /\ length arr = length l /\
    forall p i k, In p l -> building_get int_of (run [] ops) b p = Ok (GotObj i) -> num i = Some k ->
      nth_error arr (Z.to_nat k) = Some (match value_of sf param p with Some v => v | None => dv end).
Proof. exact @hist_array. Qed.
Print Assumptions C28_array.

Theorem C28_unnumbered_polygon_raises :
  forall V int_of ops b bo l (num : oid -> option Z) (zero dv : V) sf param,
  nth_error (run [] ops) b = Some bo -> o_kind bo = KBuilding -> building_polygon_paths (run [] ops) b = Ok l ->
  value_of sf param (str_of "default") = Some dv ->
  (forall p i k, In p l -> building_get int_of (run [] ops) b p = Ok (GotObj i) -> num i = Some k -> (0 <= k < Z.of_nat (length l))%Z) ->
  (exists p i, In p l /\ building_get int_of (run [] ops) b p = Ok (GotObj i) /\ num i = None) ->
  surface_params_to_array int_of zero num (run [] ops) b sf param = Err RuntimeError.
Proof. exact @hist_unnumbered. Qed.
Print Assumptions C28_unnumbered_polygon_raises.

Definition cfg_num (i : oid) : option Z := if i =? 5 then Some 2%Z else if i =? 6 then Some 0%Z else if i =? 7 then Some 1%Z else None.
Definition cfg_settings : list (str * str * nat) :=
  [(str_of "absorption", str_of "b/z", 3); (str_of "absorption", str_of "b/z/s/w1/q", 4);
   (str_of "absorption", str_of "b/z/s/w", 9); (str_of "absorption", str_of "b/z/s/w2", 5);
   (str_of "scattering", str_of "b", 6)].
Example C28_instance :
  NoDup (flat_map added cfg_ops) /\
  (do sf <- new_surfaces cfg_demo 0 2;
   surface_params_to_array no_int 0 cfg_num cfg_demo 0 (apply_settings no_int cfg_demo 0 sf cfg_settings) (str_of "absorption")) = Ok [5; 4; 3] /\
  (do sf <- new_surfaces cfg_demo 0 2;
   surface_params_to_array no_int 0 (fun _ => None) cfg_demo 0 sf (str_of "absorption")) = Err RuntimeError /\
  at_or_below (str_of "b/z/s") (str_of "b/z/s/w1/p") /\
  set_surface_param no_int cfg_demo 0 [] (str_of "absorption") (str_of "b/z/t") 1 = Err KeyError.
Proof.
  split; [repeat constructor; simpl; intuition discriminate|].
  split; [vm_compute; reflexivity|]. split; [vm_compute; reflexivity|]. split; [|vm_compute; reflexivity].
  right. exists (str_of "w1/p"). reflexivity.
Qed.

(** C29: whatever is set, the simulation uses the default everywhere. *)
Theorem C29_settings_do_not_reach_the_simulation :
  forall V int_of ops b bo (dflt : V) st n, NoDup (flat_map added ops) ->
  nth_error (run [] ops) b = Some bo -> o_kind bo = KBuilding ->
  exists sf0, new_surfaces (run [] ops) b dflt = Ok sf0 /\
    simulation_absorption (apply_settings int_of (run [] ops) b sf0 st) n = Ok (repeat dflt n).
Proof. exact @hist_ignored. Qed.
Print Assumptions C29_settings_do_not_reach_the_simulation.

(** The array of set values differs from what is used. *)
Example C29_instance :
  (do sf <- new_surfaces cfg_demo 0 2; simulation_absorption (apply_settings no_int cfg_demo 0 sf cfg_settings) 3) = Ok [2; 2; 2] /\
  (do sf <- new_surfaces cfg_demo 0 2;
   surface_params_to_array no_int 0 cfg_num cfg_demo 0 (apply_settings no_int cfg_demo 0 sf cfg_settings) (str_of "absorption")) = Ok [5; 4; 3].
Proof. split; vm_compute; reflexivity. Qed.

Definition dir_out : list str := [str_of "out"].
Definition dir_states : list str := [str_of "out"; str_of "states"].
(** C74: preparing the directories removes and changes nothing and creates
    directories only. *)
Theorem C74_nothing_is_overwritten : forall fs p b, keeps fs (fst (make_dirs fs p b)) /\
  (forall x, dget (fst (make_dirs fs p b)) x <> dget fs x ->
     (In x (prefixes p) \/ In x (prefixes b)) /\ dget (fst (make_dirs fs p b)) x = Some true).
Proof. exact make_dirs_keeps. Qed.
Print Assumptions C74_nothing_is_overwritten.

(** A simulation starts only with a new, empty buffer directory. *)
Theorem C74_start_needs_new_directory : forall fs p b, tree_shaped fs -> snd (make_dirs fs p b) = Ok tt ->
  ~ present fs b /\ dget (fst (make_dirs fs p b)) b = Some true /\ exists_at (fst (make_dirs fs p b)) p = true /\
  (forall n, ~ present (fst (make_dirs fs p b)) (b ++ [n])).
Proof. exact make_dirs_success. Qed.
Print Assumptions C74_start_needs_new_directory.

(** A non-empty buffer directory is refused. *)
Theorem C74_nonempty_directory_refused : forall fs p b n, dget fs b = Some true -> b <> [] -> present fs (b ++ [n]) ->
  (exists e, snd (make_dirs fs p b) = Err e) /\
  (exists_at fs p = true -> make_dirs fs p b = (fs, Err RuntimeError)) /\
  (forall x, dget (fst (make_dirs fs p b)) x <> dget fs x -> In x (prefixes p) /\ dget (fst (make_dirs fs p b)) x = Some true) /\
  (snd (makedirs fs p) = Ok tt -> snd (make_dirs fs p b) = Err RuntimeError).
Proof. exact make_dirs_nonempty. Qed.
Print Assumptions C74_nonempty_directory_refused.

(** An existing empty one as well. *)
Theorem C74_empty_directory_refused : forall fs p b, dget fs b = Some true -> b <> [] -> exists_at fs p = true ->
  (forall n, ~ present fs (b ++ [n])) -> make_dirs fs p b = (fs, Err FileExistsError).
Proof. exact make_dirs_empty. Qed.
Print Assumptions C74_empty_directory_refused.

(** A file in the place of the buffer directory as well. *)
Theorem C74_file_refused : forall fs p b, dget fs b = Some false -> b <> [] -> exists_at fs p = true -> make_dirs fs p b = (fs, Err FileNotFoundError).
Proof.
  intros fs p b Eb Nb Xp. assert (X1 : exists_at fs b = true) by (apply exists_present; auto; exists false; auto).
  unfold make_dirs. rewrite Xp, X1. unfold listdir, is_dir. destruct b; [congruence|]. rewrite Eb. reflexivity.
Qed.
Print Assumptions C74_file_refused.
Example C74_file_instance : let fs := [(dir_out, true); (dir_states, false)] in dget fs dir_states = Some false /\ dir_states <> [] /\ exists_at fs dir_out = true.
Proof. repeat split; discriminate. Qed.

(** Using one directory for the project and the buffers never works. *)
Theorem C74_same_directory_never_works : forall fs p e, snd (make_dirs fs p p) <> Ok e.
Proof. exact make_dirs_same. Qed.
Print Assumptions C74_same_directory_never_works.

Definition file_e : list str := [str_of "out"; str_of "states"; str_of "energy_0.npy"].
Example C74_instance :
  make_dirs [] dir_out dir_states = ([(dir_out, true); (dir_states, true)], Ok tt) /\
  make_dirs [(dir_out, true); (dir_states, true)] dir_out dir_states = ([(dir_out, true); (dir_states, true)], Err FileExistsError) /\
  snd (make_dirs [(dir_out, true); (dir_states, true); (file_e, false)] dir_out dir_states) = Err RuntimeError /\
  snd (make_dirs [] dir_states dir_out) = Err RuntimeError /\
  tree_shaped [(dir_out, true); (dir_states, true); (file_e, false)].
Proof.
  split; [vm_compute; reflexivity|]. split; [vm_compute; reflexivity|]. split; [vm_compute; reflexivity|]. split; [vm_compute; reflexivity|].
  intros p d n E L1 L2. cbn [dget] in E.
  destruct (eq_dec p dir_out) as [->|]; [simpl in L2; lia|].
  destruct (eq_dec p dir_states) as [->|]; [destruct n as [|[|n]]; simpl in L2; try lia; reflexivity|].
  destruct (eq_dec p file_e) as [->|]; [destruct n as [|[|[|n]]]; simpl in L2; try lia; reflexivity|discriminate].
Qed.
