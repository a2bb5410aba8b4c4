(** Property theorems C21, C22, C72. *)
From Coq Require Import Ascii String List Arith Bool Lia.
From Verif Require Import Prelude TreeModel MeshModel MeshSpec IoModel IoSpec IoProofs IoProofs2 IoProofs3.
Import ListNotations.

(** C21.  Polygons keep name, uid, points and triangles ([reuid] leaves them
    alone); the uids of containers become random ([unit]). *)
Theorem C21_b3d_roundtrip :
  forall (P : Type) (coplanar : list P -> bool) (U : Type) (b : building_n P U),
  wf_building coplanar b -> n_kids b <> [] -> no_empty b ->
  (do d <- write_b3d b; read_b3d coplanar d) = Ok (reuid (fun _ => tt) b).
Proof. exact @b3d_roundtrip_full. Qed.
Print Assumptions C21_b3d_roundtrip.

(** Containers without polygons are dropped. *)
Theorem C21_b3d_drops_empty_containers :
  forall (P : Type) (coplanar : list P -> bool) (U : Type) (b : building_n P U),
  wf_building coplanar b -> full_building b = true ->
  (do d <- write_b3d b; read_b3d coplanar d) = Ok (prune (fun _ => tt) b).
Proof. exact @b3d_roundtrip. Qed.
Print Assumptions C21_b3d_drops_empty_containers.

Theorem C21_b3d_no_polygons :
  forall (P : Type) (coplanar : list P -> bool) (U : Type) (b : building_n P U),
  ~ In PATH_SEP (n_name b) -> full_building b = false ->
  (do d <- write_b3d b; read_b3d coplanar d) = Err KeyError.
Proof. exact @b3d_no_polygons. Qed.
Print Assumptions C21_b3d_no_polygons.

Definition any {P} (_ : list P) : bool := true.
Notation pt := (nat * nat * nat)%type.
Definition tri_at (n : str) (k : nat) : poly pt :=
  mkPoly pt n (n ++ n) ([(k, 0, 0); (0, k, 0); (0, 0, k)], [(0, 1, 2)]).
Definition wall1 : wall_n pt str := mkNode (str_of "w") (str_of "wu") [tri_at (str_of "b") 2; tri_at (str_of "a") 1].
Definition wall2 : wall_n pt str := mkNode (str_of "v") (str_of "vu") [tri_at (str_of "b") 3].
Definition wall3 : wall_n pt str := mkNode (str_of "empty") (str_of "eu") [].
Definition solid1 : solid_n pt str := mkNode (str_of "s") (str_of "su") [wall1; wall2].
Definition solid2 : solid_n pt str := mkNode (str_of "t") (str_of "tu") [wall3; wall2].
Definition house : building_n pt str :=
  mkNode (str_of "house") (str_of "hu") [mkNode (str_of "z") (str_of "zu") [solid1]].
Definition house2 : building_n pt str :=
  mkNode (str_of "house") (str_of "hu") [mkNode (str_of "z") (str_of "zu") [solid1; solid2]; mkNode (str_of "y") (str_of "yu") []].


Lemma accepted_tri n k : accepted any (p_mesh (tri_at n k)).
Proof. unfold accepted. simpl. repeat split; try lia; try discriminate. Qed.

Lemma ok_wall1 : wf_wall any wall1.
Proof.
  split; [split|].
  - simpl. repeat constructor; simpl; intuition discriminate.
  - repeat constructor; simpl; intuition discriminate.
  - constructor; [|constructor; [|constructor]]; apply accepted_tri.
Qed.
Lemma ok_wall2 : wf_wall any wall2.
Proof.
  split; [split|].
  - simpl. repeat constructor; simpl; intuition discriminate.
  - repeat constructor; simpl; intuition discriminate.
  - constructor; [|constructor]; apply accepted_tri.
Qed.
Lemma ok_solid1 : wf_solid any solid1.
Proof.
  split; [split|].
  - simpl. repeat constructor; simpl; intuition discriminate.
  - repeat constructor; simpl; intuition discriminate.
  - constructor; [apply ok_wall1|constructor; [apply ok_wall2|constructor]].
Qed.
Lemma ok_solid2 : wf_solid any solid2.
Proof.
  split; [split|].
  - simpl. repeat constructor; simpl; intuition discriminate.
  - repeat constructor; simpl; intuition discriminate.
  - constructor; [split; [split|]; constructor|constructor; [apply ok_wall2|constructor]].
Qed.
Lemma ok_house : wf_building any house.
Proof.
  split; [simpl; intuition discriminate|]. split; [split|].
  - simpl. repeat constructor; simpl; intuition discriminate.
  - repeat constructor; simpl; intuition discriminate.
  - constructor; [|constructor]. split; [split|].
    + simpl. repeat constructor; simpl; intuition discriminate.
    + repeat constructor; simpl; intuition discriminate.
    + constructor; [apply ok_solid1|constructor].
Qed.
Lemma ok_house2 : wf_building any house2.
Proof.
  split; [simpl; intuition discriminate|]. split; [split|].
  - simpl. repeat constructor; simpl; intuition discriminate.
  - repeat constructor; simpl; intuition discriminate.
  - constructor; [|constructor; [|constructor]]; (split; [split|]).
    + simpl. repeat constructor; simpl; intuition discriminate.
    + repeat constructor; simpl; intuition discriminate.
    + constructor; [apply ok_solid1|constructor; [apply ok_solid2|constructor]].
    + constructor.
    + constructor.
    + constructor.
Qed.
Lemma full_house : no_empty house.
Proof. intros z [<-|[]]. split; auto. intros s [<-|[]]. split; auto. intros w [<-|[<-|[]]]; auto. Qed.

(** Whatever the file holds, a building that is read is well formed. *)
Theorem C21_reads_well_formed :
  forall (P : Type) (coplanar : list P -> bool) (d : jv str (bval (P := P))) (b : building_n P Datatypes.unit),
  read_b3d coplanar d = Ok b -> wf_building coplanar b.
Proof. exact @b3d_reads_wf. Qed.
Print Assumptions C21_reads_well_formed.

(** A file with a number or text in place of the zones, a zone, a solid or a wall
    is refused. *)
Theorem C21_values_refused :
  forall (P : Type) (coplanar : list P -> bool) (d : jv str (bval (P := P))) p u, length p <= 3 -> find (str_of "zones" :: p) d = Some (JLeaf u) -> exists e, read_b3d coplanar d = Err e.
Proof. exact @b3d_values. Qed.
Print Assumptions C21_values_refused.
Example C21_values_example : let d : jv str (bval (P := nat)) := JNode [(str_of "name", JLeaf (BStr (str_of "b"))); (str_of "zones", JNode [(str_of "z", JNode [(str_of "s", JLeaf (BStr []))])])] in
  find [str_of "zones"; str_of "z"; str_of "s"] d = Some (JLeaf (BStr [])) /\ read_b3d any d = Err TypeError.
Proof. split; reflexivity. Qed.

Example C21_instance : wf_building any house /\ no_empty house /\
  (do d <- write_b3d house; read_b3d any d) = Ok (reuid (fun _ => tt) house).
Proof. split; [apply ok_house|]. split; [apply full_house|]. apply C21_b3d_roundtrip; [apply ok_house|discriminate|apply full_house]. Qed.

Example C21_instance_drops : wf_building any house2 /\ full_building house2 = true /\
  (do d <- write_b3d house2; read_b3d any d) <> Ok (reuid (fun _ => tt) house2).
Proof.
  split; [apply ok_house2|]. split; auto. rewrite C21_b3d_drops_empty_containers by (auto; apply ok_house2). discriminate.
Qed.

(** C22 *)
Theorem C22_bim_roundtrip :
  forall (X : Type) (coplanar : list (X * X * X) -> bool) (b : building_n (X * X * X) str),
  wf_building coplanar b -> no_empty b ->
  (do f <- write_dotbim b; read_dotbim coplanar f) = Ok b.
Proof. exact @bim_roundtrip_full. Qed.
Print Assumptions C22_bim_roundtrip.

Theorem C22_bim_drops_empty_containers :
  forall (X : Type) (coplanar : list (X * X * X) -> bool) (b : building_n (X * X * X) str),
  wf_building coplanar b ->
  (do f <- write_dotbim b; read_dotbim coplanar f) = Ok (prune (fun u => u) b).
Proof. exact @bim_roundtrip. Qed.
Print Assumptions C22_bim_drops_empty_containers.

Theorem C22_bim_rejects_foreign_files :
  forall (X : Type) (coplanar : list (X * X * X) -> bool) (f : bim (X := X)),
  (dget (f_info f) (str_of "generated_by") = None -> read_dotbim coplanar f = Err KeyError) /\
  (forall g, dget (f_info f) (str_of "generated_by") = Some g -> g <> str_of "Building3D" ->
     read_dotbim coplanar f = Err ValueError).
Proof. exact @bim_foreign. Qed.
Print Assumptions C22_bim_rejects_foreign_files.

(** Whatever the file holds, a building that is read is well formed, has the
    name and identifier of the file, and the meshes and elements of the file
    belong together one by one. *)
Theorem C22_reads_well_formed :
  forall (X : Type) (coplanar : list (X * X * X) -> bool) (f : bim (X := X)) (b : building_n (X * X * X) str),
  read_dotbim coplanar f = Ok b ->
  wf_building coplanar b /\ dget (f_info f) (str_of "building_name") = Some (n_name b) /\ dget (f_info f) (str_of "building_uid") = Some (n_uid b) /\
  (forall k co ix, In (k, co, ix) (f_meshes f) -> exists i, In (k, i) (f_elements f)) /\
  (forall k i, In (k, i) (f_elements f) -> exists co ix, In (k, co, ix) (f_meshes f)).
Proof. exact @bim_reads_wf. Qed.
Print Assumptions C22_reads_well_formed.

Example C22_instance : wf_building any house /\ no_empty house /\
  (do f <- write_dotbim house; read_dotbim any f) = Ok house.
Proof. split; [apply ok_house|]. split; [apply full_house|]. vm_compute. reflexivity. Qed.

Example C22_instance_foreign :
  read_dotbim any (mkBim (X := nat) [] [] [(str_of "generated_by", str_of "Another")]) = Err ValueError.
Proof. reflexivity. Qed.

(** C72.  A stored value is found after any later reads and writes that do not
    overwrite it or a dictionary above it. *)
Theorem C72_stored_values_are_read_back :
  forall (K V : Type) (H : EqDec K) (ops : list (jop K V)) (d d1 : jv K V) ks v,
  set_path ks v d = Ok d1 ->
  Forall (fun o => match o with JSet ks' _ => ~ prefix ks' ks | JGet _ => True end) ops ->
  find ks (jrun ops d1) = Some (JLeaf v).
Proof. exact @stored_value_survives. Qed.
Print Assumptions C72_stored_values_are_read_back.

(** Storing fails exactly when a value is in the way. *)
Theorem C72_storing_succeeds :
  forall (K V : Type) (H : EqDec K) ks (d : jv K V) v,
  (forall p u, prefix p ks -> p <> ks -> find p d <> Some (JLeaf u)) ->
  exists d', set_path ks v d = Ok d'.
Proof. exact @set_ok. Qed.
Print Assumptions C72_storing_succeeds.

Theorem C72_storing_below_a_value_fails :
  forall (K V : Type) (H : EqDec K) ks (d : jv K V) v p u,
  prefix p ks -> p <> ks -> find p d = Some (JLeaf u) ->
  set_path ks v d = Err TypeError /\ touch ks d = Err TypeError.
Proof. exact @set_type_error. Qed.
Print Assumptions C72_storing_below_a_value_fails.

(** Reading a missing place creates an empty dictionary there. *)
Theorem C72_reading_creates :
  forall (K V : Type) (H : EqDec K) ks (d d' : jv K V), touch ks d = Ok d' ->
  find ks d' = Some (match find ks d with Some x => x | None => JNode [] end).
Proof. exact @touch_find. Qed.
Print Assumptions C72_reading_creates.

(** Conversion keeps every path made of strings. *)
Theorem C72_conversion_keeps_string_paths :
  forall (V : Type) (ops : list (jop str V)) ks,
  find ks (to_plain (jrun (map str_op ops) (JNode []))) =
  option_map to_plain (find (map KStr ks) (jrun (map str_op ops) (JNode []))).
Proof. exact @conversion_faithful. Qed.
Print Assumptions C72_conversion_keeps_string_paths.

(** Keys that print alike collide: one of two stored values is lost. *)
Theorem C72_conversion_of_mixed_keys_refuted :
  exists (ops : list (jop jkey nat)) k1 v1 k2 v2,
    let d := jrun ops (JNode []) in
    k1 <> k2 /\ v1 <> v2 /\ find [k1] d = Some (JLeaf v1) /\ find [k2] d = Some (JLeaf v2) /\
    to_plain d = JNode [(print_key k1, JLeaf v2)].
Proof.
  exists [JSet [KInt 1] 10; JSet [KStr (str_of "1")] 20], (KInt 1), 10, (KStr (str_of "1")), 20.
  cbv zeta. repeat split; try discriminate; reflexivity.
Qed.
Print Assumptions C72_conversion_of_mixed_keys_refuted.

Example C72_instance :
  let ops := [JSet [str_of "a"; str_of "b"] 1; JGet [str_of "c"; str_of "d"]; JSet [str_of "a"; str_of "e"] 2] in
  let d := to_plain (jrun (map str_op ops) (JNode [])) in
  find [str_of "a"; str_of "b"] d = Some (JLeaf 1) /\ find [str_of "a"; str_of "e"] d = Some (JLeaf 2) /\
  find [str_of "c"; str_of "d"] d = Some (JNode []).
Proof. repeat split; reflexivity. Qed.
