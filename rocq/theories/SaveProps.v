(** Theorems C99 and C100: models saved to files. *)
From Coq Require Import Ascii String List Arith Bool Lia.
From Verif Require Import Prelude TreeModel MeshModel MeshSpec IoModel IoSpec IoProps StlModel StlSpec StlProps WildModel DirModel DirSpec DirProofs SaveModel SaveSpec SaveProofs.
Import ListNotations.

(** C99: the file holds what was written, everything above it is a directory,
    and nothing else changes. *)
Theorem C99_saved : forall C (st : disk C) s p c, disk_ok st -> file_path s p -> clear_above st p ->
  kind_of (d_fs st) p <> Some IsDir ->
  exists st', save st s true (Ok c) = (st', None) /\ disk_ok st' /\ written st st' p c /\ load st' s = inl c.
Proof. exact @save_ok. Qed.
Print Assumptions C99_saved.

(** Where a file is in the way, or a directory has that name, nothing changes. *)
Theorem C99_refused : forall C (st : disk C) s p c parent_dirs, disk_ok st -> file_path s p ->
  (forall q, leads_above q p -> kind_of (d_fs st) q = Some IsFile -> save st s parent_dirs (Ok c) = (st, Some (IoOs OsNotADir))) /\
  (kind_of (d_fs st) p = Some IsDir -> save st s parent_dirs (Ok c) = (st, Some IoIsADir)).
Proof. exact @save_refused. Qed.
Print Assumptions C99_refused.

(** Without parent_dirs nothing is made. *)
Theorem C99_no_parents : forall C (st : disk C) s p c, disk_ok st -> file_path s p -> clear_above st p ->
  (kind_of (d_fs st) (removelast p) = None -> save st s false (Ok c) = (st, Some (IoOs OsNotFound))) /\
  (kind_of (d_fs st) (removelast p) = Some IsDir -> save st s false (Ok c) = save st s true (Ok c)).
Proof. exact @save_no_parents. Qed.
Print Assumptions C99_no_parents.

(** A model that cannot be written leaves the directories behind, and the old
    files. *)
Theorem C99_raises : forall C (st : disk C) s p e, disk_ok st -> file_path s p -> clear_above st p ->
  exists st', save st s true (Err e) = (st', Some (IoRaised e)) /\ disk_ok st' /\ d_data st' = d_data st /\
    made (d_fs st) (d_fs st') (removelast p).
Proof. exact @save_raises'. Qed.
Print Assumptions C99_raises.

(** Other files read as before. *)
Theorem C99_others : forall C (st : disk C) s s' p p' c st' x, disk_ok st -> file_path s p -> file_path s' p' -> p' <> p ->
  save st s true (Ok c) = (st', None) -> load st s' = inl x -> load st' s' = inl x.
Proof. exact @save_others. Qed.
Print Assumptions C99_others.

(** What cannot be read. *)
Theorem C99_load_fails : forall C (st : disk C) s p, disk_ok st -> file_path s p ->
  (kind_of (d_fs st) p = Some IsDir -> load st s = inr IoIsADir) /\
  (forall q, leads_above q p -> kind_of (d_fs st) q = Some IsFile -> load st s = inr (IoOs OsNotADir)) /\
  (clear_above st p -> kind_of (d_fs st) p = None -> load st s = inr (IoOs OsNotFound)).
Proof. exact @load_fails. Qed.
Print Assumptions C99_load_fails.

Theorem C99_formats_load_fails : forall P X (cp : list P -> bool) (cx : list (X * X * X) -> bool) (parse : str -> option X) new_tri stj stb stt s e,
  (load stj s = inr e -> load_b3d cp stj s = inr e) /\ (load stb s = inr e -> load_dotbim cx stb s = inr e) /\ (load stt s = inr e -> load_stl parse new_tri stt s = inr e).
Proof. intros P X cp cx parse new_tri stj stb stt s e. unfold load_b3d, load_dotbim, load_stl. repeat split; intros ->; reflexivity. Qed.
Print Assumptions C99_formats_load_fails.

(** Each format: without parent_dirs nothing is made. *)
Theorem C99_b3d_no_parents : forall P U st s p (b : building_n P U), disk_ok st -> file_path s p -> clear_above st p ->
  kind_of (d_fs st) (removelast p) = None ->
  exists e, save_b3d st s b false = (st, Some e) /\ (forall c, write_b3d b = Ok c -> e = IoOs OsNotFound).
Proof. intros P U st s p b. exact (save_keeps st s p (write_b3d b)). Qed.
Print Assumptions C99_b3d_no_parents.
Theorem C99_dotbim_no_parents : forall X st s p (b : building_n (X * X * X) str), disk_ok st -> file_path s p -> clear_above st p ->
  kind_of (d_fs st) (removelast p) = None ->
  exists e, save_dotbim st s b false = (st, Some e) /\ (forall c, write_dotbim b = Ok c -> e = IoOs OsNotFound).
Proof. intros X st s p b. exact (save_keeps st s p (write_dotbim b)). Qed.
Print Assumptions C99_dotbim_no_parents.
Theorem C99_stl_no_parents : forall X (fmt : X -> str) st s p (b : sbuilding), disk_ok st -> file_path s p -> clear_above st p ->
  kind_of (d_fs st) (removelast p) = None ->
  exists e, save_stl fmt st s b false = (st, Some e) /\ (forall c, write_stl fmt b = Ok c -> e = IoOs OsNotFound).
Proof. intros X fmt st s p b. exact (save_keeps st s p (write_stl fmt b)). Qed.
Print Assumptions C99_stl_no_parents.

Definition demo_disk {C} (c : C) : disk C :=
  mkDisk [([str_of "out"], IsDir); ([str_of "out"; str_of "log"], IsFile)] [([str_of "out"; str_of "log"], c)].
Definition demo_path : list str := [str_of "out"; str_of "run"; str_of "house.b3d"].
Lemma demo_disk_ok : forall C (c : C), disk_ok (demo_disk c).
Proof.
  intros C c. split.
  - split; [|split; [|split]].
    + cbn. repeat constructor; cbn; intros H; repeat destruct H as [H|H]; try discriminate; auto.
    + cbn. intros H. repeat destruct H as [H|H]; try discriminate; auto.
    + cbn. intros H. repeat destruct H as [H|H]; try discriminate; auto.
    + intros p q I L. apply in_above in L. cbn in I. destruct I as [<-|[<-|[]]]; cbn in L;
        repeat destruct L as [<-|L]; try reflexivity; destruct L.
  - intros p K. cbn [demo_disk d_fs d_data] in *. destruct (fixed_dec p) as [F|(A & B)]; [rewrite kind_fixed in K by auto; discriminate|].
    rewrite kind_listed in K by auto. cbn [dget] in *. destruct (eq_dec p [str_of "out"]); [discriminate|]. destruct (eq_dec p _); discriminate.
Qed.
Lemma demo_tidy : forall n, n = str_of "house.b3d" \/ n = str_of "house.stl" -> file_path (str_of "out/run/" ++ n) [str_of "out"; str_of "run"; n].
Proof.
  assert (N : forall x : str, existsb (Ascii.eqb "/") x = false -> ~ In "/"%char x).
  { intros x E I. assert (existsb (Ascii.eqb "/") x = true) by (apply existsb_exists; exists "/"%char; auto). congruence. }
  intros n H. apply path_here. change (str_of "out/run/" ++ n) with (str_of "out" ++ "/"%char :: (str_of "run" ++ "/"%char :: n)).
  apply tidy_more; [discriminate|discriminate|apply N; reflexivity|]. apply tidy_more; [discriminate|discriminate|apply N; reflexivity|].
  destruct H as [-> | ->]; (apply tidy_one; [discriminate|discriminate|apply N; reflexivity]).
Qed.
Lemma demo_clear : forall C (c : C) n, clear_above (demo_disk c) [str_of "out"; str_of "run"; n].
Proof. intros C c n q L. apply in_above in L. cbn in L. repeat destruct L as [<-|L]; try discriminate; destruct L. Qed.

Example C99_example :
  disk_ok (demo_disk 5) /\ file_path (str_of "out/run/house.b3d") demo_path /\ clear_above (demo_disk 5) demo_path /\
  save (demo_disk 5) (str_of "out/run/house.b3d") true (Ok 8) =
    (mkDisk [([str_of "out"], IsDir); ([str_of "out"; str_of "log"], IsFile); ([str_of "out"; str_of "run"], IsDir); (demo_path, IsFile)]
            [([str_of "out"; str_of "log"], 5); (demo_path, 8)], None) /\
  save (demo_disk 5) (str_of "out/run/house.b3d") false (Ok 8) = (demo_disk 5, Some (IoOs OsNotFound)) /\
  save (demo_disk 5) (str_of "out/log/house.b3d") true (Ok 8) = (demo_disk 5, Some (IoOs OsNotADir)) /\
  save (demo_disk 5) (str_of "out") true (Ok 8) = (demo_disk 5, Some IoIsADir) /\
  load (fst (save (demo_disk 5) (str_of "out/log") true (Ok 8))) (str_of "out/log") = inl 8 /\
  load (demo_disk 5) (str_of "out") = inr IoIsADir /\ load (demo_disk 5) (str_of "out/log/x") = inr (IoOs OsNotADir) /\
  load (demo_disk 5) (str_of "out/x/y") = inr (IoOs OsNotFound).
Proof.
  split; [apply demo_disk_ok|]. split; [apply (demo_tidy (str_of "house.b3d")); auto|]. split; [apply demo_clear|]. vm_compute. repeat split; reflexivity.
Qed.

(** C100: a building saved is the building loaded, in each format. *)
Theorem C100_b3d : forall (P : Type) (coplanar : list P -> bool) (U : Type) (b : building_n P U) st s p,
  wf_building coplanar b -> n_kids b <> [] -> no_empty b ->
  disk_ok st -> file_path s p -> clear_above st p -> kind_of (d_fs st) p <> Some IsDir ->
  exists st', save_b3d st s b true = (st', None) /\ load_b3d coplanar st' s = inl (Ok (reuid (fun _ => tt) b)).
Proof. exact disk_b3d. Qed.
Print Assumptions C100_b3d.

Theorem C100_dotbim : forall (X : Type) (coplanar : list (X * X * X) -> bool) (b : building_n (X * X * X) str) st s p,
  wf_building coplanar b -> no_empty b ->
  disk_ok st -> file_path s p -> clear_above st p -> kind_of (d_fs st) p <> Some IsDir ->
  exists st', save_dotbim st s b true = (st', None) /\ load_dotbim coplanar st' s = inl (Ok b).
Proof. exact disk_dotbim. Qed.
Print Assumptions C100_dotbim.

(** Read from STL the building is named after the file. *)
Theorem C100_stl : forall (X : Type) (fmt : X -> str) (parse : str -> option X),
  (forall x, number_text (fmt x)) -> (forall x, parse (fmt x) = Some x) ->
  forall (new_tri : X * X * X -> X * X * X -> X * X * X -> result (list (X * X * X))) (b : sbuilding) st s ns n ext,
  (forall q, In q (concat b) -> clean_uid (fst q)) ->
  (forall q, In q (polys_in b) -> valid (sp_mesh q)) ->
  takes_triangles new_tri b ->
  disk_ok st -> file_path s (ns ++ [n ++ "."%char :: ext]) -> n <> [] -> ext <> [] -> ~ In "."%char ext ->
  clear_above st (ns ++ [n ++ "."%char :: ext]) -> kind_of (d_fs st) (ns ++ [n ++ "."%char :: ext]) <> Some IsDir ->
  exists st' r, save_stl fmt st s b true = (st', None) /\ load_stl parse new_tri st' s = inl (Ok (n, r)) /\
    map (map (map Some)) r = map solid_triangles (concat b).
Proof. exact disk_stl. Qed.
Print Assumptions C100_stl.

(** That name is always accepted. *)
Theorem C100_name : forall s p, file_path s p -> validate_name (stem s) = Ok (stem s).
Proof. exact stem_valid. Qed.
Print Assumptions C100_name.
Theorem C100_name_plain : forall s ns n, file_path s (ns ++ [n]) -> ~ In "."%char n -> stem s = n.
Proof. exact stem_plain. Qed.
Print Assumptions C100_name_plain.

Example C100_example :
  wf_building any house /\ no_empty house /\
  load_b3d any (fst (save_b3d (demo_disk (JNode [])) (str_of "out/run/house.b3d") house true)) (str_of "out/run/house.b3d") = inl (Ok (reuid (fun _ => tt) house)) /\
  file_path (str_of "out/run/house.stl") ([str_of "out"; str_of "run"] ++ [str_of "house" ++ "."%char :: str_of "stl"]) /\
  save_b3d (demo_disk (JNode [])) (str_of "out/run/house.b3d") house false = (demo_disk (JNode []), Some (IoOs OsNotFound)) /\
  stem (str_of "out/run/house.stl") = str_of "house" /\ stem (str_of "/a.b/.x") = str_of ".x" /\ stem (str_of "a/v1.2.stl") = str_of "v1.2".
Proof.
  split; [apply ok_house|]. split; [apply C21_instance|]. split; [vm_compute; reflexivity|].
  split; [apply (demo_tidy (str_of "house.stl")); auto|]. vm_compute. auto.
Qed.
