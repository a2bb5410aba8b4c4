(** Properties of the log file (C137). *)
From Coq Require Import Ascii String List Bool Lia.
From Verif Require Import Prelude DirModel DirSpec SaveModel SaveSpec SaveProofs SaveProps LogModel.
Import ListNotations.

Lemma logger_some {C} (e : C) st s : init_logger e st (Some s) = save st s true (Ok e).
Proof. reflexivity. Qed.
Lemma logger_none {C} (e : C) st : init_logger e st None = save st log_file false (Ok e).
Proof. reflexivity. Qed.
Lemma no_slash (x : str) : existsb (Ascii.eqb "/") x = false -> ~ In "/"%char x.
Proof. intros E I. assert (existsb (Ascii.eqb "/") x = true) by (apply existsb_exists; exists "/"%char; auto). congruence. Qed.
Lemma log_path : file_path (str_of "b3d.log") [str_of "b3d.log"].
Proof. apply path_here, tidy_one; [discriminate|discriminate|apply no_slash; reflexivity]. Qed.

(** ** C137: init_logger *)
(** A log file with a given name is made or emptied, with the directories above
    it; nothing else changes. *)
Theorem C137_named : forall C (empty : C) st s p, disk_ok st -> file_path s p -> clear_above st p -> kind_of (d_fs st) p <> Some IsDir ->
  exists st', init_logger empty st (Some s) = (st', None) /\ disk_ok st' /\ written st st' p empty.
Proof. intros C empty st s p D F A K. destruct (save_ok st s p empty D F A K) as (st' & E & D' & W & _). exists st'. rewrite logger_some. auto. Qed.
Print Assumptions C137_named.
(** Where a file or a directory is in the way, nothing changes. *)
Theorem C137_refused : forall C (empty : C) st s p, disk_ok st -> file_path s p ->
  (forall q, leads_above q p -> kind_of (d_fs st) q = Some IsFile -> init_logger empty st (Some s) = (st, Some (IoOs OsNotADir))) /\
  (kind_of (d_fs st) p = Some IsDir -> init_logger empty st (Some s) = (st, Some IoIsADir)).
Proof. intros C empty st s p D F. exact (save_refused st s p empty true D F). Qed.
Print Assumptions C137_refused.
(** Without a name it is b3d.log in the current directory, also if there is one
    from an earlier run: its content is lost. *)
Theorem C137_default : forall C (empty : C) st, disk_ok st ->
  (kind_of (d_fs st) [str_of "b3d.log"] <> Some IsDir -> exists st', init_logger empty st None = (st', None) /\ disk_ok st' /\
     kind_of (d_fs st') [str_of "b3d.log"] = Some IsFile /\ load st' (str_of "b3d.log") = inl empty /\
     forall q, q <> [str_of "b3d.log"] -> kind_of (d_fs st') q = kind_of (d_fs st) q /\ dget (d_data st') q = dget (d_data st) q) /\
  (kind_of (d_fs st) [str_of "b3d.log"] = Some IsDir -> init_logger empty st None = (st, Some IoIsADir)).
Proof.
  intros C empty st D. rewrite logger_none. fold log_file.
  assert (Ab : forall q, leads_above q [log_file] -> q = []) by (intros q (x & r & E); destruct q as [|y [|z q]]; [reflexivity|discriminate|discriminate]).
  assert (Cur : kind_of (d_fs st) [] = Some IsDir) by reflexivity.
  assert (Cl : clear_above st [log_file]) by (intros q L; rewrite (Ab q L), Cur; discriminate). split.
  - intros K. rewrite (proj2 (C99_no_parents C st log_file [log_file] empty D log_path Cl) Cur). destruct (save_ok st log_file [log_file] empty D log_path Cl K) as (st' & E & D' & (W1 & W2 & W3 & W4 & W5) & Ld). exists st'. split; [exact E|]. split; [exact D'|]. split; [exact W1|]. split; [exact Ld|].
    intros q N. split; [|apply W5, N]. destruct q as [|y q]; [rewrite Cur; apply W3; exists log_file, []; reflexivity|]. apply W4. intros (r & X). destruct q; [|discriminate X]. injection X as X _. apply N. f_equal. symmetry. exact X.
  - intros K. exact (proj2 (save_refused st log_file [log_file] empty false D log_path) K).
Qed.
Print Assumptions C137_default.

(** A log in a new directory, one that exists, and the default one. *)
Example C137_example : disk_ok (demo_disk 5) /\ file_path (str_of "out/run/house.b3d") demo_path /\ clear_above (demo_disk 5) demo_path /\ kind_of (d_fs (demo_disk 5)) demo_path = None /\
  init_logger 0 (demo_disk 5) (Some (str_of "out/run/house.b3d")) =
    (mkDisk [([str_of "out"], IsDir); ([str_of "out"; str_of "log"], IsFile); ([str_of "out"; str_of "run"], IsDir); (demo_path, IsFile)] [([str_of "out"; str_of "log"], 5); (demo_path, 0)], None) /\
  load (fst (init_logger 0 (demo_disk 5) (Some (str_of "out/log")))) (str_of "out/log") = inl 0 /\
  init_logger 0 (demo_disk 5) (Some (str_of "out")) = (demo_disk 5, Some IoIsADir) /\
  init_logger 0 (demo_disk 5) (Some (str_of "out/log/x")) = (demo_disk 5, Some (IoOs OsNotADir)) /\
  load (fst (init_logger 0 (demo_disk 5) None)) (str_of "b3d.log") = inl 0.
Proof. split; [apply C99_example|]. split; [apply C99_example|]. split; [apply C99_example|]. vm_compute. repeat split; reflexivity. Qed.
