(** Specification vocabulary for files written. *)
From Coq Require Import Ascii String List Arith Bool.
From Verif Require Import Prelude DirModel DirSpec SaveModel.
Import ListNotations.

(** The names on the way to a file, for a path relative or from the root. *)
Inductive file_path : str -> list str -> Prop :=
| path_here s p : tidy s p -> file_path s p
| path_root s p : tidy s p -> file_path ("/"%char :: s) (str_of "/" :: p).

(** Everything lies in directories and every file has a content. *)
Definition disk_ok {C} (st : disk C) : Prop :=
  fs_ok (d_fs st) /\ forall p, kind_of (d_fs st) p = Some IsFile -> dget (d_data st) p <> None.

(** p now holds c, everything above it is a directory, nothing else changed. *)
Definition written {C} (st st' : disk C) (p : list str) (c : C) : Prop :=
  kind_of (d_fs st') p = Some IsFile /\ dget (d_data st') p = Some c /\
  (forall q, leads_above q p -> kind_of (d_fs st') q = Some IsDir) /\
  (forall q, ~ leads_to q p -> kind_of (d_fs st') q = kind_of (d_fs st) q) /\
  (forall q, q <> p -> dget (d_data st') q = dget (d_data st) q).

(** Nothing above p is a file. *)
Definition clear_above {C} (st : disk C) (p : list str) : Prop :=
  forall q, leads_above q p -> kind_of (d_fs st) q <> Some IsFile.
