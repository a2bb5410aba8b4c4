(** The log file (logger/__init__.py). *)
From Coq Require Import Ascii String List Bool.
From Verif Require Import Prelude DirModel SaveModel.
Import ListNotations.

(** LOG_FILE (config.py:4). *)
Definition log_file : str := str_of "b3d.log".

(** init_logger (logger/__init__.py:8-22): directories for a given name only, then
    basicConfig, which opens the file for writing at once (filemode "w").
    [empty] is the empty text.  Simplification: what is logged later is outside. *)
Definition init_logger {C} (empty : C) (st : disk C) (logfile : option str) : disk C * option io_err :=
  let made := match logfile with
              | Some s => if negb (path_exists (d_fs st) (parent_of (parts s)))
                          then path_mkdir_new (d_fs st) (parent_of (parts s)) else Done (d_fs st)
              | None => Done (d_fs st)
              end in
  match made with
  | Failed e => (st, Some (IoOs e))
  | Done fs1 => put_file (mkDisk fs1 (d_data st)) (parts (match logfile with Some s => s | None => log_file end)) empty
  end.
