(** Writing models to files: parent directories and contents. *)
From Coq Require Import Ascii String List Arith Bool.
From Verif Require Import Prelude TreeModel MeshModel IoModel StlModel WildModel DirModel.
Import ListNotations.

(** Files with what was written to them; [C] is what a format writes (text, or
    the dictionary given to json).  As in DirModel.v there are no links and
    permissions, and paths ending with a slash are left out. *)
Record disk (C : Type) := mkDisk { d_fs : fsys; d_data : dict (list str) C }.
Arguments mkDisk {C}. Arguments d_fs {C}. Arguments d_data {C}.

Inductive io_err : Type := IoOs (e : os_err) | IoIsADir | IoRaised (e : pyerr).

(** [p.parent] and [p.parent.exists()] of pathlib; a path below a file does not
    exist. *)
Definition parent_of (p : list str) : list str := if eqb p [str_of "/"] then p else removelast p.
Definition path_exists (fs : fsys) (p : list str) : bool :=
  match kind_of fs p with Some _ => true | None => false end.

(** [Path.mkdir(parents=True)] of pathlib, [exist_ok] being False: the parents
    are made with [exist_ok=True]. *)
Definition path_mkdir_new (fs : fsys) (p : list str) : os_result fsys :=
  match os_mkdir fs p with
  | Failed OsNotFound =>
      match path_mkdir fs (parent_of p) with
      | Failed e => Failed e
      | Done fs1 => os_mkdir fs1 p
      end
  | r => r
  end.

(** [open(path, "w")] and writing; [open(path, "r")] and reading. *)
Definition lookup_dirs (fs : fsys) (p : list str) : option os_err :=
  match find (fun q => negb (is_dir fs q)) (above p) with
  | Some q => Some (match kind_of fs q with None => OsNotFound | Some _ => OsNotADir end)
  | None => None
  end.
Definition put_file {C} (st : disk C) (p : list str) (c : C) : disk C * option io_err :=
  match lookup_dirs (d_fs st) p with
  | Some e => (st, Some (IoOs e))
  | None => match kind_of (d_fs st) p with
            | Some IsDir => (st, Some IoIsADir)
            | _ => (mkDisk (dset (d_fs st) p IsFile) (dset (d_data st) p c), None)
            end
  end.
Definition load {C} (st : disk C) (path : str) : C + io_err :=
  let p := parts path in
  match lookup_dirs (d_fs st) p with
  | Some e => inr (IoOs e)
  | None => match kind_of (d_fs st) p with
            | None => inr (IoOs OsNotFound)
            | Some IsDir => inr IoIsADir
            | Some IsFile => match dget (d_data st) p with Some c => inl c | None => inr (IoOs OsNotFound) end
            end
  end.

(** write_b3d, write_dotbim, write_stl (io/b3d.py:45-78, io/dotbim.py:22-96,
    io/stl.py:40-85): parent directories first, then the content, which may
    raise, then the file. *)
Definition save {C} (st : disk C) (path : str) (parent_dirs : bool) (content : result C) : disk C * option io_err :=
  let p := parts path in
  let after := if parent_dirs && negb (path_exists (d_fs st) (parent_of p))
               then path_mkdir_new (d_fs st) (parent_of p) else Done (d_fs st) in
  match after with
  | Failed e => (st, Some (IoOs e))
  | Done fs1 =>
      let st1 := mkDisk fs1 (d_data st) in
      match content with
      | Err e => (st1, Some (IoRaised e))
      | Ok c => put_file st1 p c
      end
  end.

(** The three formats. *)
Definition save_b3d {P U} (st : disk (jv str (bval (P := P)))) (path : str) (b : building_n P U) (parent_dirs : bool) :=
  save st path parent_dirs (write_b3d b).
Definition load_b3d {P} (coplanar : list P -> bool) (st : disk (jv str (bval (P := P)))) (path : str) : result (building_n P Datatypes.unit) + io_err :=
  match load st path with inl d => inl (read_b3d coplanar d) | inr e => inr e end.
Definition save_dotbim {X} (st : disk (bim (X := X))) (path : str) (b : building_n (X * X * X) str) (parent_dirs : bool) :=
  save st path parent_dirs (write_dotbim b).
Definition load_dotbim {X} (coplanar : list (X * X * X) -> bool) (st : disk (bim (X := X))) (path : str) : result (building_n (X * X * X) str) + io_err :=
  match load st path with inl d => inl (read_dotbim coplanar d) | inr e => inr e end.

(** [Path(path).stem] of pathlib (io/stl.py:99): the last name without its
    suffix; a dot at either end starts no suffix. *)
Fixpoint rfind_dot (s : str) (i : nat) (found : option nat) : option nat :=
  match s with
  | [] => found
  | c :: s' => rfind_dot s' (S i) (if Ascii.eqb c "." then Some i else found)
  end.
Definition stem (path : str) : str :=
  let name := last (parts path) [] in
  match rfind_dot name 0 None with
  | Some i => if (0 <? i) && (i <? length name - 1) then firstn i name else name
  | None => name
  end.

(** write_stl and read_stl (io/stl.py:40-85, 86-178); the name is that of the
    building read. *)
Definition save_stl {X} (fmt : X -> str) (st : disk str) (path : str) (b : sbuilding (X := X)) (parent_dirs : bool) :=
  save st path parent_dirs (write_stl fmt b).
Definition load_stl {X} (parse : str -> option X) (new_tri : X * X * X -> X * X * X -> X * X * X -> result (list (X * X * X)))
    (st : disk str) (path : str) : result (str * list (list (list (X * X * X)))) + io_err :=
  match load st path with
  | inl text => inl (do solids <- read_stl parse new_tri text; Ok (stem path, solids))
  | inr e => inr e
  end.
