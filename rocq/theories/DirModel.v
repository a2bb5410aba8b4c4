(** Making directories from wildcard paths and listing them again. *)
From Coq Require Import Ascii String List Arith Bool.
From Verif Require Import Prelude TreeModel MeshModel IoModel StlModel WildModel.
Import ListNotations.

(** ** Paths

    [Path(s).parts] of pathlib on posix: the components, without empty ones
    and "."; "/" comes first for absolute paths.  Two leading slashes count as
    one, and ".." has no special meaning here. *)
Fixpoint split_slash (s : str) : list str :=
  match s with
  | [] => [[]]
  | c :: s' =>
      if Ascii.eqb c "/" then [] :: split_slash s'
      else match split_slash s' with p :: ps => (c :: p) :: ps | [] => [[c]] end
  end.
Definition parts (s : str) : list str :=
  (if starts_with (str_of "/") s then [str_of "/"] else []) ++
  filter (fun c => negb (eqb c [] || eqb c (str_of "."))) (split_slash s).

(** [str(path)]. *)
Fixpoint join_slash (ps : list str) : str :=
  match ps with
  | [] => []
  | [p] => p
  | p :: ps' => p ++ str_of "/" ++ join_slash ps'
  end.
Definition str_path (ps : list str) : str :=
  match ps with
  | [] => str_of "."
  | p :: ps' => if eqb p (str_of "/") then str_of "/" ++ join_slash ps' else join_slash ps
  end.

(** ** The file system

    What the operating system does, with names relative to the current
    directory and absolute names kept apart; no links and permissions.  The
    current directory and the root always exist. *)
Inductive kind : Type := IsDir | IsFile.
Definition fsys : Type := dict (list str) kind.

Definition kind_of (fs : fsys) (p : list str) : option kind :=
  if eqb p [] || eqb p [str_of "/"] then Some IsDir else dget fs p.
Definition is_dir (fs : fsys) (p : list str) : bool :=
  match kind_of fs p with Some IsDir => true | _ => false end.

Inductive os_err : Type := OsExists | OsNotFound | OsNotADir.
Inductive os_result (A : Type) : Type := Done (a : A) | Failed (e : os_err).
Arguments Done {A} a.
Arguments Failed {A} e.

(** [os.mkdir]: the directories above are looked up one after the other. *)
Definition above (p : list str) : list (list str) := map (fun k => firstn k p) (seq 0 (length p)).
Definition os_mkdir (fs : fsys) (p : list str) : os_result fsys :=
  match find (fun q => negb (is_dir fs q)) (above p) with
  | Some q => Failed (match kind_of fs q with None => OsNotFound | Some _ => OsNotADir end)
  | None => match kind_of fs p with
            | None => Done (dset fs p IsDir)
            | Some _ => Failed OsExists
            end
  end.

(** [Path.mkdir(parents=True, exist_ok=True)] of pathlib; the path is given
    from its end.  The second attempt is made with [parents=False]. *)
Definition exist_ok (fs : fsys) (p : list str) (e : os_err) : os_result fsys :=
  if is_dir fs p then Done fs else Failed e.
Fixpoint mkdir_rev (fs : fsys) (r : list str) : os_result fsys :=
  match os_mkdir fs (rev r) with
  | Done fs' => Done fs'
  | Failed OsNotFound =>
      match r with
      | [] => Failed OsNotFound
      | _ :: r' =>
          match mkdir_rev fs r' with
          | Failed e => Failed e
          | Done fs1 =>
              match os_mkdir fs1 (rev r) with
              | Done fs' => Done fs'
              | Failed OsNotFound => Failed OsNotFound
              | Failed e => exist_ok fs1 (rev r) e
              end
          end
      end
  | Failed e => exist_ok fs (rev r) e
  end.
Definition path_mkdir (fs : fsys) (p : list str) : os_result fsys := mkdir_rev fs (rev p).

(** WildcardPath.mkdir (paths/wildcardpath.py:168-195): the path made and the
    file system after it. *)
Definition mkdir (fs : fsys) (wp : wpath) (parent : str) (kwargs : dict str str) : result (os_result (str * fsys)) :=
  do path <- fill wp parent kwargs;
  Ok (match path_mkdir fs (parts path) with
      | Done fs' => Done (str_path (parts path), fs')
      | Failed e => Failed e
      end).

(** [Path(parent).glob("**/*")] as strings (paths/wildcardpath.py:56-57): all
    entries below the parent. *)
Definition below (fs : fsys) (p : list str) : list (list str) :=
  filter (fun q => (length p <? length q) && eqb (firstn (length p) q) p) (dkeys fs).
Definition glob (fs : fsys) (parent : str) : list str := map str_path (below fs (parts parent)).

(** get_matching_paths_dict_values (paths/wildcardpath.py:34-71) on it. *)
Definition find_dirs (fs : fsys) (wp : wpath) (parent : str) : result (dict str (dict str nat)) :=
  dict_values wp (glob fs parent).
