(** Specification vocabulary for made directories. *)
From Coq Require Import Ascii String List Arith Bool.
From Verif Require Import Prelude IoModel WildSpec DirModel.
Import ListNotations.

(** A path above another one, or that one. *)
Definition leads_to (q p : list str) : Prop := exists r, p = q ++ r.
Definition leads_above (q p : list str) : Prop := exists x r, p = q ++ x :: r.

(** Everything listed lies in directories; the current directory and the root
    are not listed. *)
Definition fs_ok (fs : fsys) : Prop :=
  NoDup (dkeys fs) /\ ~ In [] (dkeys fs) /\ ~ In [str_of "/"] (dkeys fs) /\
  forall p q, In p (dkeys fs) -> leads_above q p -> kind_of fs q = Some IsDir.

(** The file system after making p. *)
Definition made (fs fs' : fsys) (p : list str) : Prop :=
  (forall q, leads_to q p -> kind_of fs' q = Some IsDir) /\
  (forall q, ~ leads_to q p -> kind_of fs' q = kind_of fs q).

(** A relative path of names separated by single slashes. *)
Inductive tidy : str -> list str -> Prop :=
| tidy_one n : n <> [] -> n <> str_of "." -> ~ In "/"%char n -> tidy n [n]
| tidy_more n s ns : n <> [] -> n <> str_of "." -> ~ In "/"%char n -> tidy s ns -> tidy (n ++ "/"%char :: s) (n :: ns).

(** The text of a template in which every wildcard stands for its number in d,
    possibly with zeros in front. *)
Inductive reads (d : dict str nat) : list tok -> str -> Prop :=
| reads_nil : reads d [] []
| reads_lit s ts t : reads d ts t -> reads d (Lit s :: ts) (s ++ t)
| reads_wild w k n ts t : dget d w = Some n -> reads d ts t ->
    reads d (Wild w :: ts) (repeat "0"%char k ++ decimal n ++ t).

(** Slashes, and at most one line break after them. *)
Definition only_slashes (s : str) : Prop := exists m, s = repeat "/"%char m \/ s = repeat "/"%char m ++ ["010"%char].

(** Literals that stand for themselves in a regular expression. *)
Definition bare (ts : list tok) : Prop :=
  forall s, In (Lit s) ts -> forall c, In c s -> ~ meta_char c /\ c <> "."%char.

(** Entries are named by one or more names without slashes and line breaks,
    possibly below the root. *)
Definition names_ok (fs : fsys) : Prop :=
  forall p, In p (dkeys fs) -> exists root ns, p = root ++ ns /\ (root = [] \/ root = [str_of "/"]) /\ ns <> [] /\
    Forall (fun n => n <> [] /\ ~ In "/"%char n /\ ~ In "010"%char n) ns.
