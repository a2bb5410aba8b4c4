(** Specification vocabulary for wildcard paths. *)
From Coq Require Import Ascii String List Arith Bool.
From Verif Require Import Prelude IoModel.
Import ListNotations.

(** Templates as literals and wildcards. *)
Inductive tok : Type := Lit (s : str) | Wild (w : str).

Definition no_angle (s : str) : Prop := ~ In "<"%char s /\ ~ In ">"%char s.
Definition tok_ok (t : tok) : Prop :=
  match t with Lit s => no_angle s | Wild w => w <> [] /\ no_angle w end.

(** The text given to WildcardPath. *)
Definition render (ts : list tok) : str :=
  concat (map (fun t => match t with Lit s => s | Wild w => "<"%char :: w ++ [">"%char] end) ts).

Definition wild_names (ts : list tok) : list str :=
  flat_map (fun t => match t with Lit _ => [] | Wild w => [w] end) ts.

(** The text with each wildcard replaced by its value. *)
Definition filled (val : str -> str) (ts : list tok) : str :=
  concat (map (fun t => match t with Lit s => s | Wild w => val w end) ts).

(** kw assigns [val] to exactly the names in [ws]. *)
Definition assigns (kw : dict str str) (val : str -> str) (ws : list str) : Prop :=
  NoDup (dkeys kw) /\ (forall k, In k (dkeys kw) <-> In k ws) /\
  (forall k v, In (k, v) kw -> v = val k).

(** No name is another one followed by an underscore and a number. *)
Definition no_index_clash (ws : list str) : Prop :=
  forall w w' i, In w ws -> In w' ws -> w' <> w ++ "_"%char :: decimal i.

Definition digit_char (c : ascii) : Prop := In c (str_of "0123456789").
Definition meta_char (c : ascii) : Prop := In c (str_of "\^$*+?{}[]|()").

(** Literals without digits and regular-expression characters; [plain] ones
    contain no "." either. *)
Definition quiet (s : str) : Prop := no_angle s /\ forall c, In c s -> ~ digit_char c /\ ~ meta_char c.
Definition plain (s : str) : Prop := quiet s /\ ~ In "."%char s.

(** A literal followed by wildcards, each followed by a literal. *)
Definition template (L0 : str) (segs : list (str * str)) : list tok :=
  Lit L0 :: flat_map (fun wl => [Wild (fst wl); Lit (snd wl)]) segs.

(** Wildcards are separated by non-empty plain literals; the last literal may
    be empty and may contain "." *)
Fixpoint separated (segs : list (str * str)) : Prop :=
  match segs with
  | [] => True
  | [(_, l)] => quiet l
  | (_, l) :: segs' => l <> [] /\ plain l /\ separated segs'
  end.

Definition good_names (ws : list str) : Prop :=
  Forall (fun w => w <> [] /\ no_angle w) ws /\ no_index_clash ws.

(** What reading back must give: exactly the wildcards with their numbers. *)
Definition reads_back (d : dict str nat) (num : str -> nat) (ws : list str) : Prop :=
  NoDup (dkeys d) /\ (forall w, In w (dkeys d) <-> In w ws) /\ (forall w n, In (w, n) d -> n = num w).

(** Joining a directory and a path the way os.path.join does. *)
Definition joins_to (parent s r : str) : Prop :=
  (parent = [] -> r = s) /\
  (parent <> [] -> (exists t, s = "/"%char :: t) -> r = s) /\
  (parent <> [] -> ~ (exists t, s = "/"%char :: t) -> (exists q, parent = q ++ ["/"%char]) -> r = parent ++ s) /\
  (parent <> [] -> ~ (exists t, s = "/"%char :: t) -> ~ (exists q, parent = q ++ ["/"%char]) -> r = parent ++ "/"%char :: s).

(** The keywords are exactly the wildcards. *)
Definition exact_keys (kw : dict str str) (ws : list str) : Prop := forall k, In k (dkeys kw) <-> In k ws.
