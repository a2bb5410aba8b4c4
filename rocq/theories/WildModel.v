(** Wildcard paths, on the text itself. *)
From Coq Require Import Ascii String List Arith Bool.
From Verif Require Import Prelude TreeModel MeshModel IoModel StlModel.
Import ListNotations.

Definition LT : ascii := "<"%char.
Definition GT : ascii := ">"%char.

(** WildcardPath.wrap (paths/wildcardpath.py:22-24). *)
Definition wrap (w : str) : str := [LT] ++ w ++ [GT].

(** [re.findall("<([^<>]+)>", s)] (line 201): [cur] is the text since the last
    "<", reversed. *)
Fixpoint findall_aux (s : str) (cur : option str) : list str :=
  match s with
  | [] => []
  | c :: s' =>
      if Ascii.eqb c LT then findall_aux s' (Some [])
      else if Ascii.eqb c GT then
        match cur with
        | Some ((_ :: _) as w) => rev w :: findall_aux s' None
        | _ => findall_aux s' None
        end
      else findall_aux s' (option_map (cons c) cur)
  end.
Definition findall (s : str) : list str := findall_aux s None.

(** Order of Python strings. *)
Fixpoint str_lt (a b : str) : bool :=
  match a, b with
  | _, [] => false
  | [], _ :: _ => true
  | x :: a', y :: b' =>
      if nat_of_ascii x <? nat_of_ascii y then true
      else if nat_of_ascii x =? nat_of_ascii y then str_lt a' b' else false
  end.

(** [sorted(list(set(ws)))] (line 205). *)
Fixpoint insert_sorted (w : str) (l : list str) : list str :=
  match l with
  | [] => [w]
  | x :: l' => if eqb w x then l else if str_lt w x then w :: l else x :: insert_sorted w l'
  end.
Definition sorted_set (ws : list str) : list str := fold_right insert_sorted [] ws.

(** [s.replace(old, new, 1)] *)
Fixpoint replace_one (old new s : str) : str :=
  match s with
  | [] => []
  | c :: s' => if starts_with old s then new ++ skipn (length old) s else c :: replace_one old new s'
  end.

(** [s.replace(old, new)]; [skip] characters of an occurrence remain. *)
Fixpoint replace_aux (old new s : str) (skip : nat) : str :=
  match s with
  | [] => []
  | c :: s' =>
      match skip with
      | S k => replace_aux old new s' k
      | O => if starts_with old s then new ++ replace_aux old new s' (length old - 1)
             else c :: replace_aux old new s' 0
      end
  end.
Definition replace_all (old new s : str) : str := replace_aux old new s 0.

(** Number of occurrences, [self._count] (lines 202-203). *)
Definition occurrences (w : str) (ws : list str) : nat := length (filter (eqb w) ws).

(** Group names, lines 207-209: the i-th occurrence of w is "w_i". *)
Definition group_name (w : str) (i : nat) : str := w ++ str_of "_" ++ decimal i.

(** The text put in place of a wildcard, line 227. *)
Definition group_text (g : str) : str := str_of "(?P<" ++ g ++ str_of ">\d+)".

(** _wildcards_to_regex (lines 213-229). *)
Definition regex_text (path : str) : str :=
  let ws := findall path in
  let body := fold_left (fun s w =>
      fold_left (fun s i => replace_one (wrap w) (group_text (group_name w i)) s) (seq 0 (occurrences w ws)) s)
    (sorted_set ws) path in
  str_of ".*" ++ body ++ str_of "/*$".

(** ** Regular expressions

    The part of Python's syntax that is needed: characters, ".", "c*", ".*",
    "$" and named groups of digits.  Anything else, and an invalid expression,
    is [ReError]. *)
Inductive item : Type :=
| RChar (c : ascii) | RAny | RStar (c : ascii) | RStarAny | REnd | RGroup (g : str).

Definition META : str := str_of "\^$*+?{}[]|()".

Fixpoint take_until (c : ascii) (s : str) : str :=
  match s with
  | [] => []
  | d :: s' => if Ascii.eqb d c then [] else d :: take_until c s'
  end.

(** The item at the front and its length. *)
Definition item_at (s : str) : option (item * nat) :=
  if starts_with (str_of "(?P<") s then
    let g := take_until GT (skipn 4 s) in
    if starts_with (str_of ">\d+)") (skipn (4 + length g) s) then Some (RGroup g, 4 + length g + 5) else None
  else
    match s with
    | [] => None
    | c :: s' =>
        if Ascii.eqb c "$" then Some (REnd, 1)
        else if memb c META then None
        else if starts_with (str_of "*") s' then Some (if Ascii.eqb c "." then RStarAny else RStar c, 2)
        else Some (if Ascii.eqb c "." then RAny else RChar c, 1)
    end.

Fixpoint parse_aux (s : str) (skip : nat) : result (list item) :=
  match s with
  | [] => Ok []
  | _ :: s' =>
      match skip with
      | S k => parse_aux s' k
      | O => match item_at s with
             | None => Err ReError
             | Some (it, n) => do r <- parse_aux s' (n - 1); Ok (it :: r)
             end
      end
  end.

Fixpoint groups (r : list item) : list str :=
  match r with
  | [] => []
  | RGroup g :: r' => g :: groups r'
  | _ :: r' => groups r'
  end.

Fixpoint distinct {A} `{EqDec A} (l : list A) : bool :=
  match l with [] => true | x :: l' => negb (memb x l') && distinct l' end.

(** [re.compile]: redefining a group name is an error. *)
Definition compile (s : str) : result (list item) :=
  do r <- parse_aux s 0;
  if distinct (groups r) then Ok r else Err ReError.

Definition is_digit (c : ascii) : bool :=
  let n := nat_of_ascii c in (48 <=? n) && (n <=? 57).

(** Length of the longest prefix of characters satisfying [f]. *)
Fixpoint run_len (f : ascii -> bool) (s : str) : nat :=
  match s with
  | [] => 0
  | c :: s' => if f c then S (run_len f s') else 0
  end.

(** All ways to match at the front of [s], in the order in which a
    backtracking matcher with greedy repetition tries them; each lists the
    groups.  [re.match] returns the first one. *)
Fixpoint matches (r : list item) (s : str) : list (list (str * str)) :=
  match r with
  | [] => [[]]
  | RChar c :: r' => match s with d :: s' => if Ascii.eqb c d then matches r' s' else [] | [] => [] end
  | RAny :: r' => match s with d :: s' => if Ascii.eqb d NL then [] else matches r' s' | [] => [] end
  | REnd :: r' => if eqb s [] || eqb s [NL] then matches r' s else []
  | RStarAny :: r' =>
      flat_map (fun k => matches r' (skipn k s)) (rev (seq 0 (S (run_len (fun c => negb (Ascii.eqb c NL)) s))))
  | RStar c :: r' =>
      flat_map (fun k => matches r' (skipn k s)) (rev (seq 0 (S (run_len (Ascii.eqb c) s))))
  | RGroup g :: r' =>
      flat_map (fun k => map (cons (g, firstn k s)) (matches r' (skipn k s))) (rev (seq 1 (run_len is_digit s)))
  end.
Definition re_match (r : list item) (s : str) : option (list (str * str)) := hd_error (matches r s).

(** int() of a string of digits. *)
Definition digit_val (c : ascii) : nat := nat_of_ascii c - 48.
Definition int_of (s : str) : nat := fold_left (fun n c => 10 * n + digit_val c) s 0.

(** [re.sub(r"_\d+$", "", gr)] (line 64), for names without line breaks. *)
Definition strip_index (g : str) : str :=
  let k := run_len is_digit (rev g) in
  match skipn k (rev g) with
  | c :: r => if (1 <=? k) && Ascii.eqb c "_" then rev r else g
  | [] => g
  end.

(** ** The class *)
Section Wild.
  (** namedtuple accepts the field name: an identifier, no keyword, not
      starting with an underscore. *)
  Context (name_ok : str -> bool).

  (** path, wildcards, regex text. *)
  Record wpath := mkWP { wp_path : str; wp_wildcards : list str; wp_regex : str }.

  (** WildcardPath.__init__ (lines 14-20). *)
  Definition new_wpath (path : str) : result wpath :=
    let ws := sorted_set (findall path) in
    if forallb name_ok ws then Ok (mkWP path ws (regex_text path)) else Err ValueError.

  (** os.path.join for a non-empty parent (posix). *)
  Definition path_join (parent path : str) : str :=
    if starts_with (str_of "/") path then path
    else if starts_with (str_of "/") (rev parent) then parent ++ path
    else parent ++ str_of "/" ++ path.

  (** fill (lines 123-166); values are given as printed by str(). *)
  Definition fill (wp : wpath) (parent : str) (kwargs : dict str str) : result str :=
    if negb (length kwargs =? length (wp_wildcards wp)) then Err ValueError
    else
      do path <- foldM (fun path kv =>
          if memb (fst kv) (wp_wildcards wp) then Ok (replace_all (wrap (fst kv)) (snd kv) path)
          else Err KeyError) kwargs (wp_path wp);
      Ok (if 0 <? length parent then path_join parent path else path).

  (** Lines 60-70 for one path: None if it does not match. *)
  Definition read_groups (gs : list (str * str)) : result (dict str nat) :=
    foldM (fun d g =>
      let wname := strip_index (fst g) in
      match dget d wname with
      | None => Ok (dset d wname (int_of (snd g)))
      | Some v => if int_of (snd g) =? v then Ok d else Err AssertionError
      end) gs [].

  Definition read_path (r : list item) (f : str) : result (option (dict str nat)) :=
    match re_match r f with
    | None => Ok None
    | Some gs => do d <- read_groups gs; Ok (Some d)
    end.

  (** get_matching_paths_dict_values (lines 34-71); [listing] is what the glob
      below the parent returns. *)
  Definition dict_values (wp : wpath) (listing : list str) : result (dict str (dict str nat)) :=
    do r <- compile (wp_regex wp);
    foldM (fun paths f => do m <- read_path r f;
                          Ok (match m with Some d => dset paths f d | None => paths end)) listing [].

  (** get_matching_paths (lines 99-121): counting the agreements. *)
  Definition count_matching (wd : dict str nat) (kwargs : dict str nat) : nat :=
    fold_left (fun n wv =>
      fold_left (fun n kv => if eqb (fst kv) (fst wv) && eqb (snd kv) (snd wv) then S n else n) kwargs n) wd 0.

  Definition filter_paths (path_dict : dict str (dict str nat)) (kwargs : dict str nat) : list str :=
    if length kwargs =? 0 then dkeys path_dict
    else map fst (filter (fun pw => count_matching (snd pw) kwargs =? length kwargs) path_dict).

  Definition matching_paths (wp : wpath) (listing : list str) (kwargs : dict str nat) : result (list str) :=
    do path_dict <- dict_values wp listing;
    Ok (filter_paths path_dict kwargs).

  (** get_matching_paths_namedtuple_keys (lines 73-97, 231-254): the tuple's
      fields are the sorted wildcards; a missing or unknown field is TypeError. *)
  Definition case_of (wp : wpath) (wd : dict str nat) : result (list nat) :=
    if (length wd =? length (wp_wildcards wp)) then
      mapM (fun w => match dget wd w with Some v => Ok v | None => Err TypeError end) (wp_wildcards wp)
    else Err TypeError.

  Definition namedtuple_keys (wp : wpath) (listing : list str) : result (dict (list nat) str) :=
    do path_dict <- dict_values wp listing;
    foldM (fun d pw => do c <- case_of wp (snd pw); Ok (dset d c (fst pw))) path_dict [].
End Wild.
