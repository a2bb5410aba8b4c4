(** The STL text format, character by character. *)
From Coq Require Import Ascii String List Arith Bool.
From Verif Require Import Prelude TreeModel MeshModel.
Import ListNotations.

(** Python's white space among the characters 0-255. *)
Definition is_space (c : ascii) : bool :=
  let n := nat_of_ascii c in
  ((9 <=? n) && (n <=? 13)) || ((28 <=? n) && (n <=? 32)) || (n =? 133) || (n =? 160).

Fixpoint lstrip (s : str) : str :=
  match s with
  | [] => []
  | c :: s' => if is_space c then lstrip s' else s
  end.

(** [s.strip()] *)
Definition strip (s : str) : str := rev (lstrip (rev (lstrip s))).

Fixpoint starts_with (p s : str) : bool :=
  match p, s with
  | [], _ => true
  | _, [] => false
  | a :: p', b :: s' => Ascii.eqb a b && starts_with p' s'
  end.

(** [s.split(sep)] for a non-empty separator: leftmost, non-overlapping. *)
Fixpoint split_sub_aux (sep s cur : str) (skip : nat) : list str :=
  match s with
  | [] => [rev cur]
  | c :: s' =>
      match skip with
      | S k => split_sub_aux sep s' cur k
      | O =>
          if starts_with sep s then rev cur :: split_sub_aux sep s' [] (length sep - 1)
          else split_sub_aux sep s' (c :: cur) 0
      end
  end.
Definition split_sub (sep s : str) : list str := split_sub_aux sep s [] 0.

Definition NL : ascii := "010"%char.
Definition CR : ascii := "013"%char.

(** [f.readlines()] of a text file: lines keep their line end.  Universal
    newlines turn CR and CR LF into LF. *)
Fixpoint readlines_aux (s cur : str) : list str :=
  match s with
  | [] => match cur with [] => [] | _ => [rev cur] end
  | c :: s' =>
      if Ascii.eqb c NL then rev (NL :: cur) :: readlines_aux s' []
      else if Ascii.eqb c CR then
        match s' with
        | d :: s'' => if Ascii.eqb d NL then rev (NL :: cur) :: readlines_aux s'' []
                      else rev (NL :: cur) :: readlines_aux s' []
        | [] => [rev (NL :: cur)]
        end
      else readlines_aux s' (c :: cur)
  end.
Definition readlines (s : str) : list str := readlines_aux s [].

Section Stl.
  (** Numbers: [fmt] prints one inside an f-string, [parse] is float(). *)
  Context {X : Type} (fmt : X -> str) (parse : str -> option X).
  Notation P := (X * X * X)%type.

  Record spoly := mkSP { sp_vn : P; sp_mesh : mesh (P := P) }.
  (** A solid: uid and walls of polygons. *)
  Definition ssolid := (str * list (list spoly))%type.
  (** A building: zones of solids. *)
  Definition sbuilding := list (list ssolid).

  Definition sp : str := str_of " ".
  Definition nl : str := [NL].
  Definition coords3 (p : P) : str :=
    let '(x, y, z) := p in fmt x ++ sp ++ fmt y ++ sp ++ fmt z.
  Definition vertex_line (p : P) : str := str_of "      vertex " ++ coords3 p ++ nl.

  (** io/stl.py:71-81 *)
  Definition facet_lines (q : spoly) (f : face) : result (list str) :=
    let '(a, b, c) := f in
    do v1 <- lookup_row (fst (sp_mesh q)) a;
    do v2 <- lookup_row (fst (sp_mesh q)) b;
    do v3 <- lookup_row (fst (sp_mesh q)) c;
    Ok [str_of "  facet normal " ++ coords3 (sp_vn q) ++ nl;
        str_of "    outer loop" ++ nl;
        vertex_line v1; vertex_line v2; vertex_line v3;
        str_of "    endloop" ++ nl;
        str_of "  endfacet" ++ nl].

  Fixpoint concatM {A B} (f : A -> result (list B)) (l : list A) : result (list B) :=
    match l with
    | [] => Ok []
    | x :: l' => do r <- f x; do rs <- concatM f l'; Ok (r ++ rs)
    end.

  Definition solid_lines (s : ssolid) : result (list str) :=
    let '(uid, walls) := s in
    do body <- concatM (fun w => concatM (fun q => concatM (facet_lines q) (snd (sp_mesh q))) w) walls;
    Ok ([str_of "solid " ++ uid ++ nl] ++ body ++ [str_of "endsolid " ++ uid ++ nl]).

  (** write_stl (io/stl.py:40-85): the text of the file.  Lines are built in
      order and an index error leaves no file; the log is left out. *)
  Definition write_stl (b : sbuilding) : result str :=
    do ls <- concatM (fun z => concatM solid_lines z) b;
    Ok (concat ls).

  (** One coordinate: float(), ValueError if it cannot be parsed. *)
  Definition to_float (s : str) : result X :=
    match parse s with Some x => Ok x | None => Err ValueError end.

  Definition nth_row {A} (l : list A) (i : nat) : result A := lookup_row l i.

  (** [vertices[k, :] = v] broadcasts a single number. *)
  Definition to_vertex (l : list X) : result P :=
    match l with
    | [x; y; z] => Ok (x, y, z)
    | [x] => Ok (x, x, x)
    | _ => Err ValueError
    end.

  Definition read_vertex (raw : str) : result P :=
    let line := strip raw in
    if starts_with (str_of "vertex") line then
      do v <- mapM to_float (split_on " "%char (strip (skipn 6 line)));
      to_vertex v
    else Err AssertionError.

  (** Polygon(vertices) (146-150 of io/stl.py): the constructor may raise or
      roll the points; [new_tri] stands for it and returns the points kept. *)
  Context (new_tri : P -> P -> P -> result (list P)).

  (** The solids that hold the current wall: one for each endsolid line since it
      was created.  They hold the same Wall object (line 168), so what is added to
      the wall later is in all of them. *)
  Definition holders (wall : option (list (list P))) (n : nat) : list (list (list P)) :=
    match wall with Some w => repeat w n | None => [] end.

  (** read_stl (io/stl.py:88-180).  The result is the list of solids, each the
      list of its polygons' points; random names are assumed not to clash.  The
      loop state is the current wall, the number of solids that hold it, the
      current uid (None also for a random one) and the solids of earlier walls.
      The comparison of normals only logs. *)
  Fixpoint read_loop (lines : list str) (wall : option (list (list P))) (held : nat) (uid : option str)
      (solids : list (list (list P))) {struct lines} : result (list (list (list P))) :=
    match lines with
    | [] => Ok (solids ++ holders wall held)
    | raw :: rest =>
        let line := strip raw in
        if starts_with (str_of "solid") line then
          read_loop rest (Some []) 0 (Some (strip (skipn 5 line))) (solids ++ holders wall held)
        else if starts_with (str_of "facet") line then
          do n <- nth_row (split_sub (str_of "normal") (skipn 5 line)) 1;
          let ns := split_on " "%char (strip n) in
          do n0 <- nth_row ns 0; do _ <- to_float n0;
          do n1 <- nth_row ns 1; do _ <- to_float n1;
          do n2 <- nth_row ns 2; do _ <- to_float n2;
          match rest with
          | [] => Err IndexError
          | l1 :: rest1 =>
            if negb (eqb (strip l1) (str_of "outer loop")) then Err AssertionError else
            match rest1 with
            | [] => Err IndexError
            | l2 :: rest2 =>
              do v1 <- read_vertex l2;
              match rest2 with
              | [] => Err IndexError
              | l3 :: rest3 =>
                do v2 <- read_vertex l3;
                match rest3 with
                | [] => Err IndexError
                | l4 :: rest4 =>
                  do v3 <- read_vertex l4;
                  match rest4 with
                  | [] => Err IndexError
                  | l5 :: rest5 =>
                    if negb (eqb (strip l5) (str_of "endloop")) then Err AssertionError else
                    do poly <- new_tri v1 v2 v3;
                    match wall with
                    | Some w => read_loop rest5 (Some (w ++ [poly])) held uid solids
                    | None => Err ValueError
                    end
                  end
                end
              end
            end
          end
        else if starts_with (str_of "endsolid") line then
          match uid with
          | Some u =>
              if eqb (strip (skipn 8 line)) u then
                match wall with
                | Some _ => read_loop rest wall (S held) (if length u =? 0 then None else uid) solids
                | None => Err ValueError
                end
              else Err AssertionError
          | None => Err AssertionError
          end
        else read_loop rest wall held uid solids
    end.

  (** read_stl (io/stl.py:88-180). *)
  Definition read_stl (text : str) : result (list (list (list P))) :=
    read_loop (readlines text) None 0 None [].
End Stl.
