(** Specification vocabulary for STL files. *)
From Coq Require Import Ascii String List Arith Bool.
From Verif Require Import Prelude TreeModel MeshModel MeshSpec StlModel.
Import ListNotations.

(** Characters that Python uses to print floats. *)
Definition number_char (c : ascii) : Prop := In c (str_of "0123456789+-.enaif").
Definition number_text (s : str) : Prop := s <> [] /\ Forall number_char s.

(** A uid on one line, without blanks around it. *)
Definition clean_uid (u : str) : Prop := strip u = u /\ ~ In NL u /\ ~ In CR u.

Section Spec.
  Context {X : Type}.
  Notation P := (X * X * X)%type.

  (** The triangles of a solid as lists of corners, in traversal order. *)
  Definition solid_triangles (s : ssolid (X := X)) : list (list (option P)) :=
    map (fun t => let '(a, b, c) := t in [a; b; c]) (flat_map (fun q => soup (sp_mesh q)) (concat (snd s))).

  Definition polys_in (b : sbuilding (X := X)) : list spoly := concat (concat (map snd (concat b))).

  (** The constructor takes every triangle of the building as it is. *)
  Definition takes_triangles (new_tri : P -> P -> P -> result (list P)) (b : sbuilding (X := X)) : Prop :=
    forall q x y z, In q (polys_in b) -> In (Some x, Some y, Some z) (soup (sp_mesh q)) ->
      new_tri x y z = Ok [x; y; z].
End Spec.

(** ** What the lines of a file say *)
Section Reading.
  Context {X : Type} (parse : str -> option X).
  Notation P := (X * X * X)%type.
  Context (new_tri : P -> P -> P -> result (list P)).

  Inductive event : Type :=
  | Opens (u : str)            (* "solid u" *)
  | Triangle (t : list P)      (* a whole facet *)
  | Closes (u : str).          (* "endsolid u" *)

  (** Three numbers, or one for all coordinates. *)
  Definition point_of (ws : list str) (p : P) : Prop :=
    exists a b c, p = (a, b, c) /\
      ((exists x y z, ws = [x; y; z] /\ parse x = Some a /\ parse y = Some b /\ parse z = Some c) \/
       (exists x, ws = [x] /\ parse x = Some a /\ b = a /\ c = a)).

  Definition vertex_text (raw : str) (p : P) : Prop :=
    exists w, strip raw = str_of "vertex" ++ w /\ point_of (split_on " "%char (strip w)) p.

  (** "normal" and at least three words, of which the first three are numbers. *)
  Definition normal_text (w : str) : Prop :=
    exists before n after x y z more, split_sub (str_of "normal") w = before :: n :: after /\
      split_on " "%char (strip n) = x :: y :: z :: more /\ parse x <> None /\ parse y <> None /\ parse z <> None.

  (** The events told by the lines; other lines tell nothing. *)
  Inductive tells : list str -> list event -> Prop :=
  | tells_all : tells [] []
  | tells_opens raw w rest evs : strip raw = str_of "solid" ++ w -> tells rest evs ->
      tells (raw :: rest) (Opens (strip w) :: evs)
  | tells_closes raw w rest evs : strip raw = str_of "endsolid" ++ w -> tells rest evs ->
      tells (raw :: rest) (Closes (strip w) :: evs)
  | tells_triangle raw w outer v1 v2 v3 stop rest a b c t evs : strip raw = str_of "facet" ++ w -> normal_text w ->
      strip outer = str_of "outer loop" -> vertex_text v1 a -> vertex_text v2 b -> vertex_text v3 c ->
      strip stop = str_of "endloop" -> new_tri a b c = Ok t -> tells rest evs ->
      tells (raw :: outer :: v1 :: v2 :: v3 :: stop :: rest) (Triangle t :: evs)
  | tells_nothing raw rest evs :
      (forall k w, In k [str_of "solid"; str_of "endsolid"; str_of "facet"] -> strip raw <> k ++ w) -> tells rest evs ->
      tells (raw :: rest) evs.

  Fixpoint triangles_in (evs : list event) : list (list P) :=
    match evs with
    | [] => []
    | Triangle t :: evs' => t :: triangles_in evs'
    | _ :: evs' => triangles_in evs'
    end.

  Fixpoint closings (evs : list event) : nat :=
    match evs with
    | [] => 0
    | Closes _ :: evs' => S (closings evs')
    | _ :: evs' => closings evs'
    end.

  (** A solid line opens a group that reaches to the next solid line.  For each
      endsolid line in it, with the same name, there is a solid of all triangles
      of the group.  A nameless group has at most one endsolid line. *)
  Inductive builds : list event -> list (list (list P)) -> Prop :=
  | builds_none : builds [] []
  | builds_group u body evs r :
      (forall e, In e body -> (exists t, e = Triangle t) \/ e = Closes u) -> (u = [] -> closings body <= 1) ->
      builds evs r -> builds (Opens u :: body ++ evs) (repeat (triangles_in body) (closings body) ++ r).
End Reading.
