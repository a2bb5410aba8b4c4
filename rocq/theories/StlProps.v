(** Property theorem C23. *)
From Coq Require Import Ascii String List Arith Bool Lia DecimalString.
From Verif Require Import Prelude TreeModel MeshModel MeshSpec MeshProofs IoModel StlModel StlSpec StlProofs StlProofs2.
Import ListNotations.

(** [fmt] and [parse] are Python's float formatting and float(): printed numbers
    consist of number characters and are read back as the same number.
    [new_tri] is the Polygon constructor on the three vertices read. *)
Theorem C23_stl_roundtrip :
  forall (X : Type) (fmt : X -> str) (parse : str -> option X),
  (forall x, number_text (fmt x)) -> (forall x, parse (fmt x) = Some x) ->
  forall (new_tri : X * X * X -> X * X * X -> X * X * X -> result (list (X * X * X))) (b : sbuilding),
  (forall s, In s (concat b) -> clean_uid (fst s)) ->
  (forall q, In q (polys_in b) -> valid (sp_mesh q)) ->
  takes_triangles new_tri b ->
  exists text r, write_stl fmt b = Ok text /\ read_stl parse new_tri text = Ok r /\
    map (map (map Some)) r = map solid_triangles (concat b).
Proof. exact @stl_roundtrip. Qed.
Print Assumptions C23_stl_roundtrip.

(** Two numbers, printed as "1e-05" and "-2.5". *)
Definition fmt_demo (n : bool) : str := if n then str_of "1e-05" else str_of "-2.5".
Definition parse_demo (s : str) : option bool :=
  if eqb s (str_of "1e-05") then Some true else if eqb s (str_of "-2.5") then Some false else None.
Definition demo_q : spoly (X := bool) :=
  mkSP (true, false, false) ([(true, true, true); (false, true, true); (false, false, true); (true, false, true)],
                             [(0, 1, 2); (2, 3, 0)]).
Definition demo_q2 : spoly (X := bool) :=
  mkSP (true, true, false) ([(false, true, true); (false, false, true); (true, false, true)], [(2, 1, 0)]).
Definition demo_b : sbuilding (X := bool) :=
  [[(str_of "a-b c", [[demo_q; demo_q2]; [demo_q2]]); (str_of "x", [])]; []; [(str_of "y", [[demo_q2]])]].
Definition take (a b c : bool * bool * bool) : result (list (bool * bool * bool)) := Ok [a; b; c].

Example C23_instance :
  (forall x, number_text (fmt_demo x)) /\ (forall x, parse_demo (fmt_demo x) = Some x) /\
  (forall s, In s (concat demo_b) -> clean_uid (fst s)) /\
  (forall q, In q (polys_in demo_b) -> valid (sp_mesh q)) /\ takes_triangles take demo_b /\
  (do t <- write_stl fmt_demo demo_b; read_stl parse_demo take t) =
    Ok [[[(true, true, true); (false, true, true); (false, false, true)];
         [(false, false, true); (true, false, true); (true, true, true)];
         [(true, false, true); (false, false, true); (false, true, true)];
         [(true, false, true); (false, false, true); (false, true, true)]]; [];
        [[(true, false, true); (false, false, true); (false, true, true)]]].
Proof.
  split; [|split; [|split; [|split; [|split]]]].
  - intros [|]; apply number_check; vm_compute; reflexivity.
  - intros [|]; reflexivity.
  - intros s [<-|[<-|[<-|[]]]]; apply clean_check; vm_compute; reflexivity.
  - intros q [<-|[<-|[<-|[<-|[]]]]]; apply valid_check; reflexivity.
  - intros q x y z _ _. reflexivity.
  - vm_compute. reflexivity.
Qed.

(** A line break in a uid can make the file unreadable. *)
Theorem C23_unclean_uid_refuted :
  exists (b : sbuilding (X := bool)), (forall q, In q (polys_in b) -> valid (sp_mesh q)) /\
    (do t <- write_stl fmt_demo b; read_stl parse_demo take t) = Err AssertionError.
Proof.
  exists [[(str_of "a" ++ [NL] ++ str_of "solid b", [[demo_q2]])]]. split; [|vm_compute; reflexivity].
  intros q [<-|[]]; apply valid_check; reflexivity.
Qed.
Print Assumptions C23_unclean_uid_refuted.

(** Any file: it can be read exactly if its lines tell groups of triangles, and
    the solids are those of the groups.  [parse] and [new_tri] are arbitrary. *)
Theorem C23_reads :
  forall (X : Type) (parse : str -> option X) (new_tri : X * X * X -> X * X * X -> X * X * X -> result (list (X * X * X))) text r,
  read_stl parse new_tri text = Ok r <-> exists evs, tells parse new_tri (readlines text) evs /\ builds evs r.
Proof. exact @read_any. Qed.
Print Assumptions C23_reads.

Theorem C23_errors :
  forall (X : Type) (parse : str -> option X) (new_tri : X * X * X -> X * X * X -> X * X * X -> result (list (X * X * X))) text e,
  read_stl parse new_tri text = Err e ->
  e = IndexError \/ e = ValueError \/ e = AssertionError \/ exists a b c, new_tri a b c = Err e.
Proof. exact @read_err. Qed.
Print Assumptions C23_errors.

(** A triangle that follows an endsolid line is added to that solid. *)
Definition late_text : str :=
  let ls := fun s : string => str_of s ++ nl in
  let t := ls "facet normal -2.5 1e-05 1e-05"%string ++ ls "outer loop"%string ++ ls "vertex 1e-05 -2.5 -2.5"%string ++ ls "vertex -2.5"%string ++
           ls "vertex 1e-05 1e-05 -2.5"%string ++ ls "endloop"%string ++ ls "endfacet"%string in
  ls "solid a"%string ++ t ++ ls "endsolid a"%string ++ t ++ ls "endsolid a"%string ++ ls "solid"%string ++ t ++ ls "endsolid"%string.
Definition late_t : list (bool * bool * bool) := [(true, false, false); (false, false, false); (true, true, false)].
Example C23_late : read_stl parse_demo take late_text = Ok [[late_t; late_t]; [late_t; late_t]; [late_t]] /\
  builds [Opens (str_of "a"); Triangle late_t; Closes (str_of "a"); Triangle late_t; Closes (str_of "a");
          Opens []; Triangle late_t; Closes []] [[late_t; late_t]; [late_t; late_t]; [late_t]].
Proof.
  split; [vm_compute; reflexivity|].
  apply (builds_group (str_of "a") [Triangle late_t; Closes (str_of "a"); Triangle late_t; Closes (str_of "a")]
           [Opens []; Triangle late_t; Closes []] [[late_t]]).
  - intros e [<-|[<-|[<-|[<-|[]]]]]; eauto.
  - discriminate.
  - apply (builds_group [] [Triangle late_t; Closes []] [] []); [|intros _; auto|constructor].
    intros e [<-|[<-|[]]]; eauto.
Qed.
Example C23_no_solid : read_stl parse_demo take (str_of "endsolid") = Err AssertionError.
Proof. vm_compute. reflexivity. Qed.

(** Line feeds, carriage returns and pairs of them end lines: files that differ
    in this are read alike. *)
Theorem C23_line_ends :
  forall (X : Type) (parse : str -> option X) (new_tri : X * X * X -> X * X * X -> X * X * X -> result (list (X * X * X))) e bodies,
  In e [["010"]; ["013"; "010"]; ["013"]]%char -> (forall l, In l bodies -> ~ In "010"%char l /\ ~ In "013"%char l) ->
  read_stl parse new_tri (concat (map (fun l => l ++ e) bodies)) = read_stl parse new_tri (concat (map (fun l => l ++ ["010"%char]) bodies)).
Proof. intros X parse new_tri e bodies I H. unfold read_stl. rewrite !line_ends; auto. cbn [In] in I. intuition. Qed.
Print Assumptions C23_line_ends.
Example C23_line_ends_example : read_stl parse_demo take (concat (map (fun s => str_of s ++ ["013"; "010"]%char) ["solid a"; "facet normal -2.5 1e-05 1e-05"; "outer loop"; "vertex 1e-05 -2.5 -2.5"; "vertex -2.5"; "vertex 1e-05 1e-05 -2.5"; "endloop"; "endfacet"; "endsolid a"]%string)) = Ok [[late_t]].
Proof. vm_compute. reflexivity. Qed.
