(** Property C69: stitching two solids. *)
From Coq Require Import Ascii String Reals List Bool Arith Lia Lra ZArith.
From Verif Require Import Prelude TreeModel VecModel VecProofs GeomModel GeomSpec TriModel PolyModel PolySpec PolyProofs2 SliceModel SliceSpec SliceProofs4 SliceProofs8 SliceProofs10 VisModel StitchModel StitchSpec StitchProofs1 StitchProofs2 StitchProofs3 StitchProofs4 StitchProofs5.
Import ListNotations.
Local Open Scope R_scope.

(** C69: when the call returns, no polygon of one solid crosses, contains or is
    within a polygon of the other. *)
Theorem C69_returns rid n s1 s2 s1' s2' : stitch rid n s1 s2 = ((s1', s2'), Ok tt) -> forall p q, has_poly s1' p -> has_poly s2' q -> apart (snd p) (snd q).
Proof. exact (stitch_returns rid n s1 s2 s1' s2'). Qed.
(** Whatever the outcome, also when an exception leaves the solids half done:
    the same walls, names still unique, and every polygon a piece of one that
    was there before. *)
Theorem C69_pieces rid n s1 s2 : unique_names s1 -> unique_names s2 -> refines s1 (fst (fst (stitch rid n s1 s2))) /\ refines s2 (snd (fst (stitch rid n s1 s2))).
Proof. exact (stitch_refines rid n s1 s2). Qed.
(** Solids without adjacent polygons, and only those, are left alone by the
    first call. *)
Theorem C69_nothing_to_do s1 s2 : next_adjacent s1 s2 = Ok None <-> forall p q, has_poly s1 p -> has_poly s2 q -> apart (snd p) (snd q).
Proof. exact (next_none_iff s1 s2). Qed.
(** A round either changes nothing, and then the calls never end, or leaves
    more polygons than before. *)
Theorem C69_rounds rid s1 s2 p q s1' s2' : unique_names s1 -> unique_names s2 -> next_adjacent s1 s2 = Ok (Some (p, q)) -> slice_both rid s1 p s2 q = ((s1', s2'), Ok tt) ->
  ((s1', s2') = (s1, s2) /\ never_returns rid s1 s2) \/ (count_polys s1 + count_polys s2 < count_polys s1' + count_polys s2')%nat.
Proof. exact (stitch_rounds rid s1 s2 p q s1' s2'). Qed.
(** So a call that returns is nested no deeper than the polygons it adds, plus
    one. *)
Theorem C69_depth rid n s1 s2 s1' s2' : unique_names s1 -> unique_names s2 -> stitch rid n s1 s2 = ((s1', s2'), Ok tt) ->
  (count_polys s1 + count_polys s2 <= count_polys s1' + count_polys s2')%nat /\ stitch rid (S (count_polys s1' + count_polys s2' - (count_polys s1 + count_polys s2))) s1 s2 = ((s1', s2'), Ok tt).
Proof. exact (stitch_depth rid n s1 s2 s1' s2'). Qed.
(** The two parts of a slice always keep the normal and get the two names: the
    polygon is never flipped, and the random name is never used. *)
Theorem C69_names rid p pts a b : slice_one rid p pts = Ok (Some (a, b)) ->
  fst a = fst p ++ str_of "-main" /\ fst b = fst p ++ str_of "-sup" /\ p_vn (snd a) = p_vn (snd p) /\ p_vn (snd b) = p_vn (snd p) /\
  exists ch, slice_polygon (snd p) ch None (Some (fst p ++ str_of "-main")) None (Some (fst p ++ str_of "-sup")) rid rid = Ok (a, b).
Proof. exact (sliced_names rid p pts a b). Qed.
(** Replacing a polygon does so in every wall that has the name; it can fail
    only because of a name that is taken. *)
Theorem C69_replace s old news s' : unique_names s -> replace_polygon s old news = (s', Ok tt) ->
  s' = map (fun w => if existsb (eqb old) (map fst (snd w)) then (fst w, filter (fun p => negb (eqb old (fst p))) (snd w) ++ news) else w) s.
Proof. exact (replaced s old news s'). Qed.
Theorem C69_replace_error s old news s' e : unique_names s -> replace_polygon s old news = (s', Err e) -> e = GeometryError.
Proof. exact (replace_error s old news s' e). Qed.
(** A polygon whose parts cannot be added is lost: it has been taken out of the
    wall already. *)
Theorem C69_lost rid wn w p pts a b : NoDup (map fst w) -> In p w -> slice_one rid p pts = Ok (Some (a, b)) ->
  (In (fst p ++ str_of "-main") (map fst w) -> slice_one_and_replace rid [(wn, w)] p pts = ([(wn, ddel w (fst p))], Err GeometryError)) /\
  (~ In (fst p ++ str_of "-main") (map fst w) -> In (fst p ++ str_of "-sup") (map fst w) -> slice_one_and_replace rid [(wn, w)] p pts = ([(wn, ddel w (fst p) ++ [a])], Err GeometryError)).
Proof. exact (lost rid wn w p pts a b). Qed.
(** A triangle that touches an edge of a square with one corner: the calls
    never end. *)
Theorem C69_touching_refuted : exists p1 p2, make_polygon (map at3 sq6) None None = Ok p1 /\ make_polygon (map at3 touching_tri) None None = Ok p2 /\
  forall rid w1 n1 w2 n2, never_returns rid (one_poly w1 (n1, p1)) (one_poly w2 (n2, p2)).
Proof. exact touching_never. Qed.
(** A square across the closing edge of another: the TriangulationError is not
    caught. *)
Theorem C69_uncaught_refuted : exists p1 p2, make_polygon (map at3 sq6) None None = Ok p1 /\ make_polygon (map at3 side_square) None None = Ok p2 /\
  forall rid k w1 n1 w2 n2, snd (stitch rid (S k) (one_poly w1 (n1, p1)) (one_poly w2 (n2, p2))) = Err TriangulationError.
Proof. exact side_uncaught. Qed.
(** When one polygon is within the other, the outer one is cut along the two
    closest pairs, from one polygon to the other, along it and back; then the
    first part with the inner polygon. *)
Theorem C69_nested_cut rid s1 p1 s2 p2 a1 b1 a2 b2 c12 c21 b12 b21 : contains_margin GEOM_ATOL (snd p1) (snd p2) = Ok c12 -> contains_margin GEOM_ATOL (snd p2) (snd p1) = Ok c21 ->
  contains_margin with_boundary (snd p1) (snd p2) = Ok b12 -> contains_margin with_boundary (snd p2) (snd p1) = Ok b21 -> find_close_pairs (p_pts (snd p1)) (p_pts (snd p2)) 2 true = Ok [(a1, b1); (a2, b2)] ->
  (c12 = true -> slice_both rid s1 p1 s2 p2 = let r := slice_twice rid s1 p1 [b1; a1; a2; b2] (p_pts (snd p2)) in ((fst r, s2), snd r)) /\
  (c12 = false -> c21 = true -> slice_both rid s1 p1 s2 p2 = let r := slice_twice rid s2 p2 [b1; a1; a2; b2] (p_pts (snd p1)) in ((s1, fst r), snd r)).
Proof. exact (nested_cut rid s1 p1 s2 p2 a1 b1 a2 b2 c12 c21 b12 b21). Qed.
(** The first part can be the bridge between the outlines: a rectangle within a
    square, not in its middle, ends with an AssertionError, the square cut into
    two. *)
Theorem C69_nested_refuted : exists p1 p2, make_polygon (map at3 sq6) None None = Ok p1 /\ make_polygon (map at3 off_centre) None None = Ok p2 /\ contains_polygon p1 p2 = Ok true /\ p_vn p2 = vopp (p_vn p1) /\
  forall rid k, exists a b, p_pts a = map at3 strip /\ p_pts b = map at3 rest /\
  stitch rid (S k) (one_poly sw (sp, p1)) (one_poly sv (sq, p2)) = (([(sw, [(str_of "p-main", a); (str_of "p-sup", b)])], one_poly sv (sq, p2)), Err AssertionError).
Proof. exact nested_raises. Qed.
(** A square in the middle of a square: three parts. *)
Example C69_nested_ex : exists p1 p2 b c d, make_polygon (map at3 sq6) None None = Ok p1 /\ make_polygon (map at3 inner2) None None = Ok p2 /\ p_pts b = map at3 bridge /\ p_pts c = map at3 (rev inner2) /\ p_pts d = map at3 horseshoe /\
  stitch [] 2 (one_poly sw (sp, p1)) (one_poly sv (sq, p2)) = (([(sw, [(str_of "p-sup", b); (str_of "p-main-main", c); (str_of "p-main-sup", d)])], one_poly sv (sq, p2)), Ok tt).
Proof. exact nested_stitched. Qed.
(** The lower half of a square from the other side: one slice, then nothing is
    left to do. *)
Example C69_ex : exists p1 p2 a b, make_polygon (map at3 sq6) None None = Ok p1 /\ make_polygon (map at3 lower) None None = Ok p2 /\ p_pts a = map at3 (rev lower) /\ p_pts b = map at3 upper /\
  stitch [] 2 (one_poly (str_of "w") (str_of "p", p1)) (one_poly (str_of "v") (str_of "q", p2)) = (([(str_of "w", [(str_of "p-main", a); (str_of "p-sup", b)])], one_poly (str_of "v") (str_of "q", p2)), Ok tt).
Proof. exact half_stitched. Qed.
Example C69_lost_ex : exists p1, make_polygon (map at3 sq6) None None = Ok p1 /\
  forall p2, slice_one_and_replace [] [(str_of "w", [(str_of "p", p1); (str_of "p-main", p2)])] (str_of "p", p1) (map at3 lower) = ([(str_of "w", [(str_of "p-main", p2)])], Err GeometryError).
Proof. exact half_lost. Qed.
Example C69_unique_ex p : unique_names (one_poly (str_of "w") (str_of "p", p)).
Proof. apply unique_one. Qed.
Print Assumptions C69_returns.
Print Assumptions C69_pieces.
Print Assumptions C69_nothing_to_do.
Print Assumptions C69_rounds.
Print Assumptions C69_depth.
Print Assumptions C69_names.
Print Assumptions C69_replace.
Print Assumptions C69_replace_error.
Print Assumptions C69_lost.
Print Assumptions C69_touching_refuted.
Print Assumptions C69_uncaught_refuted.
Print Assumptions C69_nested_cut.
Print Assumptions C69_nested_refuted.
