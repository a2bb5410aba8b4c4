(** Properties of Solid.is_adjacent_to_solid and Solid.has_correct_interface (C81). *)
From Coq Require Import Ascii String Reals List Bool Arith Lia Lra ZArith.
From Verif Require Import Prelude TreeModel VecModel VecProofs GeomModel GeomSpec GeomProofs1 TriModel PolyModel PolySpec PolyProofs2 PolyProofs3 SolidModel SolidSpec SolidProofs1 SolidProofs3 CrossSpec CrossProofs2 InsideProofs3 AdjSpec AdjProofs1 AdjProofs2.
Import ListNotations.
Local Open Scope R_scope.

(** C81: every polygon the code makes has edges of positive length and
    triangles that can be tested, so the following apply to it. *)
Theorem C81_made_proper : forall pts p, make_polygon pts None None = Ok p -> proper p.
Proof. exact made_proper. Qed.
Print Assumptions C81_made_proper.
(** Two polygons face each other exactly when their normals are opposite,
    their areas equal, and every corner of the first is a corner of the second. *)
Theorem C81_facing_exact : forall p q, p_pts p <> [] -> p_pts q <> [] -> told_apart (p_pts p ++ p_pts q) -> NoDup (p_pts p) ->
  (are_polygons_facing (p_pts p) (p_vn p) (p_pts q) (p_vn q) = Ok true <-> faces p q).
Proof. exact facing_exact. Qed.
Print Assumptions C81_facing_exact.
(** The interface question always has an answer: yes exactly when some polygon
    of the first solid faces some polygon of the second. *)
Theorem C81_interface : forall s1 s2, (forall p, In p (s1 ++ s2) -> proper p) -> exists b, has_correct_interface s1 s2 = Ok b /\
  (b = true <-> exists p q, In p s1 /\ In q s2 /\ are_polygons_facing (p_pts p) (p_vn p) (p_pts q) (p_vn q) = Ok true).
Proof. exact interface_iff. Qed.
Print Assumptions C81_interface.
(** So has adjacency: yes exactly when some pair faces or crosses. *)
Theorem C81_adjacent : forall s1 s2, (forall p, In p (s1 ++ s2) -> proper p) -> exists b, is_adjacent_to_solid s1 s2 = Ok b /\
  (b = true <-> exists p q, In p s1 /\ In q s2 /\ (crosses p q \/ are_polygons_facing (p_pts p) (p_vn p) (p_pts q) (p_vn q) = Ok true)).
Proof. exact adjacent_iff. Qed.
Print Assumptions C81_adjacent.
Theorem C81_interface_adjacent : forall s1 s2, (forall p, In p (s1 ++ s2) -> proper p) -> has_correct_interface s1 s2 = Ok true -> is_adjacent_to_solid s1 s2 = Ok true.
Proof. exact interface_adjacent. Qed.
Print Assumptions C81_interface_adjacent.
(** Two boxes made by the code that have a common side are adjacent with a
    correct interface, in both orders. *)
Theorem C81_boxes : forall x y z mv x' y' z' mv' name name' ws ws', box_fits x y z mv -> box_fits x' y' z' mv' -> validate_name name = Ok name -> validate_name name' = Ok name' ->
  box x y z mv name = Ok ws -> box x' y' z' mv' name' = Ok ws' -> side_by_side x y z mv x' y' z' mv' ->
  has_correct_interface (polys_of ws) (polys_of ws') = Ok true /\ has_correct_interface (polys_of ws') (polys_of ws) = Ok true /\
  is_adjacent_to_solid (polys_of ws) (polys_of ws') = Ok true /\ is_adjacent_to_solid (polys_of ws') (polys_of ws) = Ok true.
Proof. exact boxes_adjacent. Qed.
Print Assumptions C81_boxes.
(** A box standing against the middle of a larger one's side is not adjacent
    to it, although part of the two surfaces is common. *)
Theorem C81_nested_refuted : exists ws ws', box 6 6 6 (V 0 0 0) (str_of "a") = Ok ws /\ box 2 2 2 (V 6 2 2) (str_of "b") = Ok ws' /\ is_adjacent_to_solid (polys_of ws) (polys_of ws') = Ok false.
Proof. exact nested_side. Qed.
Print Assumptions C81_nested_refuted.
(** Two boxes that overlap are reported adjacent. *)
Theorem C81_overlap_refuted : exists x y z mv x' y' z' mv' ws ws' p, box x y z mv (str_of "a") = Ok ws /\ box x' y' z' mv' (str_of "b") = Ok ws' /\
  deep_in x y z mv p /\ deep_in x' y' z' mv' p /\ is_adjacent_to_solid (polys_of ws) (polys_of ws') = Ok true.
Proof.
  destruct overlap_adjacent as (ws & ws' & A & B & C). exists 12, 8, 4, (V (-6) (-4) 0), 6, 9, 4, (V (-3) (-2) 0), ws, ws', (V 0 0 2).
  split; [exact A|]. split; [exact B|]. unfold deep_in. cbn [vx vy vz]. repeat (split; [repeat split; lra|]). exact C.
Qed.
Print Assumptions C81_overlap_refuted.
(** The interface question depends on which solid is asked. *)
Theorem C81_symmetric_refuted : exists pts pts' p q, make_polygon pts None None = Ok p /\ make_polygon pts' None None = Ok q /\ has_correct_interface [p] [q] = Ok true /\ has_correct_interface [q] [p] = Ok false.
Proof. exists (map at3 sq4), (map at3 sq5). exact one_sided. Qed.
Print Assumptions C81_symmetric_refuted.

(** Two unit boxes, the second beside the first. *)
Lemma next_fits : box_fits 1 1 1 (V 1 0 0).
Proof. exists 1. cbn [vx vy vz]. rewrite !Rabs_pos_eq by lra. repeat split; lra. Qed.
Example C81_boxes_instance : box_fits 1 1 1 vzero /\ box_fits 1 1 1 (V 1 0 0) /\ side_by_side 1 1 1 vzero 1 1 1 (V 1 0 0) /\
  exists ws ws', box 1 1 1 vzero (str_of "a") = Ok ws /\ box 1 1 1 (V 1 0 0) (str_of "b") = Ok ws' /\ has_correct_interface (polys_of ws) (polys_of ws') = Ok true.
Proof.
  assert (S : side_by_side 1 1 1 vzero 1 1 1 (V 1 0 0)) by (left; split; [vunf; f_equal; ring|auto]). split; [exact unit_fits|]. split; [exact next_fits|]. split; [exact S|].
  destruct (box_ok 1 1 1 vzero unit_fits (str_of "a") eq_refl) as (ws & B & _). destruct (box_ok 1 1 1 (V 1 0 0) next_fits (str_of "b") eq_refl) as (ws' & B' & _). exists ws, ws'. split; [exact B|]. split; [exact B'|].
  apply (C81_boxes 1 1 1 vzero 1 1 1 (V 1 0 0) (str_of "a") (str_of "b") ws ws' unit_fits next_fits eq_refl eq_refl B B' S).
Qed.
(** The polygons of such boxes are proper. *)
Example C81_proper_instance : exists ws ws', box 1 1 1 vzero (str_of "a") = Ok ws /\ box 1 1 1 (V 1 0 0) (str_of "b") = Ok ws' /\ (forall p, In p (polys_of ws ++ polys_of ws') -> proper p) /\ is_adjacent_to_solid (polys_of ws) (polys_of ws') = Ok true.
Proof.
  destruct C81_boxes_instance as (_ & _ & _ & ws & ws' & B & B' & H). exists ws, ws'. assert (P : forall p, In p (polys_of ws ++ polys_of ws') -> proper p) by (intros p; apply (boxes_proper _ _ _ _ _ _ _ _ _ _ _ _ p B B')).
  split; [exact B|]. split; [exact B'|]. split; [exact P|]. apply C81_interface_adjacent; auto.
Qed.
(** A square and the same square with one more corner on an edge. *)
Example C81_facing_instance : exists p q, p_pts p <> [] /\ p_pts q <> [] /\ told_apart (p_pts p ++ p_pts q) /\ NoDup (p_pts p) /\ faces p q.
Proof.
  destruct (zmake_spec sq4 sq4 [(3, 0, 1); (3, 1, 2)]%nat (0, 0, 1)%Z eq_refl) as (_ & p & _ & P1 & _ & P3). destruct (zmake_spec sq5 sq5 [(4, 0, 1); (4, 1, 2); (4, 2, 3)]%nat (0, 0, -1)%Z eq_refl) as (_ & q & _ & Q1 & _ & Q3).
  exists p, q. assert (A : p_pts p <> []) by (rewrite P1; discriminate). assert (B : p_pts q <> []) by (rewrite Q1; discriminate).
  assert (T : told_apart (p_pts p ++ p_pts q)) by (rewrite P1, Q1, <- map_app; apply z_told; reflexivity). assert (D : NoDup (p_pts p)) by (rewrite P1; apply z_nodup; repeat constructor; simpl; intuition discriminate).
  repeat (split; [assumption|]). apply (C81_facing_exact p q A B T D). rewrite P1, Q1, P3, Q3. apply facing_asymmetric.
Qed.
