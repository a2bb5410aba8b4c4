(** Properties of Solid.is_point_inside (C80). *)
From Coq Require Import Ascii String Reals List Bool Arith Lia Lra.
From Verif Require Import Prelude TreeModel VecModel VecProofs GeomModel GeomSpec GeomProofs1 TriModel PolyModel PolySpec SolidModel SolidSpec SolidProofs1 SolidProofs3 CrossSpec InsideSpec InsideProofs1 InsideProofs2 InsideProofs3.
Import ListNotations.
Local Open Scope R_scope.

(** C80: a point beyond all corners in some coordinate is not in the solid,
    whatever its polygons are. *)
Theorem C80_outside : forall polys p, concat (map fst polys) <> [] -> ~ in_extent (concat (map fst polys)) p -> solid_point_inside polys p = Ok false.
Proof. exact outside_extent. Qed.
Print Assumptions C80_outside.
(** Otherwise the faces met by the fixed line of sight are counted, where a
    face met on its rim counts like one met well inside: an odd count means
    inside, an even one means inside only on a face. *)
Theorem C80_parity_odd : forall fs p bs, ok_faces fs -> fs <> [] -> in_extent (concat (map fst (solid_of fs))) p -> seen p fs bs ->
  Nat.odd (hits bs) = true -> solid_point_inside (solid_of fs) p = Ok true.
Proof. exact parity_odd. Qed.
Print Assumptions C80_parity_odd.
Theorem C80_parity_even : forall fs p bs, ok_faces fs -> fs <> [] -> seen p fs bs ->
  Nat.odd (hits bs) = false -> (forall f n d, In (f, n, d) fs -> off_face p f n d) -> solid_point_inside (solid_of fs) p = Ok false.
Proof. exact parity_even. Qed.
Print Assumptions C80_parity_even.
Theorem C80_on_face : forall fs p f n d, ok_faces fs -> In (f, n, d) fs -> on_plane n d p -> touches f p -> solid_point_inside (solid_of fs) p = Ok true.
Proof. exact on_face_inside. Qed.
Print Assumptions C80_on_face.
(** In a box made by the code, every interior point whose line of sight leaves
    well inside a triangle of one of the three far faces is found inside. *)
Theorem C80_box_inside : forall x y z mv name ws p t fc a b c, box_fits x y z mv -> validate_name name = Ok name -> box x y z mv name = Ok ws ->
  (vx mv < vx p < x + vx mv /\ vy mv < vy p < y + vy mv /\ vz mv < vz p < z + vz mv) ->
  let pt := corner_of x y z mv in
  In fc [[pt 1 0 0; pt 1 1 0; pt 1 1 1; pt 1 0 1]; [pt 0 1 0; pt 0 1 1; pt 1 1 1; pt 1 1 0]; [pt 0 0 1; pt 1 0 1; pt 1 1 1; pt 0 1 1]] ->
  In (a, b, c) (quad_triangles fc) -> strictly_inside a b c (ray p t) -> off_edges a b c (ray p t) ->
  (forall s co, In co [vx; vy; vz] -> co (ray p s) = co (pt 1 1 1) -> s <> t -> exists co', In co' [vx; vy; vz] /\ co' (pt 1 1 1) + 1 / 100 < co' (ray p s)) ->
  solid_point_inside (map fst (all_polys ws)) p = Ok true.
Proof. exact box_inside_made. Qed.
Print Assumptions C80_box_inside.
(** Some interior points are missed: the line of sight through the edge
    between two faces counts both. *)
Theorem C80_interior_refuted : exists x y z mv name ws p, box x y z mv name = Ok ws /\
  (vx mv + 1 / 10 < vx p < x + vx mv - 1 / 10 /\ vy mv + 1 / 10 < vy p < y + vy mv - 1 / 10 /\ vz mv + 1 / 10 < vz p < z + vz mv - 1 / 10) /\
  solid_point_inside (map fst (all_polys ws)) p = Ok false.
Proof. exact interior_missed. Qed.
Print Assumptions C80_interior_refuted.
(** Some points beyond a plane that has the whole solid on its other side are
    found inside. *)
Theorem C80_exterior_refuted : exists pts ps p n k, mapM (fun l => make_polygon l None None) pts = Ok ps /\ (forall l v, In l pts -> In v l -> k <= dot n v) /\ dot n p < k - 9 /\
  solid_point_inside (map (fun q => (p_pts q, p_tri q)) ps) p = Ok true.
Proof. exact exterior_accepted. Qed.
Print Assumptions C80_exterior_refuted.

(** The theorems apply to a tetrahedron and to the unit box. *)
Example C80_odd_instance : ok_faces tetra_list /\ in_extent (concat (map fst (solid_of tetra_list))) ghost /\ seen ghost tetra_list [true; true; false; true] /\ solid_point_inside (solid_of tetra_list) ghost = Ok true.
Proof. split; [exact tetra_sound|]. split; [exact ghost_extent|]. split; [exact ghost_seen|]. apply (C80_parity_odd tetra_list ghost [true; true; false; true]); [exact tetra_sound|discriminate|exact ghost_extent|exact ghost_seen|reflexivity]. Qed.
Example C80_even_instance : seen lost (box_list 1 1 1 vzero) [false; false; true; true; false; false] /\ solid_point_inside (solid_of (box_list 1 1 1 vzero)) lost = Ok false.
Proof. split; [exact lost_seen|]. apply (C80_parity_even _ lost [false; false; true; true; false; false]); [apply (box_sound 1 1 1 vzero unit_fits)|discriminate|exact lost_seen|reflexivity|exact lost_off]. Qed.
Example C80_outside_instance : ~ in_extent (concat tetra) (V 5 5 11) /\ concat tetra <> [].
Proof. split; [|discriminate]. intros H. destruct (H vz ltac:(simpl; auto)) as (_ & (a & Ia & La)). cbn [vz] in La. simpl in Ia. unfold tA, tB, tC, tD in Ia. repeat (destruct Ia as [<-|Ia]; [cbn [vz] in La; lra|]). destruct Ia. Qed.
Example C80_on_face_instance : on_plane (V 1 0 0) (-10) (V 10 7 8) /\ touches ([tB; tD; tC], TT) (V 10 7 8).
Proof.
  split; [unfold on_plane; vunf; lra|]. left. exists (2, 0, 1)%nat, tC, tB, tD. split; [simpl; auto|]. split; [split; [reflexivity|split; reflexivity]|]. split.
  - exists (1 / 2), (3 / 10), (2 / 10). unfold bary, tB, tC, tD. repeat (split; [lra|]). vunf. f_equal; lra.
  - split; [toff|]. split; toff.
Qed.
Example C80_box_instance : exists ws, box 1 1 1 vzero (str_of "b") = Ok ws /\ solid_point_inside (map fst (all_polys ws)) (V (1 / 2) (1 / 2) (1 / 2)) = Ok true.
Proof.
  destruct (box_ok 1 1 1 vzero unit_fits (str_of "b") eq_refl) as (ws & E & _). exists ws. split; [exact E|].
  apply (C80_box_inside 1 1 1 vzero (str_of "b") ws (V (1 / 2) (1 / 2) (1 / 2)) (1 / 1478) [corner_of 1 1 1 vzero 1 0 0; corner_of 1 1 1 vzero 1 1 0; corner_of 1 1 1 vzero 1 1 1; corner_of 1 1 1 vzero 1 0 1] (corner_of 1 1 1 vzero 1 0 1) (corner_of 1 1 1 vzero 1 1 0) (corner_of 1 1 1 vzero 1 1 1) unit_fits eq_refl E).
  - unfold vzero. cbn [vx vy vz]. lra.
  - simpl. auto.
  - simpl. auto.
  - exists (1 - 1956 / 2956), (1 - 1704 / 2956), (1956 / 2956 + 1704 / 2956 - 1). unfold bary, corner_of, ray, sight, vzero. repeat (split; [lra|]). vunf. f_equal; lra.
  - split; [|split]; offe.
  - intros s co [<-|[<-|[<-|[]]]] E1 Ns; unfold ray, sight, corner_of, vzero in *; cbn [vx vy vz vadd smul] in *.
    + exfalso. apply Ns. vunf. lra.
    + exists vx. split; [simpl; auto|]. vunf. lra.
    + exists vx. split; [simpl; auto|]. vunf. lra.
Qed.
