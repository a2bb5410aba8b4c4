(** Properties of closed surfaces and of the points found inside solids (C125 - C127). *)
From Coq Require Import Ascii String Reals List ZArith Bool Arith Lia Lra.
From Verif Require Import Prelude TreeModel VecModel GeomModel GeomSpec GeomProofs1 TriModel PolyModel PolySpec SolidModel SolidSpec CrossSpec InsideSpec InsideProofs2 InsideProofs3 RoomSpec
  WindSpec LoopSpec ShellSpec ShellProofs4 ShellProofs5 ShellProofs6 ShellProofs7 ShellProofs8 ShellProofs9.
Import ListNotations.
Local Open Scope R_scope.

(** ** C125: rays and paths through a closed surface of triangles *)
(** From a point, rays in all directions agree: on the balance of passages and
    on whether their number is odd. *)
Theorem C125_direction : forall T q r bs r' bs', proper_mesh T -> closed_mesh T -> sees T q r bs -> sees T q r' bs' -> net T r bs = net T r' bs' /\ Nat.odd (hits bs) = Nat.odd (hits bs').
Proof. intros T q r bs r' bs' Pr Cl. exact (same_rays T Pr Cl q r bs r' bs'). Qed.
Print Assumptions C125_direction.
(** Along a path the balance changes with each triangle it goes through. *)
Theorem C125_way : forall T p q n z r bs r' bs', proper_mesh T -> closed_mesh T -> way T p q n z -> sees T p r bs -> sees T q r' bs' ->
  net T r' bs' = (net T r bs + z)%Z /\ Nat.odd (hits bs') = xorb (Nat.odd (hits bs)) (Nat.odd n).
Proof. intros T p q n z r bs r' bs' Pr Cl. exact (way_rays T Pr Cl p q n z r bs r' bs'). Qed.
Print Assumptions C125_way.
(** A ray from the end of a path that starts outside counts the triangles the
    path goes through. *)
Theorem C125_outside : forall T p q n z r bs, proper_mesh T -> closed_mesh T -> outside T p -> way T p q n z -> sees T q r bs -> net T r bs = z /\ Nat.odd (hits bs) = Nat.odd n.
Proof. intros T p q n z r bs Pr Cl. exact (outside_rays T Pr Cl p q n z r bs). Qed.
Print Assumptions C125_outside.
(** Two paths from outside to the same point agree. *)
Theorem C125_paths : forall T p p' q n z n' z', proper_mesh T -> closed_mesh T -> outside T p -> outside T p' -> way T p q n z -> way T p' q n' z' -> z = z' /\ Nat.odd n = Nat.odd n'.
Proof. intros T p p' q n z n' z' Pr Cl. exact (outside_ways T Pr Cl p p' q n z n' z'). Qed.
Print Assumptions C125_paths.
(** From every point off the triangles there is a ray that touches no edge. *)
Theorem C125_some : forall T q, proper_mesh T -> (forall a b c, In (a, b, c) T -> ~ in_triangle a b c q) -> exists r bs, sees T q r bs.
Proof. exact any_ray. Qed.
Print Assumptions C125_some.

(** A tetrahedron. *)
Example C125_closed_instance : proper_mesh tetra_mesh /\ closed_mesh tetra_mesh.
Proof. exact (shell_mesh _ _ tetra_shell). Qed.
Example C125_sees_instance : exists bs, sees tetra_mesh core sight bs /\ hits bs = 1%nat.
Proof. exact (shell_sees _ _ core _ tetra_sound tetra_shell core_seen). Qed.
Example C125_two_instance : exists bs, sees tetra_mesh notch sight bs /\ hits bs = 2%nat.
Proof. exact (shell_sees _ _ notch _ tetra_sound tetra_shell notch_seen). Qed.
Example C125_way_instance : outside tetra_mesh (V 20 9 9) /\ way tetra_mesh (V 20 9 9) core 1 1.
Proof. exact core_way. Qed.

(** ** C126: the code against paths from outside *)
(** In a solid whose outlines match edge to edge, a point is found inside
    exactly if a path to it from outside goes through an odd number of
    triangles. *)
Theorem C126_solid : forall fs T p q n z bs, ok_faces fs -> fs <> [] -> shell fs T -> outside T p -> way T p q n z -> seen_well q fs bs -> (forall f n d, In (f, n, d) fs -> off_face q f n d) ->
  solid_point_inside (solid_of fs) q = Ok (Nat.odd n).
Proof. exact solid_path. Qed.
Print Assumptions C126_solid.
(** It is enough that they match once some of them are turned round. *)
Theorem C126_turned : forall fs T p q n z bs, ok_faces fs -> fs <> [] -> loose_shell fs T -> outside T p -> way T p q n z -> seen_well q fs bs -> (forall f n d, In (f, n, d) fs -> off_face q f n d) ->
  solid_point_inside (solid_of fs) q = Ok (Nat.odd n).
Proof. exact loose_path. Qed.
Print Assumptions C126_turned.
(** Without that match it may be found inside although it can be reached from
    outside without going through a face. *)
Theorem C126_open_refuted : exists fs T p q z bs, ok_faces fs /\ sides fs T /\ outside T p /\ way T p q 0 z /\ seen_well q fs bs /\ (forall f n d, In (f, n, d) fs -> off_face q f n d) /\
  solid_point_inside (solid_of fs) q = Ok true.
Proof. exists cup, cup_mesh, (V 8 20 8), core, 0%Z, [true; false; false]. exact cup_open. Qed.
Print Assumptions C126_open_refuted.

Example C126_inside_instance : shell tetra_list tetra_mesh /\ solid_point_inside (solid_of tetra_list) core = Ok true.
Proof. split; [exact tetra_shell|]. exact (C126_solid _ _ _ core 1 _ _ tetra_sound ltac:(discriminate) tetra_shell (proj1 core_way) (proj2 core_way) core_seen core_off). Qed.
Example C126_outside_instance : seen_well notch tetra_list [true; false; false; true] /\ solid_point_inside (solid_of tetra_list) notch = Ok false.
Proof. split; [exact notch_seen|]. exact (C126_solid _ _ _ notch 0 _ _ tetra_sound ltac:(discriminate) tetra_shell (proj1 notch_way) (proj2 notch_way) notch_seen notch_off). Qed.

(** ** C127: convex solids *)
(** The points behind all faces are found inside, those in front of one are
    not. *)
Theorem C127_convex_inside : forall fs T q bs, ok_faces fs -> fs <> [] -> shell fs T -> convex_solid fs -> seen_well q fs bs -> (forall f n d, In (f, n, d) fs -> dot n q + d < 0) ->
  solid_point_inside (solid_of fs) q = Ok true.
Proof. exact convex_inside. Qed.
Print Assumptions C127_convex_inside.
Theorem C127_convex_outside : forall fs T q bs f n d, ok_faces fs -> shell fs T -> convex_solid fs -> seen_well q fs bs -> (forall f n d, In (f, n, d) fs -> off_face q f n d) ->
  In (f, n, d) fs -> 0 < dot n q + d -> solid_point_inside (solid_of fs) q = Ok false.
Proof. exact convex_outside. Qed.
Print Assumptions C127_convex_outside.
(** Boxes made by the code. *)
Theorem C127_box_inside : forall x y z mv name ws q bs, box_fits x y z mv -> validate_name name = Ok name -> box x y z mv name = Ok ws -> seen_well q (box_sides x y z mv) bs ->
  vx mv < vx q < x + vx mv -> vy mv < vy q < y + vy mv -> vz mv < vz q < z + vz mv -> solid_point_inside (map fst (all_polys ws)) q = Ok true.
Proof. intros x y z mv name ws q bs F. exact (box_points x y z mv F name ws q bs). Qed.
Print Assumptions C127_box_inside.
Theorem C127_box_outside : forall x y z mv name ws q, box_fits x y z mv -> validate_name name = Ok name -> box x y z mv name = Ok ws ->
  vx q < vx mv \/ x + vx mv < vx q \/ vy q < vy mv \/ y + vy mv < vy q \/ vz q < vz mv \/ z + vz mv < vz q -> solid_point_inside (map fst (all_polys ws)) q = Ok false.
Proof. intros x y z mv name ws q F. exact (box_others x y z mv F name ws q). Qed.
Print Assumptions C127_box_outside.

Example C127_convex_instance : convex_solid tetra_list /\ (forall f n d, In (f, n, d) tetra_list -> dot n core + d < 0) /\ exists f n d, In (f, n, d) tetra_list /\ 0 < dot n notch + d.
Proof. exact tetra_sorted. Qed.
Example C127_box_instance : box_fits 1 1 1 vzero /\ seen_well mid (box_sides 1 1 1 vzero) [false; false; true; false; false; false].
Proof. split; [exact unit_fits|exact mid_seen]. Qed.
