(** Properties C53 and C66: volumes of solids and boxes. *)
From Coq Require Import Ascii String Reals List Bool Arith Lia Lra Permutation.
From Verif Require Import Prelude TreeModel VecModel VecProofs GeomModel GeomSpec GeomProofs1 GeomProofs2 GeomProofs3 GeomProofs4 TriModel PolyModel PolySpec PolyProofs1 SolidModel SolidSpec SolidProofs1 SolidProofs2 SolidProofs3.
Import ListNotations.
Local Open Scope R_scope.

(** Demonstration data: a box of 1 x 2 x 3. *)
Example demo_fits : box_fits 1 2 3 (V 5 0 (-4)) /\ box_fits 1 2 3 (V 6 2 (-4)).
Proof. split; exists 1; cbn [vx vy vz]; repeat split; try lra; unfold Rabs; destruct (Rcase_abs _); lra. Qed.

(** C53: the volume is the volume enclosed by the triangles, up to the
    tolerance of each tetrahedron. *)
Theorem C53_volume polys tss vol : Forall2 poly_mesh polys tss -> solid_volume polys = Ok vol ->
  Rabs (vol - Rabs (mesh_det (concat tss)) / 6) <= INR (length (concat tss)) * (1 / 12000000).
Proof. exact (volume_close polys tss vol). Qed.
Theorem C53_exists polys : (forall pts tris vn t, In (pts, tris, vn) polys -> In t tris -> exists q, tri_verts pts t q) -> exists vol, solid_volume polys = Ok vol.
Proof. exact (volume_total polys). Qed.
(** Moving a closed mesh does not change the enclosed volume. *)
Theorem C53_mesh_moved w ts : closed_edges (mesh_edges ts) -> mesh_det (mesh_shift w ts) = mesh_det ts.
Proof. exact (mesh_det_closed w ts). Qed.
(** For flat polygons the volume is the one given by the divergence theorem,
    whatever the triangulation. *)
Theorem C53_divergence ps cs vol : Forall2 flat_face ps cs -> solid_volume ps = Ok vol -> Rabs (vol - Rabs (flux ps cs) / 3) <= INR (triangle_count ps) * (1 / 12000000).
Proof. exact (flat_volume ps cs vol). Qed.
(** A closed solid keeps its volume when moved. *)
Theorem C53_moved w ps cs ps' cs' vol vol' : Forall2 flat_face ps cs -> Forall2 flat_face ps' cs' ->
  Forall2 (fun p p' => shifted w (fst (fst p)) (fst (fst p')) /\ snd p = snd p') ps ps' ->
  closed_surface (map (fun p => fst (fst p)) ps) -> solid_volume ps = Ok vol -> solid_volume ps' = Ok vol' ->
  Rabs (vol' - vol) <= INR (triangle_count ps + triangle_count ps') * (1 / 12000000).
Proof. exact (volume_moved w ps cs ps' cs' vol vol'). Qed.
(** Zones and buildings add up the volumes of their solids. *)
Theorem C53_total vols : total_volume vols = fold_right Rplus 0 vols.
Proof. exact (total_sum vols). Qed.
Example C53_ex : exists ps cs ps' cs', Forall2 flat_face ps cs /\ Forall2 flat_face ps' cs' /\ Forall2 (fun p p' => shifted (V 1 2 0) (fst (fst p)) (fst (fst p')) /\ snd p = snd p') ps ps' /\
  closed_surface (map (fun p => fst (fst p)) ps) /\ (exists vol, solid_volume ps = Ok vol) /\ exists tss, Forall2 poly_mesh ps tss /\ closed_edges (concat (map cyc_pairs (map (fun p => fst (fst p)) ps))).
Proof.
  destruct demo_fits as (F1 & F2). destruct (box_ok _ _ _ _ F1 (str_of "b") eq_refl) as (ws & B & _ & _ & Ho & Hv & Ht & _). destruct (box_ok _ _ _ _ F2 (str_of "b") eq_refl) as (ws' & B' & _ & _ & Ho' & Hv' & _).
  destruct (box_flat _ _ _ _ (str_of "b") _ F1 eq_refl B) as (cs & Fl). destruct (box_flat _ _ _ _ (str_of "b") _ F2 eq_refl B') as (cs' & Fl').
  exists (all_polys ws), cs, (all_polys ws'), cs'. split; auto. split; auto. assert (O : map (fun p => fst (fst p)) (all_polys ws) = box_outlines 1 2 3 (V 5 0 (-4))) by (rewrite <- Ho; unfold all_polys, outlines; rewrite map_map; auto).
  rewrite O. split; [|split; [apply box_closed|split; [apply (flat_total _ _ Fl)|]]].
  - unfold outlines, normals, box_outlines in *. destruct ws as [|w0 [|w1 [|w2 [|w3 [|w4 [|w5 [|w6 ws]]]]]]]; try discriminate. destruct ws' as [|v0 [|v1 [|v2 [|v3 [|v4 [|v5 [|v6 ws']]]]]]]; try discriminate. cbn [map] in *.
    injection Ho as A0 A1 A2 A3 A4 A5. injection Hv as N0 N1 N2 N3 N4 N5. injection Ho' as D0 D1 D2 D3 D4 D5. injection Hv' as M0 M1 M2 M3 M4 M5. unfold all_polys. cbn [map].
    repeat first [apply Forall2_nil|apply Forall2_cons]; cbn [fst snd]; (split; [|congruence]); unfold shifted; rewrite ?A0, ?A1, ?A2, ?A3, ?A4, ?A5, ?D0, ?D1, ?D2, ?D3, ?D4, ?D5; cbn [map]; unfold box_point; vunf; repeat match goal with |- _ :: _ = _ :: _ => f_equal end; try reflexivity; f_equal; ring.
  - destruct (flat_mesh_list _ _ Fl) as (tss & M & _). exists tss. split; auto. apply (box_closed 1 2 3 (V 5 0 (-4))).
Qed.
Print Assumptions C53_volume.
Print Assumptions C53_exists.
Print Assumptions C53_mesh_moved.
Print Assumptions C53_divergence.
Print Assumptions C53_moved.
Print Assumptions C53_total.

(** C66: a box has six rectangular faces with outward normals, and its volume. *)
Theorem C66_box x y z mv name : box_fits x y z mv -> validate_name name = Ok name -> exists ws vol, box x y z mv name = Ok ws /\
  map fst ws = [str_of "floor"; str_of "wall_0"; str_of "wall_1"; str_of "wall_2"; str_of "wall_3"; str_of "ceiling"] /\
  outlines ws = box_faces x y z mv /\ normals ws = [V 0 0 (-1); V 0 (-1) 0; V 1 0 0; V 0 1 0; V (-1) 0 0; V 0 0 1] /\
  map (fun w => p_area (snd (snd w))) ws = [y * x; x * z; y * z; z * x; z * y; x * y] /\
  solid_volume (all_polys ws) = Ok vol /\ Rabs (vol - x * y * z) <= 1 / 1000000.
Proof. exact (box_correct x y z mv name). Qed.
(** The 24 directed edges are different and come in opposite pairs: each of the
    twelve edges is shared by exactly two faces. *)
Theorem C66_edges x y z mv : box_fits x y z mv ->
  closed_surface (box_faces x y z mv) /\ NoDup (concat (map cyc_pairs (box_faces x y z mv))) /\ length (concat (map cyc_pairs (box_faces x y z mv))) = 24%nat.
Proof. exact (box_shared x y z mv). Qed.
Theorem C66_outward x y z mv : 0 <= x -> 0 <= y -> 0 <= z ->
  Forall2 (outward (concat (box_faces x y z mv))) (box_faces x y z mv) [V 0 0 (-1); V 0 (-1) 0; V 1 0 0; V 0 1 0; V (-1) 0 0; V 0 0 1].
Proof. exact (box_outward x y z mv). Qed.
Theorem C66_bad_name x y z mv name : box_fits x y z mv -> validate_name name = Err ValueError -> box x y z mv name = Err ValueError.
Proof. exact (fun F => box_bad_name x y z mv F name). Qed.
(** Far from the origin, compared to its size, no box can be built: the corners
    are taken for one point by the relative tolerance. *)
Theorem C66_far x y z mv name : 0 < x -> 0 < y -> 1 / 100000000 < x * y -> 100001 * x <= Rabs (vx mv) -> box x y z mv name = Err TriangulationError.
Proof. exact (fun X Y A F => far_box x y z mv X Y A F name). Qed.
Theorem C66_everywhere_refuted : ~ (forall x y z mv, 0 < x -> 0 < y -> 0 < z -> exists ws, box x y z mv (str_of "b") = Ok ws).
Proof. exact far_unit_box. Qed.
Example C66_ex : box_fits 1 2 3 (V 5 0 (-4)) /\ validate_name (str_of "b") = Ok (str_of "b") /\ validate_name (str_of "a/b") = Err ValueError.
Proof. split; [apply demo_fits|split; reflexivity]. Qed.
Print Assumptions C66_box.
Print Assumptions C66_edges.
Print Assumptions C66_outward.
Print Assumptions C66_bad_name.
Print Assumptions C66_far.
Print Assumptions C66_everywhere_refuted.
