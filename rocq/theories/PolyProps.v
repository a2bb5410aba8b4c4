(** Properties C65 and C70: facing polygons, planes, projections, distances. *)
From Coq Require Import Reals List Bool Arith Lia Lra ZArith Permutation.
From Verif Require Import Prelude VecModel VecProofs GeomModel GeomSpec GeomProofs1 GeomProofs2 GeomProofs3 GeomProofs4 GeomProofs5 TriModel PolyModel PolySpec PolyProofs1 PolyProofs2 PolyProofs3 PolyProofs4.
Import ListNotations.
Local Open Scope R_scope.

(** C65: polygons reported as facing have opposite normals, equal areas,
    overlapping boxes, and every point of the first has a partner of its own. *)
Theorem C65_sound pts1 vn1 pts2 vn2 : are_polygons_facing pts1 vn1 pts2 vn2 = Ok true ->
  allclose vn1 (vopp vn2) GEOM_RTOL ATOL8 = true /\ (exists m, matching (fun p q => points_equal p q = true) pts1 pts2 m) /\
  isclose (polygon_area pts1 vn1) (polygon_area pts2 vn2) RTOL ATOL8 = true /\
  exists b1 b2, bounding_box pts1 = Ok b1 /\ bounding_box pts2 = Ok b2 /\ are_bboxes_overlapping b1 b2 = true.
Proof. exact (facing_sound pts1 vn1 pts2 vn2). Qed.
(** The same outline seen from the other side, started anywhere, is facing. *)
Theorem C65_complete pts1 vn1 pts2 : (3 <= length pts1)%nat -> told_apart pts1 -> rotation_of (rev pts1) pts2 ->
  are_polygons_facing pts1 vn1 pts2 (vopp vn1) = Ok true /\ are_polygons_facing pts2 (vopp vn1) pts1 vn1 = Ok true.
Proof. exact (facing_complete pts1 vn1 pts2). Qed.
(** With equally many points that are told apart the points agree, and the
    answer for the swapped pair differs at most by the comparison tolerance. *)
Theorem C65_symmetric pts1 vn1 pts2 vn2 : told_apart (pts1 ++ pts2) -> length pts1 = length pts2 -> are_polygons_facing pts1 vn1 pts2 vn2 = Ok true ->
  Permutation pts1 pts2 /\
  are_polygons_facing pts2 vn2 pts1 vn1 = Ok (allclose vn2 (vopp vn1) GEOM_RTOL ATOL8 && isclose (polygon_area pts2 vn2) (polygon_area pts1 vn1) RTOL ATOL8).
Proof. exact (facing_symmetric pts1 vn1 pts2 vn2). Qed.
(** An extra vertex on an edge of the second polygon breaks the symmetry. *)
Theorem C65_symmetric_refuted : ~ (forall pts1 vn1 pts2 vn2, are_polygons_facing pts1 vn1 pts2 vn2 = Ok true -> are_polygons_facing pts2 vn2 pts1 vn1 = Ok true).
Proof. exact (fun H => Bool.diff_true_false (Ok_inj _ _ (eq_trans (eq_sym (H _ _ _ _ (proj1 facing_asymmetric))) (proj2 facing_asymmetric)))). Qed.
Example C65_ex : let sq := map at3 [(0, 0, 0); (2, 0, 0); (2, 2, 0); (0, 2, 0)]%Z in let sq' := map at3 [(2, 0, 0); (0, 0, 0); (0, 2, 0); (2, 2, 0)]%Z in
  (3 <= length sq)%nat /\ told_apart sq /\ told_apart (sq ++ sq') /\ length sq = length sq' /\ rotation_of (rev sq) sq'.
Proof.
  cbn zeta. split; [simpl; lia|]. split; [apply at3_apart; reflexivity|]. split; [rewrite <- map_app; apply at3_apart; reflexivity|]. split; auto.
  exists (map at3 [(0, 2, 0); (2, 2, 0)]%Z), (map at3 [(2, 0, 0); (0, 0, 0)]%Z). split; reflexivity.
Qed.
Print Assumptions C65_sound.
Print Assumptions C65_complete.
Print Assumptions C65_symmetric.
Print Assumptions C65_symmetric_refuted.

(** C70: the plane has a unit normal and contains the last and the first two
    points, turning around the normal; for coplanar points it contains all. *)
Theorem C70_plane pts n d : plane_coefficients pts = Ok (Some (n, d)) ->
  unit n /\ exists p0 p1 r, pts = p0 :: p1 :: r /\ on_plane n d (last pts p0) /\ on_plane n d p0 /\ on_plane n d p1 /\ 0 < dot n (cross (vsub p0 (last pts p0)) (vsub p1 (last pts p0))).
Proof. exact (plane_start pts n d). Qed.
Theorem C70_plane_all pts n d : plane_coefficients pts = Ok (Some (n, d)) -> coplanar pts -> forall p, In p pts -> on_plane n d p.
Proof. exact (plane_all pts n d). Qed.
Theorem C70_no_plane pts : plane_coefficients pts = Ok None <-> exists p0 p1 r, pts = p0 :: p1 :: r /\ 2 * true_area (last pts p0) p0 p1 <= 1 / 100000000.
Proof. exact (plane_missing pts). Qed.
(** A projection goes to the only point of the line in the plane; a forward
    projection is refused when that point lies behind. *)
Theorem C70_projection pt v pts ts fwd atol n d b : plane_coefficients pts = Ok (Some (n, d)) -> 0 < atol -> atol <= Rabs (dot n v) ->
  exists s, on_plane n d (vadd pt (smul s v)) /\ (forall s', on_plane n d (vadd pt (smul s' v)) -> s' = s) /\
  (is_point_inside_projection pt v pts ts fwd atol = Ok b <->
   if fwd && Rltb s 0 then b = false else is_point_inside (vadd pt (smul s v)) pts ts true atol = Ok b).
Proof. exact (projection_spec pt v pts ts fwd atol n d b). Qed.
(** For directions parallel to the plane the point itself is tested. *)
Theorem C70_parallel pt v pts ts fwd atol n d : plane_coefficients pts = Ok (Some (n, d)) -> Rabs (dot n v) < atol ->
  is_point_inside_projection pt v pts ts fwd atol = is_point_inside pt pts ts true atol.
Proof. exact (projection_parallel pt v pts ts fwd atol n d). Qed.
(** Accepted points are near the box, coplanar, inside a triangle and, when
    asked for, not at the boundary. *)
Theorem C70_inside pt pts ts bin atol : is_point_inside pt pts ts bin atol = Ok true ->
  is_point_inside_bbox pt pts (1 / 100) = Ok true /\ are_points_coplanar (pts ++ [pt]) atol = Ok true /\
  (exists t a b c, In t ts /\ tri_verts pts t (a, b, c) /\ is_point_inside_triangle pt a b c GEOM_ATOL = Ok true) /\
  (bin = false -> is_point_at_boundary pt pts atol = Ok false).
Proof. exact (inside_sound_poly pt pts ts bin atol). Qed.
(** At the boundary means on one of the edges. *)
Theorem C70_boundary pt pts atol : pts <> [] -> exists b, is_point_at_boundary pt pts atol = Ok b /\ (b = true <-> exists e, In e (cyc_pairs pts) /\ is_point_on_segment pt (fst e) (snd e) atol = true).
Proof. exact (boundary_test pt pts atol). Qed.
(** Inside with a margin means inside and at least so far from the outline. *)
Theorem C70_margin pt m pts ts :
  (is_point_inside_margin pt m pts ts = Ok true -> is_point_inside pt pts ts true GEOM_ATOL = Ok true /\ forall q, on_outline pts q -> m <= dist pt q) /\
  (pts <> [] -> (forall e, In e (cyc_pairs pts) -> fst e <> snd e) -> is_point_inside pt pts ts true GEOM_ATOL = Ok true -> (forall q, on_outline pts q -> m <= dist pt q) -> is_point_inside_margin pt m pts ts = Ok true) /\
  (is_point_inside pt pts ts true GEOM_ATOL = Ok false -> is_point_inside_margin pt m pts ts = Ok false).
Proof. exact (conj (margin_inside pt m pts ts) (conj (margin_accepts pt m pts ts) (margin_outside pt m pts ts))). Qed.
(** A polygon contains another if it does so with all its points, a little away
    from its outline. *)
Theorem C70_contains p q : contains_polygon p q = Ok true <-> forall v, In v (p_pts q) -> is_point_inside_margin v (1 / 10000000000000) (p_pts p) (p_tri p) = Ok true.
Proof. exact (allM_true _ (p_pts q)). Qed.
(** Without a plane at the first corner nothing is projected: every point is
    refused if the polygon has a normal elsewhere; a point is accepted only for
    a triangle with an edge without length, and always if that is the first. *)
Theorem C70_no_normal pt v pts ts fwd atol a b eps : plane_coefficients pts = Ok None -> forall x, x = is_point_inside_projection pt v pts ts fwd atol \/ x = is_segment_crossing_polygon a b pts ts eps ->
  (~ thin_triples pts -> x = Ok false) /\
  (x = Ok true -> thin_triples pts /\ exists t p q s, In t ts /\ tri_verts pts t (p, q, s) /\ (dist p q <= 1 / 1000000000000 \/ dist q s <= 1 / 1000000000000 \/ dist s p <= 1 / 1000000000000)) /\
  (forall t ts' p q s, thin_triples pts -> ts = t :: ts' -> tri_verts pts t (p, q, s) -> dist p q <= 1 / 1000000000000 \/ dist q s <= 1 / 1000000000000 \/ dist s p <= 1 / 1000000000000 -> x = Ok true).
Proof.
  intros P x Hx. replace x with (nan_inside pts ts) by (destruct Hx as [-> | ->]; [unfold is_point_inside_projection|unfold is_segment_crossing_polygon]; rewrite P; reflexivity). exact (no_normal pts ts).
Qed.
(** A corner given three times, and one of its triangles; a point in a triangle
    one quarter away from its outline. *)
Example C70_no_normal_ex : let pts := [V 0 0 0; V 0 0 0; V 0 0 0] in plane_coefficients pts = Ok None /\ thin_triples pts /\ tri_verts pts (0, 1, 2)%nat (V 0 0 0, V 0 0 0, V 0 0 0) /\ dist (V 0 0 0) (V 0 0 0) <= 1 / 1000000000000.
Proof.
  cbn zeta. assert (A : true_area (V 0 0 0) (V 0 0 0) (V 0 0 0) = 0) by (unfold true_area; replace (cross _ _) with vzero by (vunf; f_equal; ring); rewrite (proj2 (norm_zero vzero) eq_refl); lra).
  split; [apply plane_missing; exists (V 0 0 0), (V 0 0 0), [V 0 0 0]; split; auto; cbn [last]; rewrite A; lra|]. split; [|split; [repeat split|]].
  - assert (G : forall i (x : vec), nth_error [V 0 0 0; V 0 0 0; V 0 0 0] i = Some x -> x = V 0 0 0) by (intros [|[|[|[|i]]]] x H; cbn in H; congruence). intros i a b c Ha Hb Hc. apply G in Ha, Hb, Hc. subst. rewrite A. lra.
  - unfold dist. replace (vsub _ _) with vzero by (vunf; f_equal; ring). rewrite (proj2 (norm_zero vzero) eq_refl). lra.
Qed.
(** When the polygon's normal is the plane's, the distance is the one to the
    plane for points above the polygon and the one to the outline otherwise. *)
Theorem C70_distance pt pts ts r n d : plane_coefficients pts = Ok (Some (n, d)) -> distance_point_to_polygon pt pts ts n = Ok r ->
  (is_point_inside_ortho pt pts ts = Ok true /\ distance_to (on_plane n d) pt r) \/
  (is_point_inside_ortho pt pts ts = Ok false /\ distance_to (on_outline pts) pt r).
Proof. exact (fun P => distance_spec pt pts ts n r n d P eq_refl). Qed.
Theorem C70_ortho pt pts ts n d : plane_coefficients pts = Ok (Some (n, d)) -> exists k,
  (forall p, In p pts -> on_plane n d p -> dot n (vadd p (smul k n)) = dot n pt) /\
  is_point_inside_ortho pt pts ts = is_point_inside pt (map (fun p => vadd p (smul k n)) pts) ts true GEOM_ATOL.
Proof. exact (ortho_spec pt pts ts n d). Qed.
Theorem C70_undefined pt pts ts : plane_coefficients pts = Ok None -> is_point_inside_ortho pt pts ts = Err AssertionError /\
  forall vn, norm vn <> 0 -> distance_point_to_polygon pt pts ts vn = Err AssertionError.
Proof. exact (undefined_plane pt pts ts). Qed.
(** A polygon whose first and last corners are reflex is stored with a normal
    opposite to its plane's, and one of its vertices is 2 away from it. *)
Theorem C70_distance_refuted : exists pts p v, make_polygon pts None None = Ok p /\ In v (p_pts p) /\ p_vn p = V 0 0 (-1) /\ p_plane p = Some (V 0 0 1, -1) /\
  distance_point_to_polygon v (p_pts p) (p_tri p) (p_vn p) = Ok 2.
Proof.
  exact opposite_witness.
Qed.
Example C70_ex : exists n d, plane_coefficients (map at3 [(0, 0, 1); (2, 0, 1); (0, 2, 1)]%Z) = Ok (Some (n, d)) /\ Rabs (dot n (V 1 1 0)) < GEOM_ATOL /\ GEOM_ATOL <= Rabs (dot n (V 1 1 (-1))).
Proof.
  exists (V 0 0 1), (-1). split.
  - unfold plane_coefficients. cbn [map first_three last rbind]. rewrite (normal_parallel _ _ _ (V 0 0 1) 4); [|unfold unit; vunf; ring|lra|unfold at3; vunf; f_equal; ring].
    cbn [option_map]. unfold projection_coefficients. f_equal. f_equal. f_equal. unfold at3. vunf. ring.
  - unfold GEOM_ATOL. vunf. split; [replace (0 * 1 + 0 * 1 + 1 * 0) with 0 by ring; rewrite Rabs_R0; lra|]. replace (0 * 1 + 0 * 1 + 1 * -1) with (-1) by ring. rewrite Rabs_left; lra.
Qed.
Example C70_distance_ex : exists pts ts n d r, plane_coefficients pts = Ok (Some (n, d)) /\ distance_point_to_polygon (V 0 0 1) pts ts n = Ok r.
Proof.
  exists (map at3 [(0, 0, 1); (2, 0, 1); (0, 2, 1)]%Z), [(0, 1, 2)]%nat, (V 0 0 1), (-1).
  assert (P : plane_coefficients (map at3 [(0, 0, 1); (2, 0, 1); (0, 2, 1)]%Z) = Ok (Some (V 0 0 1, -1))).
  { unfold plane_coefficients. cbn [map first_three last rbind]. rewrite (normal_parallel _ _ _ (V 0 0 1) 4); [|unfold unit; vunf; ring|lra|unfold at3; vunf; f_equal; ring].
    cbn [option_map]. unfold projection_coefficients. f_equal. f_equal. f_equal. unfold at3. vunf. ring. }
  assert (C : coplanar (map at3 [(0, 0, 1); (2, 0, 1); (0, 2, 1)]%Z)). { exists (V 0 0 1), 1. split; [intros H; injection H; lra|]. intros q I. simpl in I. repeat (destruct I as [<-|I]; [vunf; ring|]). destruct I. }
  assert (I : is_point_inside_ortho (V 0 0 1) (map at3 [(0, 0, 1); (2, 0, 1); (0, 2, 1)]%Z) [(0, 1, 2)]%nat = Ok true).
  { destruct (ortho_spec (V 0 0 1) _ [(0, 1, 2)]%nat _ _ P) as (k & K & ->). pose proof (K (V 0 0 1) ltac:(simpl; auto) (plane_all _ _ _ P C (V 0 0 1) ltac:(simpl; auto))) as Q. assert (k = 0) by (vunf; lra). subst k.
    replace (map _ _) with (map at3 [(0, 0, 1); (2, 0, 1); (0, 2, 1)]%Z) by (cbn [map]; unfold at3; vunf; repeat f_equal; ring).
    apply (vertex_inside _ _ _ _ (0, 1, 2)%nat (V 0 0 1) (V 2 0 1) (V 0 2 1)); auto; try reflexivity; [unfold GEOM_ATOL; lra|simpl; auto|repeat split|simpl; auto]. }
  eexists. split; [exact P|]. unfold distance_point_to_polygon. rewrite P, I. cbn [rbind]. rewrite (unit_norm (V 0 0 1)) by (unfold unit; vunf; ring). replace (Reqb 1 0) with false by (symmetry; apply Reqb_false; lra). reflexivity.
Qed.
Print Assumptions C70_plane.
Print Assumptions C70_plane_all.
Print Assumptions C70_no_plane.
Print Assumptions C70_projection.
Print Assumptions C70_parallel.
Print Assumptions C70_inside.
Print Assumptions C70_distance.
Print Assumptions C70_ortho.
Print Assumptions C70_undefined.
Print Assumptions C70_distance_refuted.
Print Assumptions C70_boundary.
Print Assumptions C70_margin.
Print Assumptions C70_contains.
Print Assumptions C70_no_normal.
