(** Facing polygons and distances: further lemmas and witnesses. *)
From Coq Require Import Reals List Bool Arith Lia Lra ZArith Permutation.
From Verif Require Import Prelude VecModel VecProofs GeomModel GeomSpec GeomProofs1 GeomProofs2 GeomProofs3 GeomProofs4 GeomProofs5 TriModel TriSpec PolyModel PolySpec PolyProofs1 PolyProofs2.
Import ListNotations.
Local Open Scope R_scope.

Lemma facing_shared p pts1 vn1 pts2 vn2 : In p pts1 -> In p pts2 ->
  are_polygons_facing pts1 vn1 pts2 vn2 = Ok (allclose vn1 (vopp vn2) GEOM_RTOL ATOL8 && ((count_matching pts1 pts2 [] =? length pts1)%nat && isclose (polygon_area pts1 vn1) (polygon_area pts2 vn2) RTOL ATOL8)).
Proof.
  intros I1 I2. unfold are_polygons_facing. destruct (allclose vn1 (vopp vn2) GEOM_RTOL ATOL8); auto. cbn [negb andb].
  destruct (bbox_spec pts1) as (lo1 & hi1 & -> & B1); [intros ->; destruct I1|]. destruct (bbox_spec pts2) as (lo2 & hi2 & -> & B2); [intros ->; destruct I2|]. cbn [rbind].
  assert (J1 : in_bbox (lo1, hi1) p) by (intros c Ic; apply (B1 c Ic); auto). assert (J2 : in_bbox (lo2, hi2) p) by (intros c Ic; apply (B2 c Ic); auto).
  replace (are_bboxes_overlapping (lo1, hi1) (lo2, hi2)) with true; auto. symmetry. apply overlap_spec; eauto.
Qed.
Lemma facing_complete pts1 vn1 pts2 : (3 <= length pts1)%nat -> told_apart pts1 -> rotation_of (rev pts1) pts2 ->
  are_polygons_facing pts1 vn1 pts2 (vopp vn1) = Ok true /\ are_polygons_facing pts2 (vopp vn1) pts1 vn1 = Ok true.
Proof.
  intros L T R. assert (Pm : Permutation pts1 pts2). { destruct R as (a & b & E & ->). rewrite (Permutation_rev pts1), E. apply Permutation_app_comm. }
  assert (T' : told_apart (pts1 ++ pts2)). { assert (Q : forall p, In p (pts1 ++ pts2) -> In p pts1) by (intros p Ip; apply in_app_iff in Ip; destruct Ip as [|Ip]; auto; apply (Permutation_in _ (Permutation_sym Pm)); auto). intros p q Ip Iq. apply T; auto. }
  assert (T2 : told_apart (pts2 ++ pts1)). { intros p q Ip Iq. apply T'; apply in_app_iff; apply in_app_iff in Ip, Iq; tauto. }
  assert (Ln : length pts1 = length pts2) by (apply Permutation_length; auto).
  assert (A : polygon_area pts2 (vopp vn1) = polygon_area pts1 vn1). { rewrite !polygon_area_eq by lia. rewrite <- (vector_area2_rot _ _ R), vector_area2_rev. f_equal. f_equal. generalize (vector_area2 pts1). intros v. dvec v. dvec vn1. vunf. ring. }
  destruct pts1 as [|p r]; [simpl in L; lia|]. assert (I1 : In p (p :: r)) by (simpl; auto). assert (I2 : In p pts2) by (eapply Permutation_in; eauto).
  assert (O : vopp (vopp vn1) = vn1) by (dvec vn1; vunf; f_equal; ring).
  split; [rewrite (facing_shared p) by auto|rewrite (facing_shared p) by auto]; rewrite ?O, A, !allclose_refl, isclose_refl by (unfold GEOM_RTOL, RTOL, ATOL8; lra).
  - rewrite (proj2 (count_perm _ _ T' Ln) Pm), Nat.eqb_refl. auto.
  - rewrite (proj2 (count_perm _ _ T2 (eq_sym Ln)) (Permutation_sym Pm)), Nat.eqb_refl. auto.
Qed.

(** Matching of integer points. *)
Fixpoint zfind (p : z3) (matched : list nat) (j : nat) (l : list z3) : option nat :=
  match l with
  | [] => None
  | q :: r => if negb (memb j matched) && zeqb p q then Some j else zfind p matched (S j) r
  end.
Fixpoint zcount (l1 l2 : list z3) (matched : list nat) : nat :=
  match l1 with
  | [] => 0
  | p :: r => match zfind p matched 0 l2 with Some j => S (zcount r l2 (j :: matched)) | None => zcount r l2 matched end
  end.
Lemma z3_find p m l : small3 p = true -> forallb small3 l = true -> forall j, find_match (at3 p) m j (map at3 l) = zfind p m j l.
Proof.
  intros Sp. induction l as [|q l IH]; intros S j; auto. cbn [forallb] in S. apply andb_true_iff in S. destruct S as (Sq & S). cbn [map find_match zfind]. rewrite z3_equal by auto. rewrite IH by auto. auto.
Qed.
Lemma z3_count l1 l2 : forallb small3 l1 = true -> forallb small3 l2 = true -> forall m, count_matching (map at3 l1) (map at3 l2) m = zcount l1 l2 m.
Proof.
  intros S1 S2. induction l1 as [|p l1 IH]; intros m; auto. cbn [forallb] in S1. apply andb_true_iff in S1. destruct S1 as (Sp & S1). cbn [map count_matching zcount]. rewrite z3_find by auto. destruct (zfind p m 0 l2); rewrite IH by auto; auto.
Qed.
Lemma at3_apart l : forallb small3 l = true -> told_apart (map at3 l).
Proof.
  intros S p q Ip Iq E. apply in_map_iff in Ip, Iq. destruct Ip as (a & <- & Ia), Iq as (b & <- & Ib). rewrite forallb_forall in S. rewrite z3_equal in E by auto. apply zeqb_eq in E. subst. auto.
Qed.
Definition sq4 : list z3 := [(0, 0, 0); (2, 0, 0); (2, 2, 0); (0, 2, 0)]%Z.
Definition sq5 : list z3 := [(0, 0, 0); (0, 2, 0); (2, 2, 0); (2, 0, 0); (1, 0, 0)]%Z.
Definition up1 : vec := V 0 0 1.
Definition down1 : vec := V 0 0 (-1).
Lemma facing_asymmetric : are_polygons_facing (map at3 sq4) up1 (map at3 sq5) down1 = Ok true /\ are_polygons_facing (map at3 sq5) down1 (map at3 sq4) up1 = Ok false.
Proof.
  assert (A4 : polygon_area (map at3 sq4) up1 = 4). { rewrite polygon_area_eq by (simpl; lia). replace (dot (vector_area2 (map at3 sq4)) up1) with 8; [rewrite Rabs_pos_eq; lra|]. unfold vector_area2, sq4, at3, up1, cyc_pairs. cbn [map app combine fold_right fst snd]. vunf. ring. }
  assert (A5 : polygon_area (map at3 sq5) down1 = 4). { rewrite polygon_area_eq by (simpl; lia). replace (dot (vector_area2 (map at3 sq5)) down1) with 8; [rewrite Rabs_pos_eq; lra|]. unfold vector_area2, sq5, at3, down1, cyc_pairs. cbn [map app combine fold_right fst snd]. vunf. ring. }
  assert (O1 : vopp down1 = up1) by (unfold down1, up1; vunf; f_equal; ring). assert (O2 : vopp up1 = down1) by (unfold down1, up1; vunf; f_equal; ring).
  split; (rewrite (facing_shared (at3 (0, 0, 0)%Z)) by (simpl; auto)); rewrite ?O1, ?O2, ?A4, ?A5, z3_count by reflexivity; rewrite allclose_refl by (unfold GEOM_RTOL, ATOL8; lra).
  - rewrite isclose_refl by (unfold RTOL, ATOL8; lra). reflexivity.
  - replace (zcount sq5 sq4 [] =? length (map at3 sq5))%nat with false by reflexivity. reflexivity.
Qed.

(** The normal opposite to the plane's: a vertex of the first triangle is
    reported at twice the plane's offset. *)
Lemma opposite_distance pts ts n d v t a b c : plane_coefficients pts = Ok (Some (n, d)) -> coplanar pts -> In v pts -> hd_error ts = Some t -> tri_verts pts t (a, b, c) -> In v [a; b; c] ->
  distance_point_to_polygon v pts ts (vopp n) = Ok (2 * Rabs d).
Proof.
  intros P C I Ht Tv Iv. pose proof (plane_all _ _ _ P C) as Pa. destruct (plane_spec _ _ _ P) as (U & _). unfold distance_point_to_polygon. rewrite P. cbn [rbind].
  assert (No : norm (vopp n) = 1) by (unfold vopp; rewrite norm_smul, (unit_norm n U), Rabs_left; lra). rewrite No. replace (Reqb 1 0) with false by (symmetry; apply Reqb_false; lra).
  destruct (ortho_spec v pts ts n d P) as (k & K & ->). assert (k = 0). { pose proof (K v I (Pa v I)) as Q. rewrite dot_vadd_r, dot_smul_r in Q. unfold unit in U. rewrite U in Q. lra. } subst k.
  replace (map (fun p => vadd p (smul 0 n)) pts) with pts. 2:{ symmetry. rewrite <- (map_id pts) at 2. apply map_ext. intros p. dvec p; dvec n; vunf; f_equal; ring. }
  rewrite (vertex_inside pts ts GEOM_ATOL v t a b c) by (auto; unfold GEOM_ATOL; lra). cbn [rbind]. f_equal. rewrite <- (Rabs_pos_eq 2) at 1 by lra. rewrite <- Rabs_mult.
  pose proof (Pa v I) as Q. unfold vopp. rewrite dot_smul_l. replace ((-1 * dot n v + d) / 1) with (2 * d); auto. lra.
Qed.
(** A polygon built by the code with both its first and last corner reflex. *)
Definition ushape : list z3 := [(2, 2, 1); (2, 4, 1); (0, 4, 1); (0, 0, 1); (6, 0, 1); (6, 4, 1); (4, 4, 1); (4, 2, 1)]%Z.
Lemma ushape_made : exists p, make_polygon (map at3 ushape) None None = Ok p /\ p_pts p = map at3 (rev ushape) /\ p_vn p = V 0 0 (-1) /\ p_plane p = Some (V 0 0 1, -1) /\
  distance_point_to_polygon (V 4 2 1) (p_pts p) (p_tri p) (p_vn p) = Ok 2.
Proof.
  destruct (zmake_spec ushape (rev ushape) [(0, 1, 2); (0, 2, 3); (0, 3, 4); (4, 5, 6); (4, 6, 7); (4, 7, 0)]%nat (0, 0, -1)%Z eq_refl) as (_ & p & M & Ep & Et & En).
  exists p. split; auto. split; auto. split; [rewrite En; reflexivity|].
  assert (Pl : plane_coefficients (map at3 (rev ushape)) = Ok (Some (V 0 0 1, -1))).
  { unfold plane_coefficients, ushape. cbn [rev app map first_three last rbind]. rewrite (normal_parallel _ _ _ (V 0 0 1) 4).
    - cbn [option_map]. unfold projection_coefficients. f_equal. f_equal. f_equal. unfold at3. vunf. ring.
    - unfold unit; vunf; ring.
    - lra.
    - unfold at3. vunf. f_equal; ring. }
  assert (C : coplanar (map at3 (rev ushape))). { exists (V 0 0 1), 1. split; [intros H; injection H; lra|]. intros q I. unfold ushape in I. simpl in I. repeat (destruct I as [<-|I]; [vunf; ring|]). destruct I. }
  split.
  - clear - M Ep Pl. unfold make_polygon in M. destruct (check_polygon (map at3 ushape)); [|discriminate]. cbn [rbind] in M. unfold build_polygon in M. destruct (do t <- first_three (map at3 ushape); _) as [vn|]; [|discriminate]. cbn [rbind] in M.
    destruct (triangulate_pts (map at3 ushape) vn) as [(r, ts)|]; [|discriminate]. cbn [rbind] in M. destruct (polygon_centroid r ts); [|discriminate]. cbn [rbind] in M. destruct (plane_coefficients r) as [pc|] eqn:E; [|discriminate]. cbn [rbind] in M. apply Ok_inj in M. subst p. cbn [p_pts p_plane] in *. subst r. rewrite Pl in E. apply Ok_inj in E. auto.
  - rewrite Ep, Et, En. replace 2 with (2 * Rabs (-1)) at 2 by (rewrite Rabs_left; lra). replace (at3 (0, 0, -1)%Z) with (vopp (V 0 0 1)) by (unfold at3; vunf; f_equal; ring).
    eapply (opposite_distance _ _ (V 0 0 1) (-1) _ (0, 1, 2)%nat); eauto; [simpl; auto|repeat split; reflexivity|simpl; auto].
Qed.
Lemma opposite_witness : exists pts p v, make_polygon pts None None = Ok p /\ In v (p_pts p) /\ p_vn p = V 0 0 (-1) /\ p_plane p = Some (V 0 0 1, -1) /\
  distance_point_to_polygon v (p_pts p) (p_tri p) (p_vn p) = Ok 2.
Proof. destruct ushape_made as (p & M & E & N & P & D). exists (map at3 ushape), p, (V 4 2 1). split; auto. split; auto. rewrite E. simpl. auto. Qed.
