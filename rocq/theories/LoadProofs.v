(** Proofs about polygons read from files. *)
From Coq Require Import ZArith Reals List Bool Arith Lia Lra Psatz.
From Verif Require Import  Prelude TreeModel VecModel VecProofs GeomModel GeomSpec GeomProofs1 GeomProofs2 GeomProofs3 GeomProofs4 TriModel TriSpec TriProofs TriProofs2 TriProofs3 PolyModel PolySpec PolyProofs1 PolyProofs2 SolidModel SolidSpec SolidProofs2 PlanSpec PlanProofs1 GeomProofs3 LoadModel LoadSpec.
Import ListNotations.
Local Open Scope R_scope.

Lemma made_all pts vn0 p : make_polygon pts None vn0 = Ok p ->
  triangulate_pts pts (p_vn p) = Ok (p_pts p, p_tri p) /\ polygon_area (p_pts p) (p_vn p) = p_area p /\ (3 <= length pts)%nat /\
  polygon_centroid (p_pts p) (p_tri p) = Ok (p_ctr p) /\ plane_coefficients (p_pts p) = Ok (p_plane p).
Proof.
  unfold make_polygon. destruct (check_polygon pts) as [[]|] eqn:C; [|discriminate]. cbn [rbind]. unfold build_polygon.
  destruct (match vn0 with Some v => Ok v | None => _ end) as [vn|]; [|discriminate]. cbn [rbind].
  destruct (triangulate_pts pts vn) as [(r, ts)|] eqn:T; [|discriminate]. cbn [rbind]. destruct (polygon_centroid r ts) eqn:Ec; [|discriminate]. cbn [rbind]. destruct (plane_coefficients r) eqn:Ep; [|discriminate]. cbn [rbind]. intros H. apply Ok_inj in H. subst p. cbn [p_vn p_pts p_tri p_area p_ctr p_plane].
  split; auto. split; auto. split; auto. unfold check_polygon in C. destruct (are_points_coplanar pts GEOM_ATOL) as [[|]|]; try discriminate. cbn [rbind negb] in C. destruct (length pts <? 3)%nat eqn:L; [discriminate|]. apply Nat.ltb_ge in L. auto.
Qed.

Lemma loaded_cases pts vn0 p c : make_polygon pts None vn0 = Ok p -> unit (p_vn p) -> in_plane (p_vn p) c pts ->
  (good_start (p_pts p) -> load_polygon (p_pts p) (p_tri p) = Ok (as_it_was p)) /\
  (~ first_convex (p_pts p) -> 1 / 100000000 < corner_size (p_pts p) -> load_polygon (p_pts p) (p_tri p) = Ok (turned_round p)) /\
  (corner_size (p_pts p) <= 1 / 100000000 -> load_polygon (p_pts p) (p_tri p) = Ok (without_normal p)).
Proof.
  intros H U P. destruct (made_all _ _ _ H) as (T & Ar & L & Ec & Ep). set (n := p_vn p) in *.
  assert (P' : in_plane n c (p_pts p)). { destruct (tri_structure _ _ _ _ L T) as ([->| ->] & _); auto. intros q I. apply P, in_rev; auto. }
  assert (L' : (3 <= length (p_pts p))%nat) by (destruct (tri_structure _ _ _ _ L T) as ([->| ->] & _); rewrite ?rev_length; auto).
  pose proof (tri_orientation _ _ _ _ T L) as O. rewrite dot_comm in O.
  pose proof (tri_nonempty _ _ _ _ T L) as Ne.
  assert (Ck : check_polygon (p_pts p) = Ok tt).
  { unfold check_polygon. rewrite coplanar_accepted; [|unfold GEOM_ATOL; lra|exists n, c; split; [intros E; unfold unit in U; rewrite E in U; vunf; lra|exact P']]. cbn [rbind negb]. rewrite (proj2 (Nat.ltb_ge _ _) L'). auto. }
  pose proof (first_convex_turn n c _ U P') as Fc.
  destruct (p_pts p) as [|p0 [|p1 r]] eqn:E; try (simpl in L'; lia). unfold load_polygon. rewrite Ck. cbn [rbind first_three].
  pose proof (last_in p0 (p1 :: r)) as La. set (l := last (p0 :: p1 :: r) p0) in *.
  assert (Cr : cross (vsub p0 l) (vsub p1 l) = smul (turn0 n (p0 :: p1 :: r)) n).
  { replace (turn0 n (p0 :: p1 :: r)) with (dot n (cross (vsub p0 l) (vsub p1 l))).
    - apply plane_cross; auto; rewrite dot_diff_r, !P' by (auto; simpl; auto); ring.
    - unfold turn0. fold l. clearbody l. f_equal. dvec p0; dvec p1; dvec l; vunf; f_equal; ring. }
  set (t := turn0 n (p0 :: p1 :: r)) in *.
  assert (Sz : corner_size (p0 :: p1 :: r) = Rabs t). { unfold corner_size. fold l. unfold true_area. rewrite Cr, norm_smul, (unit_norm n U). field. }
  assert (F : first_convex (p0 :: p1 :: r) <-> 0 < t). { rewrite Fc. split; intros X; [|apply Rmult_lt_0_compat; auto]. destruct (Rlt_dec 0 t); auto. exfalso. assert (t * dot n (vector_area2 (p0 :: p1 :: r)) <= 0) by nra. lra. }
  destruct (p_tri p) as [|t0 ts] eqn:Et; [exfalso; apply Ne; auto|]. rewrite Ec. cbn [rbind]. rewrite Ep. cbn [rbind]. unfold as_it_was, turned_round, without_normal. rewrite E, Et.
  split; [|split].
  - intros (A & B). rewrite Sz in B. apply F in A. rewrite (normal_parallel l p0 p1 n t U); auto; [|rewrite Rabs_pos_eq in B; lra]. cbn [option_map]. rewrite Ar. auto.
  - intros A B. rewrite Sz in B. assert (t <= 0) by (destruct (Rlt_dec 0 t); [exfalso; apply A, F; auto|lra]). rewrite Rabs_left1 in B by auto.
    rewrite (normal_parallel l p0 p1 (vopp n) (- t)); auto.
    + cbn [option_map]. rewrite <- Ar. fold n. do 3 f_equal. rewrite !polygon_area_eq by auto. f_equal. rewrite (dot_comm _ (vopp n)), (dot_comm _ n). unfold vopp. rewrite dot_smul_l. replace (-1 * dot n (vector_area2 (p0 :: p1 :: r))) with (- dot n (vector_area2 (p0 :: p1 :: r))) by ring. rewrite Rabs_Ropp. auto.
    + unfold unit, vopp. rewrite dot_smul_l, dot_comm, dot_smul_l. unfold unit in U. rewrite U. ring.
    + rewrite Cr. clear. clearbody t n. dvec n. vunf. f_equal; ring.
  - intros A. rewrite Sz in A. replace (normal l p0 p1) with (@None vec); auto. symmetry. apply normal_none. rewrite Cr, norm_smul, (unit_norm n U), Rmult_1_r. auto.
Qed.
