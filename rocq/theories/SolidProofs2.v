(** The volume of a solid made of flat triangulated polygons. *)
From Coq Require Import Ascii String Reals List Bool Arith Lia Lra Permutation.
From Verif Require Import Prelude TreeModel VecModel VecProofs GeomModel GeomSpec GeomProofs1 GeomProofs2 GeomProofs3 GeomProofs4 TriModel TriSpec TriProofs TriProofs2 PolyModel PolySpec PolyProofs1 SolidModel SolidSpec.
Import ListNotations.
Local Open Scope R_scope.

Definition tri_corners (pts : list vec) (t : nat * nat * nat) : vec * vec * vec := let '(i, j, k) := t in (corner pts i, corner pts j, corner pts k).
Lemma flat_mesh pts ts vn c : flat_face (pts, ts, vn) c -> poly_mesh (pts, ts, vn) (map (tri_corners pts) ts) /\ mesh_det (map (tri_corners pts) ts) = c * (2 * polygon_area pts vn).
Proof.
  intros (U & P & pts0 & L & H). destruct (tri_structure _ _ _ _ L H) as (R & _ & B & _). assert (L' : length pts = length pts0) by (destruct R as [->| ->]; rewrite ?rev_length; auto).
  assert (Q : forall t, In t ts -> tri_vec pts t = smul (dot (tri_vec pts t) vn) vn /\ 0 < dot (tri_vec pts t) vn).
  { intros ((i, j), k) I. destruct (B _ _ _ I) as (_ & _ & _ & Bi & Bj & Bk). split; [|apply (tri_positive _ _ _ _ H L); auto].
    assert (M : forall m, (m < length pts0)%nat -> dot vn (corner pts m) = c) by (intros m Hm; apply P; apply nth_In; lia).
    apply parallel_eq; auto. apply (in_plane_cross vn c); auto. }
  split; [split|].
  - induction ts as [|((i, j), k) ts IH]; constructor.
    + destruct (B i j k ltac:(simpl; auto)) as (_ & _ & _ & Bi & Bj & Bk). cbn. unfold corner. repeat split; apply nth_error_nth'; lia.
    + clear - B L'. assert (B' : forall a b c, In (a, b, c) ts -> (a < length pts0)%nat /\ (b < length pts0)%nat /\ (c < length pts0)%nat) by (intros a b d I; apply (B a b d); simpl; auto).
      clear B. induction ts as [|((a, b), d) ts IH]; constructor; [|apply IH; intros; apply B'; simpl; auto]. destruct (B' a b d ltac:(simpl; auto)) as (Ba & Bb & Bd). cbn. unfold corner. repeat split; apply nth_error_nth'; lia.
  - intros a b d I. apply in_map_iff in I. destruct I as (((i, j), k) & E & I). injection E as <- <- <-. destruct (Q _ I) as (E & Z). exists (dot (tri_vec pts (i, j, k)) vn). split; [lra|]. exact E.
  - assert (A : polygon_area pts vn = Rsum (map (fun t => dot (tri_vec pts t) vn / 2) ts)) by (destruct (tri_area_sum _ _ _ _ H L) as (E1 & E2); congruence). rewrite A.
    assert (Hc : forall t, In t ts -> dot vn (corner pts (fst (fst t))) = c). { intros ((i, j), k) I. destruct (B _ _ _ I) as (_ & _ & _ & Bi & _). apply P. apply nth_In. cbn. lia. }
    clear - Q Hc. induction ts as [|((i, j), k) ts IH]; [simpl; ring|]. cbn [map mesh_det fold_right]. cbn [tri_corners]. fold (mesh_det (map (tri_corners pts) ts)). rewrite IH by (intros; first [apply Q|apply Hc]; simpl; auto).
    rewrite Rsum_cons. destruct (Q (i, j, k) ltac:(simpl; auto)) as (E & _). pose proof (Hc (i, j, k) ltac:(simpl; auto)) as Hi. cbn [fst] in Hi. rewrite det_edge. fold (tri_vec pts (i, j, k)). unfold tri_vec in E |- *. rewrite E at 1. rewrite dot_smul_r, (dot_comm (corner pts i) vn), Hi. field.
Qed.
Lemma flat_mesh_list ps cs : Forall2 flat_face ps cs -> exists tss, Forall2 poly_mesh ps tss /\ mesh_det (concat tss) = 2 * flux ps cs /\ length (concat tss) = triangle_count ps.
Proof.
  intros F. induction F as [|((pts, ts), vn) c ps cs H F IH]; [exists []; repeat split; auto; simpl; ring|]. destruct IH as (tss & F' & D & L). destruct (flat_mesh _ _ _ _ H) as (M & E).
  exists (map (tri_corners pts) ts :: tss). split; [constructor; auto|]. cbn [concat flux triangle_count fold_right fst snd]. fold (triangle_count ps). rewrite mesh_det_app, E, D, app_length, map_length, L. split; auto. ring.
Qed.
Lemma flat_volume ps cs vol : Forall2 flat_face ps cs -> solid_volume ps = Ok vol -> Rabs (vol - Rabs (flux ps cs) / 3) <= INR (triangle_count ps) * (1 / 12000000).
Proof.
  intros F H. destruct (flat_mesh_list _ _ F) as (tss & M & D & L). pose proof (volume_close _ _ _ M H) as C. rewrite D, L in C. rewrite Rabs_mult, (Rabs_pos_eq 2) in C by lra. replace (2 * Rabs (flux ps cs) / 6) with (Rabs (flux ps cs) / 3) in C by field. auto.
Qed.
Lemma flat_total ps cs : Forall2 flat_face ps cs -> exists vol, solid_volume ps = Ok vol.
Proof.
  intros F. apply volume_total. intros pts ts vn t I It. destruct (flat_mesh_list _ _ F) as (tss & M & _). assert (G : exists tv, poly_mesh (pts, ts, vn) tv).
  { clear - M I. induction M as [|p tv ps tss H M IH]; [destruct I|]. destruct I as [->|I]; eauto. }
  destruct G as (tv & G & _). clear - G It. induction G as [|t' q ts tv H G IH]; [destruct It|]. destruct It as [<-|It]; eauto.
Qed.
(** Moving a closed solid. *)
Lemma flat_vector pts ts vn c : flat_face (pts, ts, vn) c -> vector_area2 pts = smul (2 * polygon_area pts vn) vn.
Proof.
  intros F. pose proof F as (U & P & pts0 & L & H). destruct (flat_mesh _ _ _ _ F) as ((_ & M) & _). rewrite <- (tri_vector_area _ _ _ _ H L).
  assert (A : polygon_area pts vn = Rsum (map (fun t => dot (tri_vec pts t) vn / 2) ts)) by (destruct (tri_area_sum _ _ _ _ H L) as (E1 & E2); congruence). rewrite A.
  assert (Q : forall t, In t ts -> tri_vec pts t = smul (dot (tri_vec pts t) vn) vn).
  { intros ((i, j), k) I. destruct (M (corner pts i) (corner pts j) (corner pts k)) as (s & _ & E); [apply in_map_iff; exists (i, j, k); auto|]. unfold tri_vec. rewrite E. rewrite dot_smul_l, U. f_equal. ring. }
  clear - Q. induction ts as [|t ts IH]; [vunf; simpl; f_equal; ring|]. cbn [map fold_right]. rewrite IH by (intros; apply Q; simpl; auto). rewrite Rsum_cons. rewrite (Q t) at 1 by (simpl; auto). dvec vn. vunf. f_equal; field.
Qed.
Lemma flux_shift w ps cs ps' cs' : Forall2 flat_face ps cs -> Forall2 flat_face ps' cs' -> Forall2 (fun p p' => shifted w (fst (fst p)) (fst (fst p')) /\ snd p = snd p') ps ps' ->
  2 * flux ps' cs' = 2 * flux ps cs + dot w (fold_right vadd vzero (map (fun p => vector_area2 (fst (fst p))) ps)).
Proof.
  intros F. revert ps' cs'. induction F as [|((pts, ts), vn) c ps cs H F IH]; intros ps' cs' F' S; inversion S as [|x p' y ps'' (Sh & Sn) S']; subst; inversion F' as [|x' c' y' cs'' H' F'']; subst.
  - cbn. vunf. ring.
  - destruct p' as ((pts', ts'), vn'). cbn [fst snd] in Sh, Sn. subst vn'. cbn [flux map fold_right fst]. pose proof (IH _ _ F'' S') as E. pose proof (flat_vector _ _ _ _ H) as Ev.
    assert (Ea : polygon_area pts' vn = polygon_area pts vn). { destruct H as (_ & _ & p0 & L & T). destruct (tri_structure _ _ _ _ L T) as (R & _). assert (3 <= length pts)%nat by (destruct R as [->| ->]; rewrite ?rev_length; auto). rewrite Sh. rewrite !polygon_area_eq by (rewrite ?map_length; auto). rewrite vector_area2_shift. auto. }
    assert (Ec : c' = c + dot vn w). { destruct H as (_ & P & p0 & L & T). destruct H' as (_ & P' & _). destruct (tri_structure _ _ _ _ L T) as (R & _). destruct pts as [|q pts]; [destruct R as [R|R]; [subst; simpl in L; lia|apply (f_equal (@length _)) in R; rewrite rev_length in R; simpl in R; lia]|].
      rewrite <- (P q) by (simpl; auto). rewrite <- (P' (vadd q w)); [apply dot_vadd_r|]. rewrite Sh. simpl; auto. }
    rewrite Ea, Ec, Ev. set (r := fold_right vadd vzero _) in *. replace (dot w (vadd (smul (2 * polygon_area pts vn) vn) r)) with (2 * polygon_area pts vn * dot vn w + dot w r) by (clear; clearbody r; dvec w; dvec vn; dvec r; vunf; ring). lra.
Qed.
Lemma concat_area ps : fold_right vadd vzero (map (fun p => vector_area2 p) ps) = fold_right vadd vzero (map (fun e => cross (fst e) (snd e)) (concat (map cyc_pairs ps))).
Proof.
  induction ps as [|p ps IH]; auto. cbn [map concat fold_right]. rewrite map_app, IH. unfold vector_area2. generalize (map (fun e : vec * vec => cross (fst e) (snd e)) (cyc_pairs p)). intros l. set (r := map _ (concat _)). clearbody r. clear. induction l as [|x l IH]; cbn [app fold_right]; [dvec (fold_right vadd vzero r); vunf; f_equal; ring|].
  rewrite <- IH. generalize (fold_right vadd vzero l) (fold_right vadd vzero r). intros a b. dvec x; dvec a; dvec b; vunf; f_equal; ring.
Qed.
Lemma volume_moved w ps cs ps' cs' vol vol' : Forall2 flat_face ps cs -> Forall2 flat_face ps' cs' -> Forall2 (fun p p' => shifted w (fst (fst p)) (fst (fst p')) /\ snd p = snd p') ps ps' ->
  closed_surface (map (fun p => fst (fst p)) ps) -> solid_volume ps = Ok vol -> solid_volume ps' = Ok vol' ->
  Rabs (vol' - vol) <= INR (triangle_count ps + triangle_count ps') * (1 / 12000000).
Proof.
  intros F F' S C H H'. pose proof (flux_shift w _ _ _ _ F F' S) as E. unfold closed_surface in C. apply closed_zero in C. rewrite <- concat_area, map_map in C. rewrite C in E. assert (E' : flux ps' cs' = flux ps cs) by (replace (dot w vzero) with 0 in E by (dvec w; vunf; ring); lra).
  pose proof (flat_volume _ _ _ F H) as A. pose proof (flat_volume _ _ _ F' H') as B. rewrite E' in B. rewrite plus_INR, Rmult_plus_distr_r. replace (vol' - vol) with ((vol' - Rabs (flux ps cs) / 3) + - (vol - Rabs (flux ps cs) / 3)) by ring.
  eapply Rle_trans; [apply Rabs_triang|]. rewrite Rabs_Ropp. lra.
Qed.

(** Built polygons are triangulated around their normal. *)
Lemma made_triangulated pts p : make_polygon pts None None = Ok p -> triangulate_pts pts (p_vn p) = Ok (p_pts p, p_tri p) /\ polygon_area (p_pts p) (p_vn p) = p_area p /\ (3 <= length pts)%nat.
Proof.
  unfold make_polygon. destruct (check_polygon pts) as [[]|] eqn:C; [|discriminate]. cbn [rbind]. unfold build_polygon. destruct (do t <- first_three pts; _) as [vn|]; [|discriminate]. cbn [rbind].
  destruct (triangulate_pts pts vn) as [(r, ts)|] eqn:T; [|discriminate]. cbn [rbind]. destruct (polygon_centroid r ts); [|discriminate]. cbn [rbind]. destruct (plane_coefficients r); [|discriminate]. cbn [rbind]. intros H. apply Ok_inj in H. subst p. cbn [p_vn p_pts p_tri p_area]. split; auto. split; auto.
  unfold check_polygon in C. destruct (are_points_coplanar pts GEOM_ATOL) as [[|]|]; try discriminate. cbn [rbind negb] in C. destruct (length pts <? 3)%nat eqn:L; [discriminate|]. apply Nat.ltb_ge in L. auto.
Qed.
Lemma named_made name pts np : named_polygon name pts = Ok np -> make_polygon pts None None = Ok (snd np).
Proof.
  unfold named_polygon, make_polygon. destruct (check_polygon pts) as [[]|]; [|discriminate]. cbn [rbind]. destruct (validate_name name); [|discriminate]. cbn [rbind]. destruct (build_polygon pts None None); [|discriminate]. cbn [rbind]. intros H. apply Ok_inj in H. subst np. auto.
Qed.
