(** Projections, distances, facing polygons and volumes. *)
From Coq Require Import Reals List Bool Arith Lia Lra ZArith Permutation.
From Verif Require Import Prelude VecModel VecProofs GeomModel GeomSpec GeomProofs1 GeomProofs2 GeomProofs3 GeomProofs4 GeomProofs5 TriModel TriSpec TriProofs TriProofs2 PolyModel PolySpec.
Import ListNotations.
Local Open Scope R_scope.

(** Loops. *)
Lemma anyM_true {A} (f : A -> result bool) l : anyM f l = Ok true -> exists x, In x l /\ f x = Ok true.
Proof.
  induction l as [|x l IH]; [discriminate|]. cbn [anyM]. destruct (f x) as [[|]|] eqn:E; cbn [rbind]; intros H; try discriminate; [exists x; simpl; auto|].
  destruct (IH H) as (y & I & F). exists y; simpl; auto.
Qed.
Lemma anyM_false {A} (f : A -> result bool) l : anyM f l = Ok false <-> forall x, In x l -> f x = Ok false.
Proof.
  induction l as [|x l IH]; cbn [anyM]; [split; auto; intros _ x []|]. destruct (f x) as [[|]|] eqn:E; cbn [rbind]; split; intros H.
  - discriminate.
  - rewrite (H x) in E by (simpl; auto). discriminate.
  - intros y [<-|I]; auto. apply IH; auto.
  - apply IH. intros y I. apply H. simpl; auto.
  - discriminate.
  - rewrite (H x) in E by (simpl; auto). discriminate.
Qed.
Lemma allM_true {A} (f : A -> result bool) l : allM f l = Ok true <-> forall x, In x l -> f x = Ok true.
Proof.
  induction l as [|x l IH]; cbn [allM]; [split; auto; intros _ x []|]. destruct (f x) as [[|]|] eqn:E; cbn [rbind]; split; intros H.
  - intros y [<-|I]; auto. apply IH; auto.
  - apply IH. intros y I. apply H. simpl; auto.
  - discriminate.
  - rewrite (H x) in E by (simpl; auto). discriminate.
  - discriminate.
  - rewrite (H x) in E by (simpl; auto). discriminate.
Qed.

(** Planes and projections (C70). *)
Lemma dot_vadd_r n a b : dot n (vadd a b) = dot n a + dot n b.
Proof. vunf. ring. Qed.
Lemma dot_smul_r n k a : dot n (smul k a) = k * dot n a.
Proof. vunf. ring. Qed.
Lemma projection_spec pt v pts ts fwd atol n d b : plane_coefficients pts = Ok (Some (n, d)) -> 0 < atol -> atol <= Rabs (dot n v) ->
  exists s, on_plane n d (vadd pt (smul s v)) /\ (forall s', on_plane n d (vadd pt (smul s' v)) -> s' = s) /\
  (is_point_inside_projection pt v pts ts fwd atol = Ok b <->
   if fwd && Rltb s 0 then b = false else is_point_inside (vadd pt (smul s v)) pts ts true atol = Ok b).
Proof.
  intros H A L. assert (N : dot n v <> 0) by (intros E; rewrite E, Rabs_R0 in L; lra).
  set (s := (- d - vx n * vx pt - vy n * vy pt - vz n * vz pt) / dot n v). exists s. unfold on_plane. split; [|split].
  - rewrite dot_vadd_r, dot_smul_r. unfold s. replace (dot n pt) with (vx n * vx pt + vy n * vy pt + vz n * vz pt) by (unfold dot; auto). field. auto.
  - intros s'. rewrite dot_vadd_r, dot_smul_r. intros E. unfold s. replace (- d - vx n * vx pt - vy n * vy pt - vz n * vz pt) with (s' * dot n v) by (unfold dot in *; lra). field. auto.
  - unfold is_point_inside_projection. rewrite H. cbn [rbind]. rewrite (proj2 (Rltb_false _ _) L). fold s. destruct (fwd && Rltb s 0); [|tauto]. split; [intros E; apply Ok_inj in E; auto|intros ->; auto].
Qed.
Lemma projection_parallel pt v pts ts fwd atol n d : plane_coefficients pts = Ok (Some (n, d)) -> Rabs (dot n v) < atol ->
  is_point_inside_projection pt v pts ts fwd atol = is_point_inside pt pts ts true atol.
Proof. intros H L. unfold is_point_inside_projection. rewrite H. cbn [rbind]. rewrite (proj2 (Rltb_true _ _) L). auto. Qed.

Lemma plane_distance n d p : unit n -> distance_to (on_plane n d) p (Rabs (dot n p + d)).
Proof.
  intros U. unfold on_plane. split.
  - exists (vadd p (smul (- (dot n p + d)) n)). split; [rewrite dot_vadd_r, dot_smul_r; unfold unit in U; rewrite U; ring|].
    unfold dist. replace (vsub (vadd p (smul (- (dot n p + d)) n)) p) with (smul (- (dot n p + d)) n) by vring. rewrite norm_smul, (unit_norm n U), Rabs_Ropp. ring.
  - intros q Q. unfold dist. replace (dot n p + d) with (- dot n (vsub q p)) by (unfold vsub; replace d with (- dot n q) by lra; unfold dot; cbn [vx vy vz]; ring). rewrite Rabs_Ropp.
    assert (C : dot n (vsub q p) * dot n (vsub q p) <= dot (vsub q p) (vsub q p)).
    { unfold unit in U. set (w := vsub q p). clearbody w. assert (0 <= dot (cross n w) (cross n w)) by apply dot_pos.
      assert (I : dot (cross n w) (cross n w) = dot n n * dot w w - dot n w * dot n w) by (vunf; ring). rewrite I, U in H. lra. }
    rewrite <- norm_sq in C. apply Rsqr_le_abs_0 in C. rewrite (Rabs_pos_eq (norm _)) in C by apply norm_pos. auto.
Qed.
Lemma edge_list_min pt es ds : mapM (fun e => distance_point_to_edge pt (fst e) (snd e)) es = Ok ds ->
  Forall2 (fun e d => distance_to (on_segment (fst e) (snd e)) pt d) es ds.
Proof.
  intros H. apply mapM_Forall2 in H. induction H as [|(a, b) d es ds H F IH]; constructor; auto. clear F IH. cbn [fst snd] in *.
  assert (N : a <> b) by (intros E; apply (dist_edge_err pt) in E; congruence). destruct (dist_edge_min pt a b N) as (d' & E & S). rewrite E in H. apply Ok_inj in H. subst d'.
  unfold distance_to. destruct S as ((q & Q1 & Q2) & S2). split; [exists q|]; auto.
Qed.
Lemma distance_spec pt pts ts vn r n d : plane_coefficients pts = Ok (Some (n, d)) -> vn = n -> distance_point_to_polygon pt pts ts vn = Ok r ->
  (is_point_inside_ortho pt pts ts = Ok true /\ distance_to (on_plane n d) pt r) \/
  (is_point_inside_ortho pt pts ts = Ok false /\ distance_to (on_outline pts) pt r).
Proof.
  intros H -> . destruct (plane_spec _ _ _ H) as (U & _). unfold distance_point_to_polygon. rewrite H. cbn [rbind]. rewrite (unit_norm n U), (proj2 (Reqb_false 1 0)) by lra.
  destruct (is_point_inside_ortho pt pts ts) as [[|]|]; cbn [rbind]; [left|right|discriminate]; split; auto.
  - apply Ok_inj in H0. subst r. unfold Rdiv. rewrite Rinv_1, Rmult_1_r. apply plane_distance; auto.
  - destruct pts as [|p0 pts']; [discriminate|]. rewrite polygon_edges_eq in H0 by discriminate. cbn [rbind] in H0. destruct (mapM _ _) as [ds|] eqn:E; [|discriminate]. cbn [rbind] in H0.
    apply edge_list_min in E. apply lmin_spec in H0. destruct H0 as (I & M). split.
    + apply In_nth_error in I. destruct I as (i & I). assert (X : exists e, nth_error (cyc_pairs (p0 :: pts')) i = Some e /\ distance_to (on_segment (fst e) (snd e)) pt r).
      { clear - E I. revert i I. induction E as [|e d es ds S F IH]; intros [|i] I; try discriminate; simpl in I; [injection I as <-; exists e; auto|apply IH; auto]. }
      destruct X as (e & Ie & ((q & Q & D) & _)). exists q. split; auto. exists e. split; auto. eapply nth_error_In; eauto.
    + intros q (e & Ie & Q). apply In_nth_error in Ie. destruct Ie as (i & Ie).
      assert (X : exists d', nth_error ds i = Some d' /\ distance_to (on_segment (fst e) (snd e)) pt d').
      { clear - E Ie. revert i Ie. induction E as [|e' d es ds S F IH]; intros [|i] I; try discriminate; simpl in I; [injection I as <-; exists d; auto|apply IH; auto]. }
      destruct X as (d' & Id & (_ & S)). apply nth_error_In in Id. pose proof (M _ Id). pose proof (S q Q). lra.
Qed.
(** The polygon moved along its normal until its plane contains the point. *)
Lemma ortho_spec pt pts ts n d : plane_coefficients pts = Ok (Some (n, d)) -> exists k,
  (forall p, In p pts -> on_plane n d p -> dot n (vadd p (smul k n)) = dot n pt) /\
  is_point_inside_ortho pt pts ts = is_point_inside pt (map (fun p => vadd p (smul k n)) pts) ts true GEOM_ATOL.
Proof.
  intros H. destruct (plane_spec _ _ _ H) as (U & _). unfold is_point_inside_ortho. rewrite H. cbn [rbind projection_coefficients snd]. exists (d - -1 * dot n pt). split; auto.
  intros p _ O. unfold on_plane in O. rewrite dot_vadd_r, dot_smul_r. unfold unit in U. rewrite U. lra.
Qed.
Lemma undefined_plane pt pts ts : plane_coefficients pts = Ok None -> is_point_inside_ortho pt pts ts = Err AssertionError /\
  forall vn, norm vn <> 0 -> distance_point_to_polygon pt pts ts vn = Err AssertionError.
Proof. intros H. unfold distance_point_to_polygon, is_point_inside_ortho. rewrite H. cbn [rbind]. split; auto. intros vn N. rewrite (proj2 (Reqb_false _ _) N). auto. Qed.

(** Accepted points. *)
Lemma inside_loop_sound pt pts bin atol ts : inside_loop pt pts bin atol ts = Ok true -> exists t a b c, In t ts /\ tri_verts pts t (a, b, c) /\ is_point_inside_triangle pt a b c GEOM_ATOL = Ok true /\
  (bin = false -> is_point_at_boundary pt pts atol = Ok false).
Proof.
  induction ts as [|t ts IH]; [discriminate|]. cbn [inside_loop]. destruct (tri_pts pts t) as [((a, b), c)|] eqn:E; [|discriminate]. cbn [rbind]. apply tri_pts_spec in E.
  destruct (is_point_inside_triangle pt a b c GEOM_ATOL) as [[|]|] eqn:I; [| |discriminate]; cbn [rbind]; intros H.
  - exists t, a, b, c. split; [simpl; auto|]. split; auto. split; auto. intros ->. destruct (is_point_at_boundary pt pts atol) as [[|]|]; cbn [rbind negb] in H; try discriminate. auto.
  - destruct (IH H) as (t' & a' & b' & c' & It & X). exists t', a', b', c'. split; [simpl; auto|]. exact X.
Qed.
Lemma inside_sound_poly pt pts ts bin atol : is_point_inside pt pts ts bin atol = Ok true ->
  is_point_inside_bbox pt pts (1 / 100) = Ok true /\ are_points_coplanar (pts ++ [pt]) atol = Ok true /\
  (exists t a b c, In t ts /\ tri_verts pts t (a, b, c) /\ is_point_inside_triangle pt a b c GEOM_ATOL = Ok true) /\
  (bin = false -> is_point_at_boundary pt pts atol = Ok false).
Proof.
  unfold is_point_inside. destruct (is_point_inside_bbox pt pts (1 / 100)) as [[|]|]; cbn [rbind negb]; try discriminate.
  destruct (are_points_coplanar (pts ++ [pt]) atol) as [[|]|]; cbn [rbind negb]; try discriminate. intros H. apply inside_loop_sound in H. destruct H as (t & a & b & c & I & T & A & B).
  split; auto. split; auto. split; auto. exists t, a, b, c. auto.
Qed.
Lemma vertex_inside pts ts atol v t a b c : 0 < atol -> coplanar pts -> In v pts -> hd_error ts = Some t -> tri_verts pts t (a, b, c) -> In v [a; b; c] -> is_point_inside v pts ts true atol = Ok true.
Proof.
  intros A C I Ht Tv Iv. destruct ts as [|t' ts]; [discriminate|]. injection Ht as ->. unfold is_point_inside. assert (Np : pts <> []) by (destruct pts; [destruct I|discriminate]).
  destruct (inside_bbox_spec v pts (1 / 100) Np) as (bb & E & S). assert (bb = true).
  { apply S. intros c0 Ic. split; exists v; split; auto; lra. }
  subst bb. rewrite E. cbn [rbind negb]. rewrite coplanar_accepted; auto.
  - cbn [rbind negb inside_loop]. apply tri_pts_spec in Tv. rewrite Tv. cbn [rbind]. rewrite inside_vertex by auto. auto.
  - destruct C as (n & k & N & C). exists n, k. split; auto. intros p Ip. apply in_app_iff in Ip. destruct Ip as [Ip|[<-|[]]]; auto.
Qed.

(** Facing polygons (C65). *)
Lemma find_match_spec p matched l : forall j k, find_match p matched j l = Some k -> exists i q, k = (j + i)%nat /\ nth_error l i = Some q /\ points_equal p q = true /\ ~ In k matched.
Proof.
  induction l as [|q l IH]; intros j k H; [discriminate|]. cbn [find_match] in H. destruct (negb (memb j matched) && points_equal p q) eqn:E.
  - injection H as <-. apply andb_true_iff in E. destruct E as (E1 & E2). exists 0%nat, q. rewrite Nat.add_0_r. split; auto. split; auto. split; auto. apply negb_true_iff in E1. intros I. apply memb_true in I. congruence.
  - apply IH in H. destruct H as (i & q' & -> & N & P & M). exists (S i), q'. split; [lia|]. auto.
Qed.
Lemma find_match_none p matched l : forall j, find_match p matched j l = None <-> forall i q, nth_error l i = Some q -> points_equal p q = true -> In (j + i)%nat matched.
Proof.
  induction l as [|q l IH]; intros j; cbn [find_match]; [split; auto; intros _ [|i] q; discriminate|].
  destruct (negb (memb j matched) && points_equal p q) eqn:E.
  - split; [discriminate|]. intros H. apply andb_true_iff in E. destruct E as (E1 & E2). specialize (H 0%nat q eq_refl E2). rewrite Nat.add_0_r in H. apply memb_true in H. rewrite H in E1. discriminate.
  - rewrite IH. split; intros H.
    + intros [|i] q' Hn Hp; simpl in Hn.
      * injection Hn as <-. rewrite Hp, andb_true_r in E. apply negb_false_iff, memb_true in E. rewrite Nat.add_0_r. auto.
      * replace (j + S i)%nat with (S j + i)%nat by lia. eapply H; eauto.
    + intros i q' Hn Hp. replace (S j + i)%nat with (j + S i)%nat by lia. eapply H; eauto.
Qed.
Lemma count_le pts1 pts2 : forall matched, (count_matching pts1 pts2 matched <= length pts1)%nat.
Proof. induction pts1 as [|p r IH]; intros matched; simpl; auto. destruct (find_match p matched 0 pts2); [pose proof (IH (n :: matched))|pose proof (IH matched)]; lia. Qed.
Lemma count_full pts1 pts2 : forall matched, count_matching pts1 pts2 matched = length pts1 ->
  exists m, matching (fun p q => points_equal p q = true) pts1 pts2 m /\ (forall j, In j m -> ~ In j matched).
Proof.
  induction pts1 as [|p r IH]; intros matched H.
  - exists []. split; [|intros j []]. split; auto. split; [constructor|]. intros [|i] j; discriminate.
  - cbn [count_matching] in H. destruct (find_match p matched 0 pts2) as [k|] eqn:E.
    + cbn [length] in H. apply eq_add_S in H. destruct (IH _ H) as (m & (L & N & M) & D). apply find_match_spec in E. destruct E as (i & q & Ek & Hn & Hp & Nk). simpl in Ek. subst k.
      exists (i :: m). split.
      * split; [simpl; auto|]. split; [constructor; auto; intros I; apply (D i I); simpl; auto|]. intros [|i'] j Hj; simpl in Hj; [injection Hj as <-; exists p, q; auto|]. apply M in Hj. exact Hj.
      * intros j [<-|I]; auto. intros J. apply (D j I). simpl; auto.
    + pose proof (count_le r pts2 matched). simpl in H. lia.
Qed.
Lemma facing_sound pts1 vn1 pts2 vn2 : are_polygons_facing pts1 vn1 pts2 vn2 = Ok true ->
  allclose vn1 (vopp vn2) GEOM_RTOL ATOL8 = true /\ (exists m, matching (fun p q => points_equal p q = true) pts1 pts2 m) /\
  isclose (polygon_area pts1 vn1) (polygon_area pts2 vn2) RTOL ATOL8 = true /\
  exists b1 b2, bounding_box pts1 = Ok b1 /\ bounding_box pts2 = Ok b2 /\ are_bboxes_overlapping b1 b2 = true.
Proof.
  unfold are_polygons_facing. destruct (allclose vn1 (vopp vn2) GEOM_RTOL ATOL8); [|discriminate]. cbn [negb]. destruct (bounding_box pts1) as [b1|]; [|discriminate]. destruct (bounding_box pts2) as [b2|]; [|discriminate]. cbn [rbind].
  destruct (are_bboxes_overlapping b1 b2) eqn:O; [|discriminate]. cbn [negb]. intros H. apply Ok_inj in H. apply andb_true_iff in H. destruct H as (H1 & H2). apply Nat.eqb_eq in H1. apply count_full in H1. destruct H1 as (m & M & _).
  split; auto. split; [eauto|]. split; auto. exists b1, b2. auto.
Qed.
(** With exact comparison the greedy search never fails when a matching exists. *)
Lemma points_equal_refl p : points_equal p p = true.
Proof. apply allclose_refl; unfold RTOL, GEOM_ATOL; lra. Qed.
Definition vec_eq_dec (p q : vec) : {p = q} + {p <> q}.
Proof. destruct p as (a, b, c), q as (x, y, z). destruct (Req_EM_T a x) as [->|]; [|right; congruence]. destruct (Req_EM_T b y) as [->|]; [|right; congruence]. destruct (Req_EM_T c z) as [->|]; [left; auto|right; congruence]. Defined.
(** Number of unmatched occurrences. *)
Fixpoint free (p : vec) (matched : list nat) (j : nat) (l : list vec) : nat :=
  match l with [] => 0 | q :: r => ((if vec_eq_dec p q then if memb j matched then 0 else 1 else 0) + free p matched (S j) r)%nat end.
Lemma free_nil p l : forall j, free p [] j l = count_occ vec_eq_dec l p.
Proof. induction l as [|q l IH]; intros j; auto. cbn [free count_occ memb existsb]. rewrite IH. destruct (vec_eq_dec p q), (vec_eq_dec q p); try congruence; reflexivity. Qed.
Lemma free_other p q i matched l : forall j, nth_error l i = Some q -> p <> q -> free p ((j + i)%nat :: matched) j l = free p matched j l.
Proof.
  revert i. induction l as [|x l IH]; intros [|i] j H N; try discriminate; simpl in H; cbn [free].
  - injection H as ->. destruct (vec_eq_dec p q); [contradiction|]. f_equal. clear. assert (G : forall l k, (j < k)%nat -> free p ((j + 0)%nat :: matched) k l = free p matched k l).
    { clear l. induction l as [|y l IH]; intros k K; auto. cbn [free]. rewrite (IH (S k)) by lia. f_equal. destruct (vec_eq_dec p y); auto. assert (memb k ((j + 0)%nat :: matched) = memb k matched); [|rewrite H; auto].
      apply eq_true_iff_eq. rewrite !memb_true. simpl. split; [intros [?|?]; [lia|auto]|auto]. }
    apply G. lia.
  - replace (j + S i)%nat with (S j + i)%nat by lia. rewrite (IH i (S j)) by auto. f_equal. destruct (vec_eq_dec p x); auto. assert (memb j ((S j + i)%nat :: matched) = memb j matched); [|rewrite H0; auto].
    apply eq_true_iff_eq. rewrite !memb_true. simpl. split; [intros [?|?]; [lia|auto]|auto].
Qed.
Lemma free_same p i matched l : forall j, nth_error l i = Some p -> ~ In (j + i)%nat matched -> free p matched j l = S (free p ((j + i)%nat :: matched) j l).
Proof.
  revert i. induction l as [|x l IH]; intros [|i] j H N; try discriminate; simpl in H; cbn [free].
  - injection H as ->. destruct (vec_eq_dec p p); [|contradiction]. rewrite Nat.add_0_r in *. assert (E1 : memb j matched = false) by (apply not_true_iff_false; rewrite memb_true; auto).
    assert (E2 : memb j (j :: matched) = true) by (apply memb_true; simpl; auto). rewrite E1, E2. simpl. f_equal.
    assert (G : forall l k, (j < k)%nat -> free p (j :: matched) k l = free p matched k l).
    { clear. induction l as [|y l IH]; intros k K; auto. cbn [free]. rewrite (IH (S k)) by lia. f_equal. destruct (vec_eq_dec p y); auto. assert (memb k (j :: matched) = memb k matched); [|rewrite H; auto].
      apply eq_true_iff_eq. rewrite !memb_true. simpl. split; [intros [?|?]; [lia|auto]|auto]. }
    rewrite G by lia. auto.
  - replace (j + S i)%nat with (S j + i)%nat in * by lia. rewrite (IH i (S j)) by auto. rewrite Nat.add_succ_r. f_equal. f_equal. destruct (vec_eq_dec p x); auto. assert (memb j ((S j + i)%nat :: matched) = memb j matched); [|rewrite H0; auto].
    apply eq_true_iff_eq. rewrite !memb_true. simpl. split; [intros [?|?]; [lia|auto]|auto].
Qed.
Lemma free_zero p matched l : forall j, (forall i, nth_error l i = Some p -> In (j + i)%nat matched) -> free p matched j l = 0%nat.
Proof.
  induction l as [|x l IH]; intros j H; auto. cbn [free]. rewrite IH.
  - destruct (vec_eq_dec p x) as [->|]; auto. specialize (H 0%nat eq_refl). rewrite Nat.add_0_r in H. apply memb_true in H. rewrite H. auto.
  - intros i Hi. replace (S j + i)%nat with (j + S i)%nat by lia. apply H. auto.
Qed.
Lemma count_exact pts2 pts1 : forall matched, (forall p q, In p pts1 -> In q pts2 -> points_equal p q = true -> p = q) ->
  (count_matching pts1 pts2 matched = length pts1 <-> forall p, (count_occ vec_eq_dec pts1 p <= free p matched 0 pts2)%nat).
Proof.
  induction pts1 as [|x r IH]; intros matched S; cbn [count_matching].
  - simpl. split; auto. intros _ p. lia.
  - assert (S' : forall p q, In p r -> In q pts2 -> points_equal p q = true -> p = q) by (intros; apply S; simpl; auto).
    destruct (find_match x matched 0 pts2) as [k|] eqn:E.
    + cbn [length]. apply find_match_spec in E. destruct E as (i & q & Ek & Hn & Hp & Nk). simpl in Ek. subst k. assert (x = q) by (apply S; simpl; auto; eapply nth_error_In; eauto). subst q.
      split.
      * intros H. apply eq_add_S in H. rewrite (IH _ S') in H. intros p. cbn [count_occ]. specialize (H p). destruct (vec_eq_dec x p) as [<-|N].
        -- pose proof (free_same x i matched pts2 0 Hn Nk) as F. simpl in F. lia.
        -- pose proof (free_other p x i matched pts2 0 Hn (not_eq_sym N)) as F. simpl in F. rewrite F in H. auto.
      * intros H. f_equal. apply (IH _ S'). intros p. specialize (H p). cbn [count_occ] in H. destruct (vec_eq_dec x p) as [<-|N].
        -- pose proof (free_same x i matched pts2 0 Hn Nk) as F. simpl in F. lia.
        -- pose proof (free_other p x i matched pts2 0 Hn (not_eq_sym N)) as F. simpl in F. rewrite F. auto.
    + split.
      * intros H. pose proof (count_le r pts2 matched). simpl in H. lia.
      * intros H. exfalso. specialize (H x). cbn [count_occ] in H. destruct (vec_eq_dec x x); [|contradiction]. rewrite free_zero in H; [lia|].
        intros i Hi. rewrite find_match_none in E. eapply E; eauto. apply points_equal_refl.
Qed.
Lemma count_perm pts1 pts2 : told_apart (pts1 ++ pts2) -> length pts1 = length pts2 -> (count_matching pts1 pts2 [] = length pts1 <-> Permutation pts1 pts2).
Proof.
  intros T L. rewrite count_exact by (intros p q I J; apply T; apply in_app_iff; auto). split.
  - intros H. apply (Permutation_count_occ vec_eq_dec).
    assert (G : forall l1 l2, length l1 = length l2 -> (forall p, (count_occ vec_eq_dec l1 p <= count_occ vec_eq_dec l2 p)%nat) -> Permutation l1 l2).
    { clear. induction l1 as [|x l1 IH]; intros l2 L H; [destruct l2; [auto|discriminate]|].
      assert (I : In x l2). { apply (count_occ_In vec_eq_dec). specialize (H x). cbn [count_occ] in H. destruct (vec_eq_dec x x); [lia|contradiction]. }
      apply in_split in I. destruct I as (a & b & ->). apply Permutation_cons_app. apply IH; [rewrite app_length in *; simpl in L; lia|]. intros p. specialize (H p). rewrite count_occ_app in *. cbn [count_occ] in H. destruct (vec_eq_dec x p); lia. }
    intros p. apply (Permutation_count_occ vec_eq_dec). apply G; auto. intros q. rewrite <- (free_nil q pts2 0). apply H.
  - intros P p. rewrite free_nil. apply (Permutation_count_occ vec_eq_dec) with (x := p) in P. lia.
Qed.
Lemma facing_symmetric pts1 vn1 pts2 vn2 : told_apart (pts1 ++ pts2) -> length pts1 = length pts2 -> are_polygons_facing pts1 vn1 pts2 vn2 = Ok true ->
  Permutation pts1 pts2 /\
  are_polygons_facing pts2 vn2 pts1 vn1 = Ok (allclose vn2 (vopp vn1) GEOM_RTOL ATOL8 && isclose (polygon_area pts2 vn2) (polygon_area pts1 vn1) RTOL ATOL8).
Proof.
  intros T L. unfold are_polygons_facing. destruct (allclose vn1 (vopp vn2) GEOM_RTOL ATOL8); [|discriminate]. cbn [negb]. destruct (bounding_box pts1) as [b1|]; [|discriminate]. destruct (bounding_box pts2) as [b2|]; [|discriminate]. cbn [rbind].
  rewrite (overlap_sym b2 b1). destruct (are_bboxes_overlapping b1 b2) eqn:O; [|discriminate]. cbn [negb]. intros H. apply Ok_inj in H. apply andb_true_iff in H. destruct H as (H1 & H2). apply Nat.eqb_eq in H1.
  apply count_perm in H1; auto. split; auto. destruct (allclose vn2 (vopp vn1) GEOM_RTOL ATOL8); cbn [negb]; auto. f_equal.
  assert (C : count_matching pts2 pts1 [] = length pts2). { apply count_perm; auto; [|symmetry; auto]. intros p q I J. apply T; apply in_app_iff; apply in_app_iff in I, J; tauto. }
  rewrite C, Nat.eqb_refl. auto.
Qed.

(** Volumes (C53). *)
Lemma Rabs_le_inv x a : Rabs x <= a -> - a <= x <= a.
Proof. unfold Rabs. destruct (Rcase_abs x); lra. Qed.
Lemma det_origin a b c : det3 vzero a b c = dot a (cross b c).
Proof. unfold det3. vunf. ring. Qed.
Lemma det_edge a b c : dot a (cross b c) = dot a (cross (vsub b a) (vsub c a)).
Proof. vunf. ring. Qed.
Lemma signed_close vn a b c k : 0 <= k -> cross (vsub b a) (vsub c a) = smul k vn ->
  Rabs (volume_sign vn a b * tetrahedron_volume vzero a b c - dot a (cross b c) / 6) <= 1 / 12000000.
Proof.
  intros K E. pose proof (volume_bounds vzero a b c) as B. rewrite det_origin in B. assert (D : dot a (cross b c) = k * dot vn a) by (rewrite det_edge, E; vunf; ring).
  assert (P : forall x, vsub x vzero = x) by (intros; vring). unfold volume_sign. rewrite !P.
  assert (Q : k * dot vn b = k * dot vn a).
  { assert (X : dot (smul k vn) (vsub b a) = 0) by (rewrite <- E; vunf; ring). vunf. lra. }
  assert (S : dot a (cross b c) = 0 \/ (0 < dot a (cross b c) /\ 0 < dot vn a) \/ (dot a (cross b c) < 0 /\ dot vn a < 0)).
  { rewrite D. destruct (Rle_lt_or_eq_dec 0 k K) as [Kp|<-]; [|left; ring]. destruct (Rtotal_order (dot vn a) 0) as [X|[X|X]]; [right; right|left; rewrite X; ring|right; left]; nra. }
  set (V0 := tetrahedron_volume vzero a b c) in *. clearbody V0. destruct S as [S|[(S1 & S2)|(S1 & S2)]].
  - rewrite S in *. rewrite Rabs_R0 in B. assert (X : forall s, s = 1 \/ s = -1 -> Rabs (s * V0 - 0 / 6) <= 1 / 12000000) by (intros s [->| ->]; apply Rabs_le; lra). apply X. destruct (Rltb 0 _); auto.
  - rewrite (proj2 (Reqb_false _ _)) by lra. rewrite (proj2 (Rltb_true _ _)) by lra. rewrite Rabs_pos_eq in B by lra. apply Rabs_le. lra.
  - rewrite (proj2 (Reqb_false _ _)) by lra. rewrite (proj2 (Rltb_false _ _)) by lra. rewrite Rabs_left in B by lra. apply Rabs_le. lra.
Qed.
Lemma poly_volume_close p ts vs : poly_mesh p ts -> polygon_volume p = Ok vs -> Rabs (Rsum vs - mesh_det ts / 6) <= INR (length ts) * (1 / 12000000) /\ length vs = length ts.
Proof.
  destruct p as ((pts, tris), vn). intros (F & K). unfold polygon_volume. intros H. apply mapM_Forall2 in H. revert ts F K. induction H as [|t v tris vs E H IH]; intros ts F K; inversion F; subst.
  - simpl. split; auto. replace (0 - 0 / 6) with 0 by field. rewrite Rabs_R0. lra.
  - destruct y as ((a, b), c). apply tri_pts_spec in H2. rewrite H2 in E. cbn [rbind] in E. apply Ok_inj in E. subst v.
    destruct (IH l') as (IH1 & IH2); auto; [intros a' b' c' I; apply (K a' b' c'); simpl; auto|]. split; [|simpl; auto].
    destruct (K a b c) as (k & Kp & E); [simpl; auto|]. pose proof (signed_close vn a b c k Kp E) as S. rewrite Rsum_cons. cbn [mesh_det fold_right]. fold (mesh_det l'). cbn [length]. rewrite S_INR.
    set (v := volume_sign vn a b * tetrahedron_volume vzero a b c) in *. clearbody v. apply Rabs_le. apply Rabs_le_inv in S, IH1. lra.
Qed.
Lemma mesh_det_app a b : mesh_det (a ++ b) = mesh_det a + mesh_det b.
Proof. induction a as [|((x, y), z) a IH]; simpl; [|unfold mesh_det in *; rewrite IH]; ring. Qed.
Lemma fold_plus l : forall acc, fold_left Rplus l acc = acc + Rsum l.
Proof. induction l as [|x l IH]; intros acc; [unfold Rsum; simpl; ring|]. cbn [fold_left]. rewrite IH, Rsum_cons. ring. Qed.
Lemma volume_close polys tss V : Forall2 poly_mesh polys tss -> solid_volume polys = Ok V ->
  Rabs (V - Rabs (mesh_det (concat tss)) / 6) <= INR (length (concat tss)) * (1 / 12000000).
Proof.
  intros F. unfold solid_volume. destruct (mapM polygon_volume polys) as [vs|] eqn:E; [|discriminate]. cbn [rbind]. intros H. apply Ok_inj in H. subst V. rewrite fold_plus, Rplus_0_l. apply mapM_Forall2 in E.
  assert (G : Rabs (Rsum (concat vs) - mesh_det (concat tss) / 6) <= INR (length (concat tss)) * (1 / 12000000)).
  { revert tss F. induction E as [|p v polys vs Ep E IH]; intros tss F; inversion F; subst.
    - unfold Rsum. simpl. replace (0 - 0 / 6) with 0 by field. rewrite Rabs_R0. lra.
    - cbn [concat]. rewrite Rsum_app, mesh_det_app, app_length, plus_INR. destruct (poly_volume_close _ _ _ H1 Ep) as (P & _). specialize (IH _ H3). apply Rabs_le. apply Rabs_le_inv in P, IH. lra. }
  assert (R : Rabs (mesh_det (concat tss)) / 6 = Rabs (mesh_det (concat tss) / 6)). { unfold Rdiv. rewrite Rabs_mult, (Rabs_pos_eq (/ 6)); lra. }
  rewrite R. eapply Rle_trans; [apply Rabs_triang_inv2|]. auto.
Qed.
Lemma volume_total polys : (forall pts tris vn t, In (pts, tris, vn) polys -> In t tris -> exists q, tri_verts pts t q) -> exists V, solid_volume polys = Ok V.
Proof.
  intros H. assert (G : exists vs, mapM polygon_volume polys = Ok vs).
  { induction polys as [|((pts, tris), vn) polys IH]; [exists []; auto|]. destruct IH as (vs & E); [intros; eapply H; simpl; eauto|].
    assert (T : forall t, In t tris -> exists q, tri_verts pts t q) by (intros; eapply H; simpl; eauto).
    assert (X : exists v, polygon_volume (pts, tris, vn) = Ok v).
    { unfold polygon_volume. clear - T. induction tris as [|t tris IH]; [exists []; auto|]. destruct IH as (v & E); [intros; apply T; simpl; auto|]. destruct (T t) as (((a, b), c) & Q); [simpl; auto|]. apply tri_pts_spec in Q.
      cbn [mapM]. rewrite Q. cbn [rbind]. rewrite E. cbn [rbind]. eauto. }
    destruct X as (v & Ev). exists (v :: vs). cbn [mapM]. rewrite Ev. cbn [rbind]. rewrite E. auto. }
  destruct G as (vs & E). unfold solid_volume. rewrite E. cbn [rbind]. eauto.
Qed.
Lemma closed_zero es : closed_edges es -> fold_right vadd vzero (map (fun e => cross (fst e) (snd e)) es) = vzero.
Proof.
  intros C. unfold closed_edges in C. set (f := fun e : vec * vec => cross (fst e) (snd e)). pose proof (vtotal_perm _ _ (Permutation_map f C)) as E. rewrite map_map in E.
  assert (X : map (fun x => f (snd x, fst x)) es = map vopp (map f es)). { rewrite map_map. apply map_ext. intros (a, b). unfold f. cbn [fst snd]. vring. }
  rewrite X, vtotal_neg in E. unfold vtotal in E. set (v := fold_right vadd vzero (map f es)) in *. clearbody v. dvec v. unfold vopp, smul, vzero in *. cbn [vx vy vz] in E. injection E as E1 E2 E3. f_equal; lra.
Qed.
Lemma mesh_det_shift w ts : mesh_det (mesh_shift w ts) = mesh_det ts + dot w (fold_right vadd vzero (map (fun e => cross (fst e) (snd e)) (mesh_edges ts))).
Proof.
  induction ts as [|((a, b), c) ts IH]; [vunf; simpl; ring|]. unfold mesh_shift, mesh_edges in *. cbn [map concat app mesh_det fold_right]. fold (mesh_det ts). fold (mesh_det (map (fun t => let '(a, b, c) := t in (vadd a w, vadd b w, vadd c w)) ts)).
  rewrite IH. cbn [fst snd]. set (r := fold_right vadd vzero _). clearbody r. vunf. ring.
Qed.
Lemma mesh_det_closed w ts : closed_edges (mesh_edges ts) -> mesh_det (mesh_shift w ts) = mesh_det ts.
Proof. intros C. rewrite mesh_det_shift, (closed_zero _ C). vunf. ring. Qed.

(** Vectors parallel to a unit vector. *)
Lemma parallel_eq w vn : unit vn -> cross w vn = vzero -> w = smul (dot w vn) vn.
Proof.
  intros U Z. assert (I : smul (dot vn vn) w = vadd (cross vn (cross w vn)) (smul (dot w vn) vn)) by (dvec w; dvec vn; vunf; f_equal; ring). unfold unit in U. rewrite U, Z in I.
  replace (smul 1 w) with w in I by (dvec w; vunf; f_equal; ring). rewrite I at 1. generalize (smul (dot w vn) vn). intros v. dvec v; dvec vn; vunf; f_equal; ring.
Qed.
