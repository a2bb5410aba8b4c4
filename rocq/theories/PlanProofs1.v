(** Orientation of polygons; flipping. *)
From Coq Require Import Ascii String Reals List Bool Arith Lia Lra Permutation.
From Verif Require Import Prelude TreeModel VecModel VecProofs GeomModel GeomSpec GeomProofs1 GeomProofs2 GeomProofs3 GeomProofs4 TriModel TriSpec TriProofs TriProofs2 TriProofs3 PolyModel PolySpec PolyProofs1 PolyProofs2 SolidModel SolidSpec SolidProofs2 PlanSpec.
Import ListNotations.
Local Open Scope R_scope.

Lemma dot_diff_r n a b : dot n (vsub a b) = dot n a - dot n b.
Proof. dvec n; dvec a; dvec b; vunf; ring. Qed.
Lemma plane_cross n a b : dot n a = 0 -> dot n b = 0 -> unit n -> cross a b = smul (dot n (cross a b)) n.
Proof.
  intros A B U. rewrite (dot_comm n). apply parallel_eq; auto. replace (cross (cross a b) n) with (vsub (smul (dot n a) b) (smul (dot n b) a)) by (dvec n; dvec a; dvec b; vunf; f_equal; ring).
  rewrite A, B. dvec a; dvec b; vunf; f_equal; ring.
Qed.
Lemma plane_area n c pts : unit n -> in_plane n c pts -> vector_area2 pts = smul (dot n (vector_area2 pts)) n.
Proof.
  intros U P. set (w := smul (- c) n). assert (Z : forall p, In p (map (fun p => vadd p w) pts) -> dot n p = 0).
  { intros p I. apply in_map_iff in I. destruct I as (q & <- & I). rewrite dot_vadd_r, (P q I). unfold w. unfold unit in U. replace (dot n (smul (- c) n)) with (- c * dot n n) by (dvec n; vunf; ring). rewrite U. ring. }
  rewrite <- (vector_area2_shift pts w). set (l := map _ pts) in *. clearbody l. unfold vector_area2.
  assert (Q : forall e, In e (cyc_pairs l) -> cross (fst e) (snd e) = smul (dot n (cross (fst e) (snd e))) n).
  { intros e I. apply cyc_members in I. apply plane_cross; auto; apply Z; tauto. }
  clear - Q U. induction (cyc_pairs l) as [|e r IH]; cbn [map fold_right].
  - dvec n; vunf; f_equal; ring.
  - rewrite (Q e) at 1 by (simpl; auto). rewrite IH at 1 by (intros; apply Q; simpl; auto). set (v := fold_right _ _ _). rewrite dot_vadd_r. generalize (dot n v) (dot n (cross (fst e) (snd e))). intros. dvec n. vunf. f_equal; ring.
Qed.

(** The normal of a built polygon is the normal of the first corner. *)
Lemma made_normal pts p : make_polygon pts None None = Ok p -> exists p0 p1 r, pts = p0 :: p1 :: r /\ normal (last pts p0) p0 p1 = Some (p_vn p).
Proof.
  unfold make_polygon. destruct (check_polygon pts) as [[]|] eqn:C; [|discriminate]. cbn [rbind]. unfold build_polygon. destruct pts as [|p0 [|p1 r]]; [discriminate|discriminate|]. cbn [first_three rbind].
  destruct (normal (last (p0 :: p1 :: r) p0) p0 p1) as [n|] eqn:N; [|discriminate]. cbn [rbind]. destruct (triangulate_pts _ n) as [(r', ts)|] eqn:T; [|discriminate]. cbn [rbind]. destruct (polygon_centroid r' ts); [|discriminate]. cbn [rbind]. destruct (plane_coefficients r'); [|discriminate]. cbn [rbind]. intros H. apply Ok_inj in H. subst p. cbn [p_vn]. eauto 6.
Qed.
Lemma last_in {A} (x : A) l : In (last (x :: l) x) (x :: l).
Proof. induction l using rev_ind; [simpl; auto|]. change (x :: l ++ [x0]) with ((x :: l) ++ [x0]). rewrite last_last. apply in_or_app. simpl. auto. Qed.
(** The sense in which the first corner turns. *)
Definition turn0 (n : vec) (pts : list vec) : R := match pts with p0 :: p1 :: _ => dot n (cross (vsub p0 (last pts p0)) (vsub p1 p0)) | _ => 0 end.
Lemma first_convex_turn n c pts : unit n -> in_plane n c pts -> first_convex pts <-> 0 < turn0 n pts * dot n (vector_area2 pts).
Proof.
  intros U P. destruct pts as [|p0 [|p1 r]]; try (cbn [first_convex turn0]; rewrite Rmult_0_l; split; [tauto|lra]). unfold first_convex, turn0, convex_corner. pose proof (last_in p0 (p1 :: r)) as L. set (l := last _ p0) in *. rewrite (plane_area n c _ U P) at 1.
  rewrite (dot_comm n (cross _ _)). rewrite dot_comm, dot_smul_l, (dot_comm n (cross _ _)). rewrite Rmult_comm. tauto.
Qed.
Lemma made_plane n c pts p : unit n -> in_plane n c pts -> make_polygon pts None None = Ok p -> exists s, (s = 1 \/ s = -1) /\ p_vn p = smul s n /\ 0 < s * turn0 n pts /\
  0 < s * dot n (vector_area2 (p_pts p)) /\ (0 < s * dot n (vector_area2 pts) -> p_pts p = pts) /\ (s * dot n (vector_area2 pts) <= 0 -> p_pts p = rev pts /\ s * dot n (vector_area2 pts) < 0).
Proof.
  intros U P H. destruct (made_triangulated _ _ H) as (T & _ & L). destruct (made_normal _ _ H) as (p0 & p1 & r & E & N). pose proof (last_in p0 (p1 :: r)) as La. rewrite <- E in La.
  destruct (normal_spec _ _ _ _ N) as (Uv & P1 & P2 & P3 & Pos). set (l := last pts p0) in *.
  assert (Cr : cross (vsub p0 l) (vsub p1 l) = smul (turn0 n pts) n).
  { replace (turn0 n pts) with (dot n (cross (vsub p0 l) (vsub p1 l))).
    - apply plane_cross; auto; rewrite dot_diff_r, !P by (auto; rewrite E; simpl; auto); ring.
    - unfold turn0. rewrite E. rewrite <- E. fold l. clearbody l. f_equal. dvec p0; dvec p1; dvec l; vunf; f_equal; ring. }
  apply normal_some in N. destruct N as (Nn & Ev). rewrite Cr, norm_smul, (unit_norm n U), Rmult_1_r in Nn, Ev. set (t := turn0 n pts) in *.
  exists (if Rlt_dec 0 t then 1 else -1). assert (Sv : p_vn p = smul (if Rlt_dec 0 t then 1 else -1) n).
  { rewrite Ev. destruct (Rlt_dec 0 t) as [K|K]; [rewrite Rabs_pos_eq by lra|rewrite Rabs_left1 by lra]; unfold Rabs in Nn; destruct (Rcase_abs t); try lra; clear - K Nn; dvec n; vunf; f_equal; field; lra. }
  set (s := if Rlt_dec 0 t then 1 else -1) in *. assert (Ss : s = 1 \/ s = -1) by (unfold s; destruct (Rlt_dec 0 t); auto). split; auto. split; auto. split; [unfold s; destruct (Rlt_dec 0 t); [lra|]; unfold Rabs in Nn; destruct (Rcase_abs t); lra|].
  assert (Dv : forall w, dot w (p_vn p) = s * dot n w) by (intros w; rewrite Sv, dot_comm, dot_smul_l; auto).
  pose proof (tri_orientation _ _ _ _ T L) as O. destruct (tri_order _ _ _ _ T L) as (O1 & O2). rewrite Dv in *. auto.
Qed.
Lemma turn0_rev n pts : turn0 n (rev (rev pts)) = turn0 n pts.
Proof. rewrite rev_involutive. auto. Qed.
(** Construction. *)
Lemma made_orient n c pts p : unit n -> in_plane n c pts -> make_polygon pts None None = Ok p ->
  (p_vn p = n \/ p_vn p = vopp n) /\ vector_area2 (p_pts p) = smul (2 * p_area p) (p_vn p) /\ 0 < p_area p /\
  (first_convex pts -> p_pts p = pts) /\ (~ first_convex pts -> p_pts p = rev pts).
Proof.
  intros U P H. destruct (made_plane n c pts p U P H) as (s & S & Ev & T0 & Ar & K & R). destruct (made_triangulated _ _ H) as (T & Ea & L).
  assert (P' : in_plane n c (p_pts p)). { destruct (tri_structure _ _ _ _ L T) as ([->| ->] & _); auto. intros q I. apply P, in_rev; auto. }
  assert (L' : (3 <= length (p_pts p))%nat) by (destruct (tri_structure _ _ _ _ L T) as ([->| ->] & _); rewrite ?rev_length; auto).
  split; [destruct S as [->| ->]; [left|right]; rewrite Ev; dvec n; vunf; f_equal; ring|].
  assert (A2 : 2 * p_area p = s * dot n (vector_area2 (p_pts p))).
  { rewrite <- Ea, polygon_area_eq, Ev by auto. rewrite dot_comm, dot_smul_l. rewrite Rabs_pos_eq by lra. field. }
  split. { rewrite A2, Ev. rewrite (plane_area n c _ U P') at 1. generalize (dot n (vector_area2 (p_pts p))). intros d. destruct S as [->| ->]; dvec n; vunf; f_equal; ring. }
  split; [lra|]. rewrite (first_convex_turn n c pts U P). set (t := turn0 n pts) in *. set (A := dot n (vector_area2 pts)) in *. assert (s * s = 1) by (destruct S as [->| ->]; ring).
  assert (Q : (s * t) * (s * A) = t * A) by (transitivity (s * s * (t * A)); [ring|rewrite H0; ring]).
  split; intros F.
  - apply K. destruct (Rle_lt_dec (s * A) 0); auto. nra.
  - apply R. destruct (Rle_lt_dec (s * A) 0); auto. exfalso. apply F. rewrite <- Q. apply Rmult_lt_0_compat; auto.
Qed.
(** Flipping. *)
Lemma flip_orient n c p q pts : unit n -> in_plane n c pts -> make_polygon pts None None = Ok p -> flip_polygon p = Ok q ->
  p_area q = p_area p /\ (last_convex (p_pts p) -> p_pts q = rev (p_pts p) /\ p_vn q = vopp (p_vn p)) /\ (~ last_convex (p_pts p) -> p_pts q = p_pts p /\ p_vn q = p_vn p).
Proof.
  intros U P H F. unfold flip_polygon in F. destruct (made_plane n c pts p U P H) as (s & S & Ev & T0 & Ar & K & R). destruct (made_triangulated _ _ H) as (T & Ea & L).
  assert (P' : in_plane n c (p_pts p)). { destruct (tri_structure _ _ _ _ L T) as ([->| ->] & _); auto. intros r I. apply P, in_rev; auto. }
  assert (Pr : in_plane n c (rev (p_pts p))) by (intros r I; apply P', in_rev; auto).
  destruct (made_plane n c _ q U Pr F) as (s' & S' & Ev' & T0' & Ar' & K' & R'). destruct (made_triangulated _ _ F) as (T' & Ea' & L'). destruct (made_orient n c _ q U Pr F) as (_ & _ & _ & C1 & C2).
  set (A := dot n (vector_area2 (p_pts p))) in *. assert (Ar2 : dot n (vector_area2 (rev (p_pts p))) = - A) by (rewrite vector_area2_rev; unfold A; generalize (vector_area2 (p_pts p)); intros v; dvec n; dvec v; vunf; ring).
  rewrite Ar2 in *. fold (last_convex (p_pts p)) in C1, C2.
  assert (Hq : (last_convex (p_pts p) -> p_pts q = rev (p_pts p) /\ p_vn q = vopp (p_vn p)) /\ (~ last_convex (p_pts p) -> p_pts q = p_pts p /\ p_vn q = p_vn p)).
  { split; intros Hc.
    - pose proof (C1 Hc) as E. split; auto. rewrite E in Ar'. rewrite Ar2 in Ar'. assert (s' = - s) by (destruct S as [->| ->], S' as [->| ->]; lra). subst s'. rewrite Ev, Ev'. clear. dvec n; vunf; f_equal; ring.
    - pose proof (C2 Hc) as E. rewrite rev_involutive in E. split; auto. rewrite E in Ar'. fold A in Ar'. assert (s' = s) by (destruct S as [->| ->], S' as [->| ->]; lra). subst s'. congruence. }
  split; auto. destruct Hq as (Q1 & Q2). assert (L2 : (3 <= length (p_pts p))%nat) by (rewrite rev_length in L'; auto). rewrite <- Ea, <- Ea'.
  assert (D : p_pts q = rev (p_pts p) \/ p_pts q = p_pts p) by (destruct (tri_structure _ _ _ _ L' T') as ([E|E] & _); rewrite ?rev_involutive in E; auto).
  assert (G : polygon_area (p_pts q) (p_vn q) = polygon_area (p_pts p) (p_vn q)) by (destruct D as [->| ->]; auto; apply area_rev). rewrite G, !polygon_area_eq by auto. rewrite Ev, Ev'. rewrite (dot_comm _ (smul s' n)), (dot_comm _ (smul s n)), !dot_smul_l. rewrite !Rabs_mult. assert (N1 : Rabs (-1) = Rabs 1) by (rewrite Rabs_left, Rabs_R1 by lra; ring). destruct S as [->| ->], S' as [->| ->]; rewrite ?N1; auto.
Qed.
(** An L-shaped polygon that cannot be flipped. *)
Definition lshape : list z3 := [(3, 4, 0); (0, 4, 0); (0, 0, 0); (5, 0, 0); (5, 2, 0); (3, 2, 0)]%Z.
Lemma lshape_plane : in_plane (V 0 0 1) 0 (map at3 lshape).
Proof. intros p I. unfold lshape in I. simpl in I. repeat (destruct I as [<-|I]; [vunf; ring|]). destruct I. Qed.
Lemma lshape_flip : exists p q, make_polygon (map at3 lshape) None None = Ok p /\ p_pts p = map at3 lshape /\ flip_polygon p = Ok q /\ p_vn p = V 0 0 1 /\ p_vn q = V 0 0 1.
Proof.
  destruct (zmake_spec lshape lshape _ _ eq_refl) as (_ & p & M & Ep & _ & En). destruct (zmake_spec (rev lshape) lshape _ _ eq_refl) as (_ & q & M' & Ep' & _ & En').
  exists p, q. split; auto. split; auto. split; [unfold flip_polygon; rewrite Ep; rewrite <- map_rev; auto|]. split; [rewrite En|rewrite En']; reflexivity.
Qed.
