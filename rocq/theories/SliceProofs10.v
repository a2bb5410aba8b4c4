(** Whole slices of integer polygons. *)
From Coq Require Import Reals List Bool Arith Lia Lra ZArith Permutation.
From Verif Require Import Prelude TreeModel VecModel VecProofs GeomModel GeomSpec GeomProofs1 GeomProofs2 GeomProofs3 GeomProofs4 GeomProofs5 TriModel TriSpec TriProofs TriProofs2 TriProofs3 PolyModel PolySpec PolyProofs1 PolyProofs2 SliceModel SliceSpec SliceProofs1 SliceProofs3 SliceProofs4 SliceProofs5 SliceProofs6 SliceProofs7 SliceProofs8 SliceProofs9.
Import ListNotations.
Local Open Scope R_scope.

Section Z.
Context (u : z3) (Hu : zdot u u = 1%Z).
(** Case 1 of get_point_arrays. *)
Lemma last_index_ext {A B} (h : A -> B) (f : B -> bool) (g : A -> bool) l : (forall x, In x l -> f (h x) = g x) -> last_index f (map h l) = last_index g l.
Proof.
  unfold last_index, enumerate. rewrite map_length. generalize 0%nat at 2 4 as acc. generalize 0%nat as k. induction l as [|x l IH]; intros k acc H; cbn [map length seq combine fold_left fst snd]; auto. rewrite (H x) by (simpl; auto). apply IH. intros; apply H; simpl; auto.
Qed.
Definition zwalk (fwd : bool) (pts : list z3) (next stop : nat) : result (list z3) :=
  do ix <- walk (length pts) fwd (length pts) next stop; mapM (at_index pts) ix.
Lemma mapM_map {A B} (f : A -> B) pts ix r : mapM (at_index pts) ix = Ok r -> mapM (at_index (map f pts)) ix = Ok (map f r).
Proof.
  revert r. induction ix as [|i ix IH]; intros r; cbn [mapM]; [intros H; apply Ok_inj in H; subst; auto|]. unfold at_index at 1 3. rewrite nth_error_map. destruct (nth_error pts i) as [p|]; [|discriminate]. cbn [option_map rbind]. destruct (mapM (at_index pts) ix) as [r'|]; [|discriminate]. cbn [rbind]. intros H. apply Ok_inj in H. subst r. rewrite (IH r' eq_refl). auto.
Qed.
Lemma z_walk fwd pts a b r : zwalk fwd pts a b = Ok r -> walk_points fwd (map at3 pts) a b = Ok (map at3 r).
Proof. unfold zwalk, walk_points. rewrite map_length. destruct (walk _ _ _ _ _) as [ix|]; [|discriminate]. cbn [rbind]. apply mapM_map. Qed.
Definition zcase1 (pts chain : list z3) (n1 n2 : nat) : result (list z3 * list z3) :=
  if forallb small3 pts then
    do e1 <- at_index (cyc_pairs pts) n1; do e2 <- at_index (cyc_pairs pts) n2;
    let next1 := last_index (fun p => zeqb p (fst e2)) pts in
    let next2 := last_index (fun p => zeqb p (snd e2)) pts in
    let last1 := last_index (fun p => zeqb p (snd e1)) pts in
    let last2 := last_index (fun p => zeqb p (fst e1)) pts in
    do w1 <- zwalk false pts next1 last1; do q1 <- at_index pts last1;
    do w2 <- zwalk true pts next2 last2; do q2 <- at_index pts last2;
    Ok (chain ++ w1 ++ [q1], chain ++ w2 ++ [q2])
  else Err OutOfFuel.
Lemma at_map {A B} (f : A -> B) l i : at_index (map f l) i = do x <- at_index l i; Ok (f x).
Proof. unfold at_index. rewrite nth_error_map. destruct (nth_error l i); auto. Qed.
Lemma z_case1 pts chain n1 n2 q1 q2 : zcase1 pts chain n1 n2 = Ok (q1, q2) -> slice_case1 (cyc_pairs (map at3 pts)) (map at3 pts) (map at3 chain) (AtEdge n1) (AtEdge n2) = Ok (map at3 q1, map at3 q2).
Proof.
  unfold zcase1, slice_case1. destruct (forallb small3 pts) eqn:S; [|discriminate]. rewrite forallb_forall in S. rewrite cyc_map_both, !at_map. destruct (at_index (cyc_pairs pts) n1) as [e1|] eqn:E1; [|discriminate]. cbn [rbind]. destruct (at_index (cyc_pairs pts) n2) as [e2|] eqn:E2; [|discriminate]. cbn [rbind].
  assert (I : forall n e, at_index (cyc_pairs pts) n = Ok e -> In (fst e) pts /\ In (snd e) pts).
  { intros n (a, b) H. unfold at_index in H. destruct (nth_error (cyc_pairs pts) n) as [e|] eqn:En; [|discriminate]. apply Ok_inj in H. subst e. apply nth_error_In in En. clear - En. destruct pts as [|x r]; [destruct En|]. unfold cyc_pairs in En. cbn [fst snd]. split; [apply in_combine_l in En; auto|apply in_combine_r in En; apply in_app_or in En; simpl in *; tauto]. }
  destruct (I _ _ E1) as (I1 & I2), (I _ _ E2) as (I3 & I4). unfold both. cbn [fst snd].
  rewrite (last_index_ext at3 (fun p => points_equal p (at3 (fst e2))) (fun p => zeqb p (fst e2)) pts) by (intros x Ix; apply z3_equal; auto). rewrite (last_index_ext at3 (fun p => points_equal p (at3 (snd e2))) (fun p => zeqb p (snd e2)) pts) by (intros x Ix; apply z3_equal; auto).
  rewrite (last_index_ext at3 (fun p => points_equal p (at3 (fst e1))) (fun p => zeqb p (fst e1)) pts) by (intros x Ix; apply z3_equal; auto). rewrite (last_index_ext at3 (fun p => points_equal p (at3 (snd e1))) (fun p => zeqb p (snd e1)) pts) by (intros x Ix; apply z3_equal; auto).
  destruct (zwalk false pts _ _) as [w1|] eqn:W1; [|discriminate]. cbn [rbind]. rewrite (z_walk _ _ _ _ _ W1). cbn [rbind]. rewrite !at_map. destruct (at_index pts (last_index (fun p => zeqb p (snd e1)) pts)) as [x1|]; [|discriminate]. cbn [rbind].
  destruct (zwalk true pts _ _) as [w2|] eqn:W2; [|discriminate]. cbn [rbind]. rewrite (z_walk _ _ _ _ _ W2). cbn [rbind]. destruct (at_index pts (last_index (fun p => zeqb p (fst e1)) pts)) as [x2|]; [|discriminate]. cbn [rbind]. intros H. apply Ok_inj in H. injection H as <- <-. rewrite !map_app. auto.
Qed.
(** A slice up to the construction of the parts. *)
Lemma z_slice p pts chain o1 o2 ch a1 a2 pt1 n1 pt2 n2 r1 r2 : p_pts p = map at3 pts -> p_vn p = at3 u -> zplane u (pts ++ chain) = true -> zadded u pts chain = Ok (o1, o2) ->
  remove_redundant_points (map at3 o2) (map at3 pts) (p_tri p) = Ok ch -> (2 <= length ch)%nat -> get_point_arrays (map at3 pts) (p_tri p) ch = Ok (a1, a2) ->
  slice_polygon p (map at3 chain) pt1 n1 pt2 n2 r1 r2 = make_polygons (at3 u) a1 a2 pt1 n1 pt2 n2 r1 r2.
Proof.
  intros Ep En Pl Ad Rm L2 Ga. unfold slice_polygon. rewrite Ep, En, <- map_app. rewrite (coplanar_accepted (map at3 (pts ++ chain)) GEOM_ATOL); [|unfold GEOM_ATOL; lra|apply (z_coplanar u Hu); auto]. cbn [rbind negb]. rewrite (z_added u Hu _ _ _ _ Ad). cbn [rbind snd]. rewrite Rm. cbn [rbind]. rewrite (proj2 (Nat.ltb_ge _ _) L2). rewrite Ga. cbn [rbind fst snd].
  destruct (make_polygons _ _ _ _ _ _ _ _ _) as [(a, b)|] eqn:Em; auto. cbn [rbind fst snd]. destruct (make_polygons_parts _ _ _ _ _ _ _ _ _ _ _ Em) as (p1 & p2 & M1 & M2 & _ & _ & D). apply make_with_vn in M1, M2. destruct M1 as (V1 & _), M2 as (V2 & _).
  assert (W : p_vn (snd a) = at3 u /\ p_vn (snd b) = at3 u) by (destruct D as [(-> & ->)|(-> & ->)]; auto). rewrite (normal_kept _ _ (proj1 W)). cbn [rbind]. rewrite (normal_kept _ _ (proj2 W)). auto.
Qed.
Lemma ztri_err q a b c : ztri u q a b c <> Err TriangulationError.
Proof.
  unfold ztri. destruct (zoutbox _ _); [discriminate|]. destruct (_ || _); [discriminate|]. destruct (_ && _); [|discriminate]. destruct (zconvex3 u a b c) as [[|]|]; try discriminate.
  assert (E : forall es, zedge u q es <> Err TriangulationError) by (induction es as [|(x, y) es IH]; cbn [zedge]; [discriminate|]; destruct (_ && _); [|discriminate]; destruct (_ =? _)%Z; [discriminate|auto]). specialize (E [(a, b); (b, c); (c, a)]). destruct (zedge u q _) as [[v|]|] eqn:Z; try discriminate; [|congruence].
  unfold zinside3. destruct (out_box _ _ _ _); [discriminate|]. destruct (_ && _); discriminate.
Qed.
Lemma z_make_fails pts : (3 <=? length pts)%nat && zplane u pts = true -> zmake_vn u pts = Err TriangulationError -> make_polygon (map at3 pts) None (Some (at3 u)) = Err TriangulationError.
Proof.
  intros C. unfold zmake_vn. rewrite C. intros T. apply andb_true_iff in C. destruct C as (L & P). apply Nat.leb_le in L. rewrite <- (map_length at3) in L.
  unfold make_polygon, check_polygon, build_polygon. rewrite (coplanar_accepted (map at3 pts) GEOM_ATOL); [|unfold GEOM_ATOL; lra|apply (z_coplanar u Hu); auto]. cbn [rbind negb]. rewrite (proj2 (Nat.ltb_ge _ _) L). cbn [rbind].
  assert (Et : triangulate_pts (map at3 pts) (at3 u) = Err TriangulationError).
  { unfold triangulate_pts. rewrite (z3_vn_zero u Hu). apply (triangulate_lift at3 (ear_convex (at3 u)) ear_inside (zconvex3 u) (ztri u) pts) with (3 := T).
    - intros a b c r _ _ _. apply (z3_convex u Hu).
    - intros q a b c r _ _ _ _ _ H. apply (z_tri u Hu). auto.
    - intros a b c. unfold zconvex3. destruct (flat u a b c); discriminate.
    - apply ztri_err. }
  rewrite Et. auto.
Qed.
End Z.
Lemma told_z pts : forallb small3 pts = true -> told_apart (map at3 pts).
Proof. intros S p q Ip Iq E. rewrite forallb_forall in S. apply in_map_iff in Ip, Iq. destruct Ip as (a & <- & Ia), Iq as (b & <- & Ib). rewrite z3_equal in E by auto. apply zeqb_eq in E. subst. auto. Qed.
Lemma nodup_z pts : NoDup pts -> NoDup (map at3 pts).
Proof. intros N. induction N as [|x l I N IH]; cbn [map]; constructor; auto. intros H. apply in_map_iff in H. destruct H as (y & E & H). apply at3_inj in E. subst. auto. Qed.
Ltac nodup_z := repeat first [apply NoDup_nil | apply NoDup_cons; [simpl; intros HIN; repeat (destruct HIN as [HIN|HIN]; [discriminate|]); destruct HIN|]].
(** The square of side 6 cut across. *)
Lemma up1 : zdot up up = 1%Z. Proof. reflexivity. Qed.
Definition sq6_tri : list tri := [(3, 0, 1); (3, 1, 2)]%nat.
Definition is_square (p : polygon) : Prop := make_polygon (map at3 sq6) None None = Ok p /\ p_pts p = map at3 sq6 /\ p_tri p = sq6_tri /\ p_vn p = at3 up.
Lemma square_exists : exists p, is_square p.
Proof. destruct (zmake_spec sq6 sq6 sq6_tri up eq_refl) as (_ & p & M & E1 & E2 & E3). exists p. repeat split; auto. Qed.
Lemma sq6_apart : told_apart (map at3 sq6) /\ NoDup (map at3 sq6) /\ map at3 sq6 <> [].
Proof. split; [apply told_z; reflexivity|]. split; [apply nodup_z; unfold sq6; nodup_z|discriminate]. Qed.
Definition across : list z3 := [(-1, 3, 0); (3, 3, 0); (7, 3, 0)]%Z.
Definition across_kept : list z3 := [(0, 3, 0); (3, 3, 0); (6, 3, 0)]%Z.
Lemma across_removed : remove_redundant_points (map at3 [(-1, 3, 0); (0, 3, 0); (3, 3, 0); (6, 3, 0); (7, 3, 0); (6, 3, 0); (0, 3, 0)]%Z) (map at3 sq6) sq6_tri = Ok (map at3 across_kept).
Proof.
  apply (first_run (map at3 sq6) sq6_tri [at3 (-1, 3, 0)%Z] (at3 (0, 3, 0)%Z) [at3 (3, 3, 0)%Z] (at3 (6, 3, 0)%Z) (map at3 [(7, 3, 0); (6, 3, 0); (0, 3, 0)]%Z) [Exterior] (AtEdge 3) [Interior] (AtEdge 1) [Exterior; AtEdge 1; AtEdge 3]); try reflexivity; try discriminate.
  apply (z_locs up up1 sq6 sq6_tri [(-1, 3, 0); (0, 3, 0); (3, 3, 0); (6, 3, 0); (7, 3, 0); (6, 3, 0); (0, 3, 0)]%Z); [discriminate|reflexivity].
Qed.
Lemma across_locs : locate_points (cyc_pairs (map at3 sq6)) (map at3 sq6) sq6_tri (map at3 across_kept) = Ok [AtEdge 3; Interior; AtEdge 1].
Proof. apply (z_locs up up1 sq6 sq6_tri across_kept); [discriminate|reflexivity]. Qed.
Definition lower : list z3 := [(0, 3, 0); (3, 3, 0); (6, 3, 0); (6, 0, 0); (0, 0, 0)]%Z.
Definition upper : list z3 := [(0, 3, 0); (3, 3, 0); (6, 3, 0); (6, 6, 0); (0, 6, 0)]%Z.
Lemma across_arrays : get_point_arrays (map at3 sq6) sq6_tri (map at3 across_kept) = Ok (map at3 lower, map at3 upper).
Proof.
  unfold get_point_arrays. cbn [length map across_kept Nat.ltb Nat.leb]. rewrite polygon_edges_eq by discriminate. cbn [rbind]. change [at3 (0, 3, 0)%Z; at3 (3, 3, 0)%Z; at3 (6, 3, 0)%Z] with (map at3 across_kept). rewrite across_locs. cbn [rbind].
  unfold point_arrays, at_index. cbn [length map across_kept Nat.sub nth_error rbind]. change (count_locs is_edge [AtEdge 3; Interior; AtEdge 1]) with 2%nat. change (count_locs is_vertex [AtEdge 3; Interior; AtEdge 1]) with 0%nat. change (edge_numbers [AtEdge 3; Interior; AtEdge 1]) with [3%nat; 1%nat]. cbn iota.
  apply (z_case1 sq6 across_kept 3 1). reflexivity.
Qed.
Lemma slice_across p : is_square p -> forall r1 r2, exists p1 p2, slice_polygon p (map at3 across) None None None None r1 r2 = Ok ((r1, p1), (r2, p2)) /\ p_pts p1 = map at3 (rev lower) /\ p_pts p2 = map at3 upper.
Proof.
  intros (_ & Ep & Et & En) r1 r2. rewrite (z_slice up up1 p sq6 across _ _ (map at3 across_kept) (map at3 lower) (map at3 upper)) with (4 := eq_refl); auto; [|rewrite Et; exact across_removed|cbn; lia|rewrite Et; exact across_arrays].
  destruct (z_make_vn up up1 lower (rev lower) [(4, 0, 1); (1, 2, 3); (1, 3, 4)]%nat) as (p1 & M1 & E1 & _); [reflexivity|].
  destruct (z_make_vn up up1 upper upper [(4, 0, 1); (4, 1, 2); (4, 2, 3)]%nat) as (p2 & M2 & E2 & _); [reflexivity|].
  exists p1, p2. unfold make_polygons. rewrite M1, M2. cbn [rbind assign_names fst snd or_random]. rewrite !Prelude.eqb_refl. auto.
Qed.

(** A notch: the chain starts and ends on the same edge. *)
Definition notch : list z3 := [(2, 0, 0); (2, 2, 0); (4, 2, 0); (4, 0, 0)]%Z.
Definition side_notch : list z3 := [(0, 4, 0); (2, 4, 0); (2, 2, 0); (0, 2, 0)]%Z.
Lemma vopp_at3 n m : zeqb m (zsub (0, 0, 0)%Z n) = true -> at3 m = vopp (at3 n).
Proof. intros E. apply zeqb_eq in E. subst m. rewrite <- at3_sub. dvec (at3 n). unfold at3, vopp. vunf. f_equal; ring. Qed.
Lemma notch_arrays c k : c = notch /\ k = 0%nat \/ c = side_notch /\ k = 3%nat ->
  locate_points (cyc_pairs (map at3 sq6)) (map at3 sq6) sq6_tri (map at3 c) = Ok [AtEdge k; Interior; Interior; AtEdge k] /\
  remove_redundant_points (map at3 c) (map at3 sq6) sq6_tri = Ok (map at3 c) /\ get_point_arrays (map at3 sq6) sq6_tri (map at3 c) = Ok (map at3 c, put_after 0 (map at3 c) (map at3 sq6)).
Proof.
  intros H. assert (L : locate_points (cyc_pairs (map at3 sq6)) (map at3 sq6) sq6_tri (map at3 c) = Ok [AtEdge k; Interior; Interior; AtEdge k]) by (destruct H as [(-> & ->)|(-> & ->)]; (apply (z_locs up up1); [discriminate|reflexivity])). split; auto. destruct sq6_apart as (T & N & Ne).
  assert (Ec : exists x m1 m2 y, c = [x; m1; m2; y]) by (destruct H as [(-> & _)|(-> & _)]; repeat eexists). destruct Ec as (x & m1 & m2 & y & Ec). split.
  - rewrite Ec in *. apply (first_run (map at3 sq6) sq6_tri [] (at3 x) [at3 m1; at3 m2] (at3 y) [] [] (AtEdge k) [Interior; Interior] (AtEdge k) []); try reflexivity; try discriminate; auto.
  - assert (U : unit (at3 up)) by (unfold unit, up, at3; vunf; ring).
    assert (Np : normal (at3 (0, 6, 0)%Z) (at3 (0, 0, 0)%Z) (at3 (6, 0, 0)%Z) = Some (at3 up)) by (apply (z3_normal (0, 6, 0) (0, 0, 0) (6, 0, 0) up)%Z; reflexivity).
    pose proof (same_edge_spec (map at3 sq6) sq6_tri (at3 x) [at3 m1; at3 m2] (at3 y) k [Interior; Interior] (at3 y, at3 x, at3 m1) (at3 (0, 6, 0)%Z, at3 (0, 0, 0)%Z, at3 (6, 0, 0)%Z) (at3 up) T N) as S. cbn beta iota zeta in S.
    rewrite Ec in *. cbn [app map] in *. specialize (S ltac:(destruct H as [(_ & ->)|(_ & ->)]; cbn; lia) L eq_refl eq_refl eq_refl U Np). destruct S as (_ & S & _). rewrite <- (vopp_at3 up (0, 0, -1)%Z eq_refl) in S.
    rewrite S; [destruct H as [(_ & ->)|(_ & ->)]; reflexivity|]. apply (z3_normal y x m1 (0, 0, -1)%Z). destruct H as [(Ex & _)|(Ex & _)]; injection Ex as -> -> -> ->; reflexivity.
Qed.
Lemma slice_notch p : is_square p -> forall r1 r2, exists p1 p2, slice_polygon p (map at3 notch) None None None None r1 r2 = Ok ((r1, p1), (r2, p2)) /\ p_pts p1 = rev (map at3 notch) /\ p_pts p2 = put_after 0 (map at3 notch) (map at3 sq6).
Proof.
  intros (_ & Ep & Et & En) r1 r2. destruct (notch_arrays notch 0 (or_introl (conj eq_refl eq_refl))) as (_ & Rm & Ga). rewrite <- Et in Rm, Ga.
  rewrite (z_slice up up1 p sq6 notch sq6 notch (map at3 notch) _ _ _ _ _ _ _ _ Ep En eq_refl eq_refl Rm ltac:(cbn; lia) Ga).
  destruct (z_make_vn up up1 notch (rev notch) [(3, 0, 1); (3, 1, 2)]%nat) as (p1 & M1 & E1 & _); [reflexivity|].
  destruct (z_make_vn up up1 [(0, 0, 0); (2, 0, 0); (2, 2, 0); (4, 2, 0); (4, 0, 0); (6, 0, 0); (6, 6, 0); (0, 6, 0)]%Z [(0, 0, 0); (2, 0, 0); (2, 2, 0); (4, 2, 0); (4, 0, 0); (6, 0, 0); (6, 6, 0); (0, 6, 0)]%Z [(7, 0, 1); (7, 1, 2); (7, 2, 3); (3, 4, 5); (3, 5, 6); (3, 6, 7)]%nat) as (p2 & M2 & E2 & _); [reflexivity|].
  exists p1, p2. unfold make_polygons. rewrite M1. cbn [rbind]. change (put_after 0 (map at3 notch) (map at3 sq6)) with (map at3 [(0, 0, 0); (2, 0, 0); (2, 2, 0); (4, 2, 0); (4, 0, 0); (6, 0, 0); (6, 6, 0); (0, 6, 0)]%Z). rewrite M2. cbn [rbind assign_names fst snd or_random]. rewrite !Prelude.eqb_refl. auto.
Qed.
(** The same notch on the closing edge cannot be cut. *)
Lemma slice_side_notch p : is_square p -> forall r1 r2, slice_polygon p (map at3 side_notch) None None None None r1 r2 = Err TriangulationError.
Proof.
  intros (_ & Ep & Et & En) r1 r2. destruct (notch_arrays side_notch 3 (or_intror (conj eq_refl eq_refl))) as (_ & Rm & Ga). rewrite <- Et in Rm, Ga.
  rewrite (z_slice up up1 p sq6 side_notch sq6 side_notch (map at3 side_notch) _ _ _ _ _ _ _ _ Ep En eq_refl eq_refl Rm ltac:(cbn; lia) Ga).
  destruct (z_make_vn up up1 side_notch (rev side_notch) [(3, 0, 1); (3, 1, 2)]%nat) as (p1 & M1 & _); [reflexivity|]. unfold make_polygons. rewrite M1. cbn [rbind].
  change (put_after 0 (map at3 side_notch) (map at3 sq6)) with (map at3 [(0, 0, 0); (0, 4, 0); (2, 4, 0); (2, 2, 0); (0, 2, 0); (6, 0, 0); (6, 6, 0); (0, 6, 0)]%Z). rewrite (z_make_fails up up1); [reflexivity|reflexivity|reflexivity].
Qed.
(** A polygon whose first corner is a reflex one. *)
Definition lshape : list z3 := [(3, 3, 0); (3, 6, 0); (0, 6, 0); (0, 0, 0); (6, 0, 0); (6, 3, 0)]%Z.
Definition lshape_tri : list tri := [(0, 1, 2); (0, 2, 3); (0, 3, 4); (0, 4, 5)]%nat.
Definition lnotch : list z3 := [(1, 0, 0); (1, 2, 0); (2, 2, 0); (2, 0, 0)]%Z.
Lemma slice_lshape : exists p, make_polygon (map at3 lshape) None (Some (at3 up)) = Ok p /\ p_pts p = map at3 lshape /\ p_tri p = lshape_tri /\ p_vn p = at3 up /\
  locate_points (cyc_pairs (p_pts p)) (p_pts p) (p_tri p) (map at3 lnotch) = Ok [AtEdge 3; Interior; Interior; AtEdge 3] /\
  forall r1 r2, slice_polygon p (map at3 lnotch) None None None None r1 r2 = Err TriangulationError.
Proof.
  destruct (z_make_vn up up1 lshape lshape lshape_tri eq_refl) as (p & M & Ep & Et & En & _). exists p. split; auto. split; auto. split; auto. split; auto.
  assert (L : locate_points (cyc_pairs (map at3 lshape)) (map at3 lshape) lshape_tri (map at3 lnotch) = Ok [AtEdge 3; Interior; Interior; AtEdge 3]) by (apply (z_locs up up1); [discriminate|reflexivity]). rewrite Ep, Et. split; auto. intros r1 r2.
  assert (T : told_apart (map at3 lshape)) by (apply told_z; reflexivity). assert (N : NoDup (map at3 lshape)) by (apply nodup_z; unfold lshape; nodup_z).
  assert (Rm : remove_redundant_points (map at3 lnotch) (map at3 lshape) lshape_tri = Ok (map at3 lnotch)).
  { apply (first_run (map at3 lshape) lshape_tri [] (at3 (1, 0, 0)%Z) [at3 (1, 2, 0)%Z; at3 (2, 2, 0)%Z] (at3 (2, 0, 0)%Z) [] [] (AtEdge 3) [Interior; Interior] (AtEdge 3) []); try reflexivity; try discriminate; auto. }
  assert (Ga : get_point_arrays (map at3 lshape) lshape_tri (map at3 lnotch) = Ok (map at3 lnotch, put_after 3 (rev (map at3 lnotch)) (map at3 lshape))).
  { pose proof (same_edge_spec (map at3 lshape) lshape_tri (at3 (1, 0, 0)%Z) [at3 (1, 2, 0)%Z; at3 (2, 2, 0)%Z] (at3 (2, 0, 0)%Z) 3 [Interior; Interior] (at3 (2, 0, 0)%Z, at3 (1, 0, 0)%Z, at3 (1, 2, 0)%Z) (at3 (6, 3, 0)%Z, at3 (3, 3, 0)%Z, at3 (3, 6, 0)%Z) (at3 (0, 0, -1)%Z) T N) as S. cbn beta iota zeta in S.
    apply S; [cbn; lia|exact L|reflexivity|reflexivity|reflexivity|unfold unit, at3; vunf; ring| |]; apply z3_normal; reflexivity. }
  rewrite <- Et in Rm, Ga.
  rewrite (z_slice up up1 p lshape lnotch lshape lnotch (map at3 lnotch) _ _ _ _ _ _ _ _ Ep En eq_refl eq_refl Rm ltac:(cbn; lia) Ga).
  destruct (z_make_vn up up1 lnotch (rev lnotch) [(3, 0, 1); (3, 1, 2)]%nat) as (p1 & M1 & _); [reflexivity|]. unfold make_polygons. rewrite M1. cbn [rbind].
  change (put_after 3 (rev (map at3 lnotch)) (map at3 lshape)) with (map at3 [(3, 3, 0); (3, 6, 0); (0, 6, 0); (0, 0, 0); (2, 0, 0); (2, 2, 0); (1, 2, 0); (1, 0, 0); (6, 0, 0); (6, 3, 0)]%Z). rewrite (z_make_fails up up1); [reflexivity|reflexivity|reflexivity].
Qed.
(** Two crossings on one edge in the wrong order. *)
Lemma wrong_order : add_intersection_points (map at3 sq6) (map at3 [(4, -1, 0); (4, 1, 0); (2, 1, 0); (2, -1, 0)]%Z) =
  Ok (map at3 [(0, 0, 0); (4, 0, 0); (2, 0, 0); (6, 0, 0); (6, 6, 0); (0, 6, 0)]%Z, map at3 [(4, -1, 0); (4, 0, 0); (4, 1, 0); (2, 1, 0); (2, 0, 0); (2, -1, 0)]%Z).
Proof. apply (z_added up up1). reflexivity. Qed.
Lemma closing_edge : exists p, make_polygon (map at3 sq6) None None = Ok p /\
  locate_points (cyc_pairs (p_pts p)) (p_pts p) (p_tri p) (map at3 notch) = Ok [AtEdge 0; Interior; Interior; AtEdge 0] /\
  locate_points (cyc_pairs (p_pts p)) (p_pts p) (p_tri p) (map at3 side_notch) = Ok [AtEdge 3; Interior; Interior; AtEdge 3] /\
  (exists a b, slice_polygon p (map at3 notch) None None None None [] [] = Ok (a, b)) /\ slice_polygon p (map at3 side_notch) None None None None [] [] = Err TriangulationError.
Proof.
  destruct square_exists as (p & S). pose proof S as (M & Ep & Et & _). exists p. split; auto. rewrite Ep, Et. split; [apply (notch_arrays notch 0); auto|]. split; [apply (notch_arrays side_notch 3); auto|]. split; [|apply slice_side_notch; auto].
  destruct (slice_notch p S [] []) as (p1 & p2 & H & _). eauto.
Qed.
Lemma halves : exists p1 p2, make_polygon (map at3 lower) None (Some (at3 up)) = Ok p1 /\ make_polygon (map at3 upper) None (Some (at3 up)) = Ok p2 /\ part_contains p1 (at3 (1, 5, 0)%Z) false /\ part_contains p2 (at3 (1, 5, 0)%Z) true.
Proof.
  destruct (z_make_vn up up1 lower (rev lower) [(4, 0, 1); (1, 2, 3); (1, 3, 4)]%nat) as (p1 & M1 & E1 & T1 & _); [reflexivity|].
  destruct (z_make_vn up up1 upper upper [(4, 0, 1); (4, 1, 2); (4, 2, 3)]%nat) as (p2 & M2 & E2 & T2 & _); [reflexivity|].
  exists p1, p2. split; auto. split; auto. unfold part_contains. rewrite E1, E2, T1, T2. split; apply (z_inside up up1); reflexivity.
Qed.
Lemma equal_names : exists vn q1 q2 x a b, make_polygons vn q1 q2 (Some x) (Some []) None (Some []) [] [] = Ok (a, b) /\ part_contains (snd a) x false /\ part_contains (snd b) x true.
Proof.
  destruct halves as (p1 & p2 & M1 & M2 & C1 & C2). exists (at3 up), (map at3 lower), (map at3 upper), (at3 (1, 5, 0)%Z), ([], p1), ([], p2). split; auto. unfold make_polygons. rewrite M1, M2. cbn [rbind or_random]. unfold assign_names, inside_of. unfold part_contains in *. rewrite C1, C2. cbn [rbind fst snd]. rewrite !Prelude.eqb_refl. auto.
Qed.
Lemma order_refuted : exists pts1 pts2 o1 o2 a b q r rest, add_intersection_points pts1 pts2 = Ok (o1, o2) /\ hd_error (cyc_pairs pts1) = Some (a, b) /\
  o1 = a :: q :: r :: b :: rest /\ on_segment a b q /\ on_segment a b r /\ dist a r < dist a q.
Proof.
  exists (map at3 sq6), (map at3 [(4, -1, 0); (4, 1, 0); (2, 1, 0); (2, -1, 0)]%Z). do 2 eexists. exists (V 0 0 0), (V 6 0 0), (V 4 0 0), (V 2 0 0). eexists. split; [apply wrong_order|]. split; [reflexivity|]. split; [reflexivity|]. split; [exists (4 / 6); split; [lra|unfold seg_point; vunf; f_equal; field]|]. split; [exists (2 / 6); split; [lra|unfold seg_point; vunf; f_equal; field]|].
  unfold dist, norm. apply sqrt_lt_1_alt. vunf. lra.
Qed.
Lemma single_interior : remove_redundant_points (map at3 [(3, 3, 0)]%Z) (map at3 sq6) sq6_tri = Ok (map at3 [(3, 3, 0)]%Z) /\ locate_points (cyc_pairs (map at3 sq6)) (map at3 sq6) sq6_tri (map at3 [(3, 3, 0)]%Z) = Ok [Interior].
Proof.
  assert (L : locate_points (cyc_pairs (map at3 sq6)) (map at3 sq6) sq6_tri (map at3 [(3, 3, 0)]%Z) = Ok [Interior]) by (apply (z_locs up up1); [discriminate|reflexivity]). split; auto.
  destruct (removed_spec (map at3 [(3, 3, 0)]%Z) (map at3 sq6) sq6_tri [Interior]) as (out & E & [(zs & kept & R & I & _)|(_ & Eo)]); [discriminate|exact L| |rewrite E, Eo; reflexivity].
  exfalso. apply I. destruct R as (a & b & E1 & E2). assert (Z : zs = [(at3 (3, 3, 0)%Z, Interior)]) by (destruct a as [|x [|? ?]]; cbn [app map combine] in E1; [subst b; rewrite app_nil_r in E2; auto|injection E1 as <- <-; auto|discriminate]). rewrite Z. exists Interior, []. auto.
Qed.
