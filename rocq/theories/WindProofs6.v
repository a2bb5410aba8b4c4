(** Winding numbers of integer outlines, and outlines to look at. *)
From Coq Require Import Reals List ZArith Bool Arith Lia Lra Permutation.
From Verif Require Import Prelude VecModel VecProofs GeomModel GeomSpec GeomProofs1 GeomProofs2 GeomProofs3 GeomProofs4 TriModel TriSpec TriProofs TriProofs2 PolyModel PolySpec PolyProofs1 PolyProofs2 PolyProofs3 CrossSpec InsideSpec RoomSpec PlanSpec
  SliceModel SliceSpec SliceProofs4 SliceProofs5 SliceProofs6 SliceProofs7 SliceProofs8 SliceProofs9 SliceProofs10 WindSpec WindProofs1 WindProofs2 WindProofs3 WindProofs4 WindProofs5.
Import ListNotations.
Local Open Scope R_scope.

Definition zleft (n a b q : z3) : Z := zdot n (zcross (zsub b a) (zsub q a)).
Definition zturn (n u q : z3) (e : z3 * z3) : Z :=
  (if zdot u (fst e) <=? zdot u q then if zdot u q <? zdot u (snd e) then if 0 <? zleft n (fst e) (snd e) q then 1 else 0 else 0
   else if zdot u (snd e) <=? zdot u q then if zleft n (fst e) (snd e) q <? 0 then -1 else 0 else 0)%Z.
Definition zwinding (n u q : z3) (pts : list z3) : Z := zsum (map (zturn n u q) (cyc_pairs pts)).
Lemma z_left n a b q : left_of (at3 n) (at3 a) (at3 b) (at3 q) = IZR (zleft n a b q).
Proof. unfold left_of, zleft. rewrite !at3_sub, at3_cross, at3_dot. auto. Qed.
Lemma z_turn n u q a b : edge_turn (at3 n) (at3 u) (at3 q) (at3 a, at3 b) = zturn n u q (a, b).
Proof.
  unfold edge_turn, zturn. cbn [fst snd]. rewrite z_left, !at3_dot.
  destruct (Rle_dec (IZR (zdot u a)) (IZR (zdot u q))) as [L|L], (Z.leb_spec (zdot u a) (zdot u q)) as [L'|L']; try (apply le_IZR in L; lia); try (exfalso; apply L, IZR_le; lia).
  - destruct (Rlt_dec (IZR (zdot u q)) (IZR (zdot u b))) as [M|M], (Z.ltb_spec (zdot u q) (zdot u b)) as [M'|M']; try (apply lt_IZR in M; lia); try (exfalso; apply M, IZR_lt; lia); auto.
    destruct (Rlt_dec 0 (IZR (zleft n a b q))) as [N|N], (Z.ltb_spec 0 (zleft n a b q)) as [N'|N']; try (apply lt_IZR in N; lia); try (exfalso; apply N, IZR_lt; lia); auto.
  - destruct (Rle_dec (IZR (zdot u b)) (IZR (zdot u q))) as [M|M], (Z.leb_spec (zdot u b) (zdot u q)) as [M'|M']; try (apply le_IZR in M; lia); try (exfalso; apply M, IZR_le; lia); auto.
    destruct (Rlt_dec (IZR (zleft n a b q)) 0) as [N|N], (Z.ltb_spec (zleft n a b q) 0) as [N'|N']; try (apply lt_IZR in N; lia); try (exfalso; apply N, IZR_lt; lia); auto.
Qed.
Lemma z_winding n u q pts : winding (at3 n) (at3 u) (at3 q) (map at3 pts) = zwinding n u q pts.
Proof.
  unfold winding, zwinding. f_equal. rewrite cyc_map_both, map_map. apply map_ext. intros (a, b). unfold both. cbn [fst snd]. apply z_turn.
Qed.
(** Well off all edges. *)
Section Z.
Context (u : z3) (Hu : zdot u u = 1%Z).
Definition zoff (q a b : z3) : bool := flat u a b q && negb (zarea u a b q =? 0)%Z.
Definition zclear (pts : list z3) (ts : list tri) (q : z3) : bool := small3 q && forallb small3 pts && negb (existsb (zeqb q) pts) &&
  forallb (fun t => let '(i, j, k) := t in match nth_error pts i, nth_error pts j, nth_error pts k with Some a, Some b, Some c => zoff q a b && zoff q b c && zoff q c a | _, _, _ => false end) ts.
Lemma z_clear pts ts q : zclear pts ts q = true -> clear_edges (map at3 pts, ts) (at3 q).
Proof.
  unfold zclear. intros H. apply andb_true_iff in H. destruct H as (H & T). apply andb_true_iff in H. destruct H as (H & N). apply andb_true_iff in H. destruct H as (Q & S). rewrite forallb_forall in T, S. apply negb_true_iff in N.
  intros ((i, j), k) a b c I (Va & Vb & Vc). cbn [fst snd] in *. specialize (T _ I). cbn iota in T. rewrite !nth_error_map in *.
  destruct (nth_error pts i) as [za|] eqn:Ea; [|discriminate]. destruct (nth_error pts j) as [zb|] eqn:Eb; [|discriminate]. destruct (nth_error pts k) as [zc|] eqn:Ec; [|discriminate].
  cbn [option_map] in *. injection Va as <-. injection Vb as <-. injection Vc as <-. apply nth_error_In in Ea, Eb, Ec. pose proof (S _ Ea) as Sa. pose proof (S _ Eb) as Sb. pose proof (S _ Ec) as Sc.
  assert (F : forall v, In v pts -> far_from (at3 v) (at3 q)). { intros v Iv. apply z3_far; auto. intros ->. assert (X : existsb (zeqb q) pts = true) by (apply existsb_exists; exists q; split; auto; apply zeqb_eq; auto). congruence. }
  assert (O : forall x y, In x pts -> In y pts -> zoff q x y = true -> off_edge (at3 x) (at3 y) (at3 q)). { intros x y Ix Iy E. unfold zoff in E. apply andb_true_iff in E. destruct E as (E1 & E2). apply negb_true_iff, Z.eqb_neq in E2. apply (z3_off u Hu); auto. }
  apply andb_true_iff in T. destruct T as (T & T3). apply andb_true_iff in T. destruct T as (T1 & T2). unfold off_edges. auto 10.
Qed.
Definition zwithin (a b c q : z3) : bool := flat u a b c && flat u a b q && flat u b c q && flat u c a q && (0 <? zarea u a b c)%Z && (0 <? zarea u a b q)%Z && (0 <? zarea u b c q)%Z && (0 <? zarea u c a q)%Z.
Lemma z_within a b c q : zwithin a b c q = true -> strictly_inside (at3 a) (at3 b) (at3 c) (at3 q).
Proof.
  unfold zwithin. intros H. do 7 (apply andb_true_iff in H; destruct H as (H & ?)). apply Z.ltb_lt in H0, H1, H2, H3. apply IZR_lt in H0, H1, H2, H3.
  pose proof (z3_cross u _ _ _ H) as K. pose proof (z3_cross u _ _ _ H6) as K1. pose proof (z3_cross u _ _ _ H5) as K2. pose proof (z3_cross u _ _ _ H4) as K3.
  assert (D : dot (at3 u) (at3 u) = 1) by (rewrite at3_dot, Hu; auto).
  apply inside_signs.
  - unfold in_plane_of. rewrite K, dot_smul_l. assert (X : dot (at3 u) (vsub (at3 q) (at3 a)) = 0); [|rewrite X; ring].
    assert (Y : dot (cross (vsub (at3 b) (at3 a)) (vsub (at3 q) (at3 a))) (vsub (at3 q) (at3 a)) = 0) by (dvec (at3 b); dvec (at3 a); dvec (at3 q); vunf; ring). rewrite K1, dot_smul_l in Y. nra.
  - rewrite K, K1, dot_smul_l, dot_smul_r, D. nra.
  - rewrite K, K2, dot_smul_l, dot_smul_r, D. nra.
  - rewrite K, K3, dot_smul_l, dot_smul_r, D. nra.
Qed.
Definition zconvex_outline (pts : list z3) : bool := forallb (fun e => forallb (fun c => zeqb c (fst e) || zeqb c (snd e) || (0 <? zleft u (fst e) (snd e) c)%Z) pts) (cyc_pairs pts).
Lemma z_convex_outline pts : zconvex_outline pts = true -> strictly_convex (at3 u) (map at3 pts).
Proof.
  unfold zconvex_outline. intros H a b c E I Na Nb. rewrite forallb_forall in H. rewrite cyc_map_both in E. apply in_map_iff in E. destruct E as ((za, zb) & Ee & E). unfold both in Ee. cbn [fst snd] in Ee. injection Ee as <- <-.
  specialize (H _ E). rewrite forallb_forall in H. apply in_map_iff in I. destruct I as (zc & <- & I). specialize (H _ I). cbn [fst snd] in H. rewrite z_left. apply orb_true_iff in H. destruct H as [H|H].
  - apply orb_true_iff in H. destruct H as [H|H]; apply zeqb_eq in H; subst; contradiction.
  - apply Z.ltb_lt in H. apply IZR_lt in H. auto.
Qed.
End Z.
(** A strip that bends around and crosses its own beginning. *)
Definition ribbon : list z3 := [(-16, 0, 0); (16, 0, 0); (16, 16, 0); (-2, 16, 0); (-2, -12, 0); (2, -12, 0); (2, 12, 0); (12, 12, 0); (12, 4, 0); (-16, 4, 0)]%Z.
Definition ribbon_tri : list tri := [(9, 0, 1); (3, 4, 5); (3, 5, 6); (3, 6, 7); (8, 9, 1); (8, 1, 2); (2, 3, 7); (2, 7, 8)]%nat.
Lemma ribbon_made : exists p, make_polygon (map at3 ribbon) None None = Ok p /\ p_pts p = map at3 ribbon /\ p_tri p = ribbon_tri /\ p_vn p = at3 up.
Proof. destruct (zmake_spec ribbon ribbon ribbon_tri up eq_refl) as (_ & p & M & E1 & E2 & E3). eauto 10. Qed.
Lemma ribbon_overlaps : exists p q i j t t' a b c a' b' c', make_polygon (map at3 ribbon) None None = Ok p /\ i <> j /\
  nth_error (p_tri p) i = Some t /\ tri_verts (p_pts p) t (a, b, c) /\ strictly_inside a b c q /\
  nth_error (p_tri p) j = Some t' /\ tri_verts (p_pts p) t' (a', b', c') /\ strictly_inside a' b' c' q /\ winding (V 0 0 1) (V 0 1 0) q (map at3 ribbon) = 2%Z.
Proof.
  destruct ribbon_made as (p & M & E1 & E2 & E3). exists p, (at3 (-1, 1, 0)%Z), 0%nat, 1%nat. do 8 eexists. split; [exact M|]. split; [discriminate|]. rewrite E1, E2.
  split; [reflexivity|]. split; [repeat split; reflexivity|]. split; [apply (z_within up up1); reflexivity|].
  split; [reflexivity|]. split; [repeat split; reflexivity|]. split; [apply (z_within up up1); reflexivity|].
  change (V 0 0 1) with (at3 (0, 0, 1)%Z). change (V 0 1 0) with (at3 (0, 1, 0)%Z). rewrite z_winding. reflexivity.
Qed.
(** The square of side 6 cut across, with everything the theorems on slices ask
    for. *)
Lemma z_plane_of u c pts : forallb (fun p => zdot u p =? c)%Z pts = true -> in_plane (at3 u) (IZR c) (map at3 pts).
Proof. intros H q I. rewrite forallb_forall in H. apply in_map_iff in I. destruct I as (p & <- & I). apply H, Z.eqb_eq in I. rewrite at3_dot, I. auto. Qed.
Definition zsigned (u : z3) (pts : list z3) : Z := zdot (fold_right zadd (0, 0, 0)%Z (map (fun e => zcross (fst e) (snd e)) (cyc_pairs pts))) u.
Lemma z_signed u pts : signed_area2 (map at3 pts) (at3 u) = IZR (zsigned u pts).
Proof.
  unfold signed_area2, zsigned. rewrite <- at3_dot. f_equal. unfold vector_area2. rewrite cyc_map_both, map_map. generalize (cyc_pairs pts). intros l. induction l as [|(a, b) l IH]; cbn [map fold_right fst snd]; [reflexivity|].
  rewrite IH. unfold both. cbn [fst snd]. rewrite at3_cross. generalize (zcross a b) as x. generalize (fold_right zadd (0, 0, 0)%Z (map (fun e => zcross (fst e) (snd e)) l)) as y. intros ((y1, y2), y3) ((x1, x2), x3). unfold at3, zadd, zx, zy, zz. cbn [fst snd]. rewrite !plus_IZR. reflexivity.
Qed.
Lemma z_area u pts k : (3 <= length pts)%nat -> zsigned u pts = k -> polygon_area (map at3 pts) (at3 u) = Rabs (IZR k) / 2.
Proof. intros L <-. rewrite polygon_area_eq by (rewrite map_length; auto). rewrite <- z_signed. auto. Qed.
Lemma across_whole p : is_square p -> exists p1 p2, slice_polygon p (map at3 across) None None None None [] [] = Ok (([], p1), ([], p2)) /\ told_apart (p_pts p) /\ NoDup (p_pts p) /\
  (exists o x M y l0 L l1, add_intersection_points (p_pts p) (map at3 across) = Ok o /\ remove_redundant_points (snd o) (p_pts p) (p_tri p) = Ok (x :: M ++ [y]) /\
    locate_points (cyc_pairs (p_pts p)) (p_pts p) (p_tri p) (x :: M ++ [y]) = Ok (l0 :: L ++ [l1]) /\ exact_end (p_pts p) l0 x /\ exact_end (p_pts p) l1 y /\ l0 <> l1 /\ forallb (fun l => negb (boundary l)) L = true /\
    in_plane (p_vn p) 0 (x :: M ++ [y])) /\ 0 < signed_area2 (p_pts p) (p_vn p) /\ unit (p_vn p) /\ in_plane (p_vn p) 0 (p_pts p) /\ covers (p_pts p, p_tri p) (p_vn p) (-0) /\ good_mesh (p_pts p) (p_tri p) /\
  p_area p1 + p_area p2 = polygon_area (p_pts p) (p_vn p) /\ let q := V 2 1 0 in clear_edges (p_pts p, p_tri p) q /\ clear_edges (p_pts p1, p_tri p1) q /\ clear_edges (p_pts p2, p_tri p2) q /\
  winding (p_vn p) (V 0 1 0) q (p_pts p) = 1%Z /\ winding (p_vn p) (V 0 1 0) q (p_pts p1) = 1%Z /\ winding (p_vn p) (V 0 1 0) q (p_pts p2) = 0%Z.
Proof.
  intros (Mk & Ep & Et & En). rewrite (z_slice up up1 p sq6 across _ _ (map at3 across_kept) (map at3 lower) (map at3 upper)) with (4 := eq_refl); auto; [|rewrite Et; exact across_removed|cbn; lia|rewrite Et; exact across_arrays].
  destruct (z_make_vn up up1 lower (rev lower) [(4, 0, 1); (1, 2, 3); (1, 3, 4)]%nat) as (p1 & M1 & E1 & T1 & _ & A1); [reflexivity|].
  destruct (z_make_vn up up1 upper upper [(4, 0, 1); (4, 1, 2); (4, 2, 3)]%nat) as (p2 & M2 & E2 & T2 & _ & A2); [reflexivity|].
  exists p1, p2. split. { unfold make_polygons. rewrite M1, M2. cbn [rbind assign_names fst snd or_random]. rewrite !Prelude.eqb_refl. auto. }
  destruct sq6_apart as (Ta & Nd & _). assert (U : unit (at3 up)) by (unfold unit, up, at3; vunf; ring).
  destruct (made_covers _ _ (at3 up) 0 Mk U (z_plane_of up 0 sq6 eq_refl)) as (m & d & D & Em & Cv & G & _). rewrite Ep, Et, En, E1, T1, E2, T2, A1, A2 in *.
  split; auto. split; auto. split.
  { exists (map at3 [(0, 0, 0); (6, 0, 0); (6, 3, 0); (6, 3, 0); (6, 6, 0); (0, 6, 0); (0, 3, 0); (0, 3, 0)]%Z, map at3 [(-1, 3, 0); (0, 3, 0); (3, 3, 0); (6, 3, 0); (7, 3, 0); (6, 3, 0); (0, 3, 0)]%Z), (at3 (0, 3, 0)%Z), [at3 (3, 3, 0)%Z], (at3 (6, 3, 0)%Z), (AtEdge 3), [Interior], (AtEdge 1).
    split; [apply (z_added up up1 sq6 across); reflexivity|]. split; [exact across_removed|]. split; [exact across_locs|].
    split. { exists (at3 (0, 6, 0)%Z), (at3 (0, 0, 0)%Z). split; [reflexivity|]. unfold at3. vunf. f_equal; ring. }
    split. { exists (at3 (6, 0, 0)%Z), (at3 (6, 6, 0)%Z). split; [reflexivity|]. unfold at3. vunf. f_equal; ring. }
    split; [discriminate|]. split; [reflexivity|]. apply (z_plane_of up 0 across_kept). reflexivity. }
  split. { rewrite z_signed. apply (IZR_lt 0). reflexivity. }
  split; auto. split; [apply (z_plane_of up 0 sq6); reflexivity|].
  split. { destruct D as [(Dm & Dd)|(Dm & Dd)]; [rewrite <- Dm, <- Dd; auto|]. exfalso. rewrite Em in Dm. apply (f_equal vz) in Dm. cbn in Dm. unfold vopp, smul in Dm. cbn in Dm. lra. }
  split; auto.
  split. { rewrite (z_area up (rev lower) 36), (z_area up upper 36), (z_area up sq6 72) by (cbn; auto; lia). rewrite !Rabs_pos_eq by lra. lra. }
  cbn zeta. change (V 2 1 0) with (at3 (2, 1, 0)%Z). change (V 0 1 0) with (at3 (0, 1, 0)%Z). rewrite !z_winding.
  repeat (split; [first [reflexivity | apply (z_clear up up1); reflexivity]|]). reflexivity.
Qed.
(** A polygon with a notch: around a point in the notch its outline does not
    wind, around a point beside it once. *)
Definition notched : list z3 := [(4, 4, 1); (4, 8, 1); (0, 8, 1); (0, 0, 1); (12, 0, 1); (12, 8, 1); (8, 8, 1); (8, 4, 1)]%Z.
Lemma notched_made : exists p, make_polygon (map at3 notched) None None = Ok p /\ unit (V 0 0 1) /\ in_plane (V 0 0 1) 1 (map at3 notched) /\ cross (V 0 1 0) (V 0 0 1) <> vzero /\
  clear_edges (p_pts p, p_tri p) (V 5 6 1) /\ winding (V 0 0 1) (V 0 1 0) (V 5 6 1) (map at3 notched) = 0%Z /\
  clear_edges (p_pts p, p_tri p) (V 1 6 1) /\ winding (V 0 0 1) (V 0 1 0) (V 1 6 1) (map at3 notched) = 1%Z.
Proof.
  destruct (zmake_spec notched (rev notched) [(0, 1, 2); (0, 2, 3); (0, 3, 4); (4, 5, 6); (4, 6, 7); (4, 7, 0)]%nat (0, 0, -1)%Z eq_refl) as (_ & p & M & E1 & E2 & _).
  exists p. split; auto. split; [unfold unit; vunf; ring|]. split; [apply (z_plane_of up 1 notched); reflexivity|]. split; [intros H; apply (f_equal vx) in H; revert H; vunf; cbn; lra|].
  rewrite E1, E2. change (V 0 0 1) with (at3 (0, 0, 1)%Z). change (V 0 1 0) with (at3 (0, 1, 0)%Z). change (V 5 6 1) with (at3 (5, 6, 1)%Z). change (V 1 6 1) with (at3 (1, 6, 1)%Z). rewrite !z_winding.
  split; [apply (z_clear up up1); reflexivity|]. split; [reflexivity|]. split; [apply (z_clear up up1); reflexivity|reflexivity].
Qed.
(** A strictly convex one. *)
Lemma square_covers p : is_square p -> covers (p_pts p, p_tri p) (V 0 0 1) (-0) /\ p_tri p <> [] /\ NoDup (p_pts p) /\ strictly_convex (V 0 0 1) (p_pts p) /\ cross (V 0 1 0) (V 0 0 1) <> vzero /\
  on_plane (V 0 0 1) (-0) (V 2 1 0) /\ (forall a b, In (a, b) (cyc_pairs (p_pts p)) -> 0 < left_of (V 0 0 1) a b (V 2 1 0)).
Proof.
  intros Q. destruct (across_whole p Q) as (p1 & p2 & _ & _ & N & _ & _ & _ & _ & C & _). destruct Q as (_ & Ep & Et & En). rewrite Ep, Et, En in *. change (at3 up) with (V 0 0 1) in C. split; auto. split; [discriminate|]. split; auto.
  split; [apply (z_convex_outline up sq6); reflexivity|]. split; [intros H; apply (f_equal vx) in H; revert H; vunf; cbn; lra|]. split; [unfold on_plane; vunf; ring|].
  intros a b I. cbn in I. unfold left_of. repeat (destruct I as [I|I]; [injection I as <- <-; vunf; lra|]). destruct I.
Qed.
