(** Proofs: which points are found in a solid. *)
From Coq Require Import Reals ZArith List Bool Arith Lia Lra.
From Verif Require Import Prelude VecModel VecProofs VoxModel VoxProofs GeomModel GeomSpec GeomProofs1 GeomProofs2 GeomProofs3 GeomProofs4 GeomProofs5 TriModel PolyModel PolySpec PolyProofs1 PolyProofs2 CrossSpec CrossProofs1 InsideSpec.
Import ListNotations.
Local Open Scope R_scope.

Lemma last_in {A} (l : list A) (x : A) : l <> [] -> In (last l x) l.
Proof. induction l as [|y l IH]; [congruence|]. intros _. destruct l as [|z l]; [left; auto|]. right. apply IH. discriminate. Qed.
Lemma perp_cross n u v : unit n -> dot n u = 0 -> dot n v = 0 -> exists k, cross u v = smul k n.
Proof.
  intros U Du Dv. exists (dot (cross u v) n). apply parallel_eq; auto. assert (E : cross (cross u v) n = vsub (smul (dot n u) v) (smul (dot n v) u)) by (dvec n; dvec u; dvec v; vunf; f_equal; ring).
  rewrite E, Du, Dv. dvec u; dvec v; vunf; f_equal; ring.
Qed.
Lemma sight_norm : 0 < norm sight /\ norm sight < 785.
Proof.
  unfold norm, sight. vunf. split; [apply sqrt_lt_R0; lra|]. rewrite <- (sqrt_square 785) by lra. apply sqrt_lt_1_alt. lra.
Qed.
Lemma ray_dir_sight : exists k, 1 / 785 < k /\ ray_dir = smul k sight.
Proof.
  destruct sight_norm as (N0 & N1). exists (1 / norm sight). split.
  - unfold Rdiv. rewrite !Rmult_1_l. apply Rinv_lt_contravar; auto. apply Rmult_lt_0_compat; lra.
  - unfold ray_dir. set (v := V (739 / 1000) (239 / 1000) (113 / 1000)). assert (E : v = smul (1 / 1000) sight) by (unfold v, sight; vunf; f_equal; field). rewrite E, norm_smul, Rabs_pos_eq by lra. set (s := norm sight) in *. unfold sight. vunf. f_equal; field; lra.
Qed.
Lemma plane_flat pts n d a b c r : unit n -> (forall q, In q pts -> on_plane n d q) -> pts = a :: b :: c :: r -> 1 / 100000000 < 2 * true_area (last pts a) a b ->
  exists e, (e = 1 \/ e = -1) /\ plane_coefficients pts = Ok (Some (smul e n, e * d)).
Proof.
  intros U P E A. destruct (plane_coefficients pts) as [[(m, g)|]|] eqn:C.
  - pose proof (plane_spec _ _ _ C) as (Um & pl & p0 & p1 & F & E1 & E2 & E3 & Pos). rewrite E in F. cbn [first_three] in F. rewrite <- E in F. apply Ok_inj in F. injection F as <- <- <-.
    assert (Il : In (last pts a) pts) by (rewrite E; apply last_in; discriminate). assert (Ia : In a pts) by (rewrite E; left; auto). assert (Ib : In b pts) by (rewrite E; right; left; auto).
    pose proof (P _ Il) as P1. pose proof (P _ Ia) as P2. pose proof (P _ Ib) as P3. unfold on_plane in *.
    unfold plane_coefficients in C. rewrite E in C. cbn [first_three rbind] in C. rewrite <- E in C. apply Ok_inj in C. destruct (normal (last pts a) a b) as [m'|] eqn:N; [|discriminate]. cbn [option_map projection_coefficients] in C. injection C as <- <-.
    destruct (parallel_normal n (last pts a) a b m') as (k & Ek); auto; [intros ->; unfold unit in U; vm_compute in U; unfold dot, vzero in U; cbn in U; lra|lra|lra|].
    assert (K : k * k = 1). { unfold unit in *. rewrite Ek in Um. replace (dot (smul k n) (smul k n)) with (k * k * dot n n) in Um by (vunf; ring). rewrite U in Um. lra. }
    exists k. split; [assert ((k - 1) * (k + 1) = 0) by lra; apply Rmult_integral in H; destruct H; [left|right]; lra|]. rewrite Ek. unfold projection_coefficients. f_equal. f_equal. f_equal. replace (dot (smul k n) a) with (k * dot n a) by (vunf; ring). replace (dot n a) with (- d) by lra. ring.
  - exfalso. apply plane_none in C. destruct C as (pl & p0 & p1 & F & L). rewrite E in F. cbn [first_three] in F. rewrite <- E in F. apply Ok_inj in F. injection F as <- <- <-. lra.
  - exfalso. rewrite E in C. unfold plane_coefficients in C. cbn [first_three rbind] in C. discriminate.
Qed.
Lemma plane_sound (f : face) n d : sound_face f n d -> exists e, (e = 1 \/ e = -1) /\ plane_coefficients (fst f) = Ok (Some (smul e n, e * d)) /\ fst f <> [].
Proof. intros (U & P & _ & _ & a & b & c & r & E & A & _). destruct (plane_flat _ n d a b c r U P E A) as (e & He & C). exists e. split; auto. split; auto. rewrite E. discriminate. Qed.
Lemma coplanar_face (f : face) n d q : sound_face f n d -> on_plane n d q -> are_points_coplanar (fst f ++ [q]) GEOM_ATOL = Ok true.
Proof.
  intros (U & P & _) Q. apply coplanar_accepted; [unfold GEOM_ATOL; lra|]. exists n, (- d). split; [intros ->; unfold unit, dot, vzero in U; cbn in U; lra|].
  intros p I. apply in_app_iff in I. destruct I as [I|[<-|[]]]; [apply P in I|]; unfold on_plane in *; lra.
Qed.
Lemma rint_range x : (floor x <= rint x <= floor x + 1)%Z.
Proof. unfold rint. destruct (Rltb (x - IZR (floor x)) (1 / 2)); [lia|]. destruct (Rltb (1 / 2) (x - IZR (floor x))); [lia|]. destruct (Z.even (floor x)); lia. Qed.
Lemma rint_mono x y : x <= y -> (rint x <= rint y)%Z.
Proof.
  intros L. pose proof (floor_spec x) as (A1 & A2). pose proof (floor_spec y) as (B1 & B2).
  assert (F : (floor x <= floor y)%Z). { apply Z.lt_succ_r. apply lt_IZR. rewrite succ_IZR. lra. }
  assert (H : floor x = floor y \/ (floor x + 1 <= floor y)%Z) by lia. unfold rint. destruct H as [->|H].
  - destruct (Rltb (x - IZR (floor y)) (1 / 2)) eqn:E1; rbool.
    + destruct (Rltb (y - _) _); [lia|]. destruct (Rltb _ (y - _)); [lia|]. destruct (Z.even _); lia.
    + rewrite (proj2 (Rltb_false (y - IZR (floor y)) (1 / 2))) by lra. destruct (Rltb (1 / 2) (x - _)) eqn:E2; rbool.
      * rewrite (proj2 (Rltb_true (1 / 2) (y - IZR (floor y)))) by lra. lia.
      * destruct (Rltb _ (y - _)); destruct (Z.even _); lia.
  - pose proof (rint_range x) as X. pose proof (rint_range y) as Y. unfold rint in X, Y. lia.
Qed.
Lemma round8_mono x y : x <= y -> round8 x <= round8 y.
Proof. intros L. unfold round8. apply Rmult_le_compat_r; [lra|]. apply IZR_le, rint_mono. lra. Qed.
Lemma between_box a b q : between a b q -> within_edge_box q a b GEOM_ATOL = true.
Proof.
  intros (k & K & -> & _). unfold within_edge_box. apply negb_true_iff.
  assert (H : forall u v w, (u <= w <= v \/ v <= w <= u) -> Rltb (Rmax (round8 u) (round8 v) + GEOM_ATOL) (round8 w) || Rltb (round8 w) (Rmin (round8 u) (round8 v) - GEOM_ATOL) = false).
  { intros u v w L. apply orb_false_iff. rewrite !Rltb_false. unfold GEOM_ATOL. pose proof (Rmax_l (round8 u) (round8 v)). pose proof (Rmax_r (round8 u) (round8 v)). pose proof (Rmin_l (round8 u) (round8 v)). pose proof (Rmin_r (round8 u) (round8 v)).
    destruct L as [(L1 & L2)|(L1 & L2)]; apply round8_mono in L1, L2; lra. }
  assert (B : forall u v, (u <= u + k * (v - u) <= v \/ v <= u + k * (v - u) <= u)) by (intros u v; destruct (Rle_dec u v); [left|right]; nra).
  dvec a. dvec b. unfold vadd, smul, vsub. cbn [vx vy vz]. rewrite !H; auto.
Qed.
Lemma between_collinear a b q : between a b q -> are_points_collinear [a; b; q] GEOM_ATOL = Ok true.
Proof.
  intros (k & K & E & D). assert (Dq : dist a q = k * norm (vsub b a)). { unfold dist. rewrite E. replace (vsub (vadd a (smul k (vsub b a))) a) with (smul k (vsub b a)) by (dvec a; dvec b; vunf; f_equal; ring). rewrite norm_smul, Rabs_pos_eq; lra. }
  pose proof (norm_pos (vsub b a)) as Nn. set (l := norm (vsub b a)) in *. assert (L : dist a q < l) by (rewrite Dq in *; nra).
  assert (Nz : l <> 0) by lra. pose proof (unit_vdiv (vsub b a) Nz) as U. fold l in U.
  pose proof (collinear_accepted a (vdiv (vsub b a) l) [l; k * l] GEOM_ATOL) as C. cbn [map] in C.
  replace (vadd a (smul l (vdiv (vsub b a) l))) with b in C by (clear - Nz; generalize l Nz; intros m M; dvec a; dvec b; vunf; f_equal; field; auto).
  replace (vadd a (smul (k * l) (vdiv (vsub b a) l))) with q in C by (rewrite E; clear - Nz; generalize l Nz; intros m M; dvec a; dvec b; vunf; f_equal; field; auto).
  apply C; auto; [unfold GEOM_ATOL; lra|]. intros x [<-|[<-|[]]]; unfold EPSILON; rewrite Rabs_pos_eq; lra.
Qed.
(** In the triangle or on its rim. *)
Definition hull3 (a b c q : vec) : Prop := exists x y z, 0 <= x /\ 0 <= y /\ 0 <= z /\ x + y + z = 1 /\ q = bary a b c x y z.
Lemma hull3_coord a b c q co : In co [vx; vy; vz] -> hull3 a b c q -> (exists v, In v [a; b; c] /\ co v <= co q) /\ (exists v, In v [a; b; c] /\ co q <= co v).
Proof.
  intros Ico (x & y & z & X & Y & Z & S1 & ->). unfold bary.
  assert (L : co (vadd (vadd (smul x a) (smul y b)) (smul z c)) = x * co a + y * co b + z * co c) by (destruct Ico as [<-|[<-|[<-|[]]]]; vunf; ring). rewrite L. clear L.
  set (u := co a). set (v := co b). set (w := co c).
  assert (Mn : forall e, e <= u -> e <= v -> e <= w -> e <= x * u + y * v + z * w) by (intros e H1 H2 H3; pose proof (Rmult_le_pos x (u - e)); pose proof (Rmult_le_pos y (v - e)); pose proof (Rmult_le_pos z (w - e)); nra).
  assert (Mx : forall e, u <= e -> v <= e -> w <= e -> x * u + y * v + z * w <= e) by (intros e H1 H2 H3; pose proof (Rmult_le_pos x (e - u)); pose proof (Rmult_le_pos y (e - v)); pose proof (Rmult_le_pos z (e - w)); nra).
  split.
  - destruct (Rle_dec u v), (Rle_dec u w), (Rle_dec v w); try (exists a; split; [simpl; auto|apply Mn; unfold u, v, w in *; lra]); try (exists b; split; [simpl; auto|apply Mn; unfold u, v, w in *; lra]); exists c; (split; [simpl; auto|apply Mn; unfold u, v, w in *; lra]).
  - destruct (Rle_dec u v), (Rle_dec u w), (Rle_dec v w); try (exists a; split; [simpl; auto|apply Mx; unfold u, v, w in *; lra]); try (exists b; split; [simpl; auto|apply Mx; unfold u, v, w in *; lra]); exists c; (split; [simpl; auto|apply Mx; unfold u, v, w in *; lra]).
Qed.
Lemma rim_hull a b c q : between a b q \/ between b c q \/ between c a q -> hull3 a b c q.
Proof.
  intros [(k & K & -> & _)|[(k & K & -> & _)|(k & K & -> & _)]]; [exists (1 - k), k, 0|exists 0, (1 - k), k|exists k, 0, (1 - k)]; repeat (split; [lra|]); unfold bary; dvec a; dvec b; dvec c; vunf; f_equal; ring.
Qed.
Lemma touch_triangle (f : face) n d q : sound_face f n d -> touches f q -> exists t a b c, In t (snd f) /\ tri_verts (fst f) t (a, b, c) /\ hull3 a b c q /\ is_point_inside_triangle q a b c GEOM_ATOL = Ok true.
Proof.
  intros S [(t & a & b & c & It & Tv & Si & Oe)|(t & a & b & c & It & Tv & R)]; exists t, a, b, c; (split; [exact It|]); (split; [exact Tv|]).
  - split; [destruct Si as (x & y & z & X & Y & Z & S1 & E); exists x, y, z; repeat (split; [lra|]); exact E|]. apply inside_complete; auto. destruct S as (_ & _ & G & _). destruct (G t It) as (a' & b' & c' & Tv' & Ar).
    destruct t as ((i, j), k). destruct Tv as (T1 & T2 & T3), Tv' as (T1' & T2' & T3'). assert (a' = a) by congruence. assert (b' = b) by congruence. assert (c' = c) by congruence. subst. exact Ar.
  - assert (H : hull3 a b c q) by (apply rim_hull; tauto). split; [exact H|]. unfold is_point_inside_triangle. destruct (inside_bbox_spec q [a; b; c] (1 / 100)) as (bb & -> & B); [discriminate|]. assert (bb = true) as ->.
    { apply B. intros co Ico. destruct (hull3_coord a b c q co Ico H) as ((v & Iv & Lv) & (w & Iw & Lw)). split; [exists v|exists w]; (split; [auto|lra]). }
    cbn [rbind negb]. destruct (_ || _ || allclose q c RTOL GEOM_ATOL); auto. cbn [edge_verdict].
    destruct R as [R|[(O1 & R)|(O1 & O2 & R)]].
    + rewrite (between_collinear _ _ _ R). cbn [rbind]. rewrite (between_box _ _ _ R). auto.
    + rewrite (off_edge_not_collinear _ _ _ O1). cbn [rbind]. rewrite (between_collinear _ _ _ R). cbn [rbind]. rewrite (between_box _ _ _ R). auto.
    + rewrite (off_edge_not_collinear _ _ _ O1). cbn [rbind]. rewrite (off_edge_not_collinear _ _ _ O2). cbn [rbind]. rewrite (between_collinear _ _ _ R). cbn [rbind]. rewrite (between_box _ _ _ R). auto.
Qed.
Lemma touch_coord (f : face) n d q co : sound_face f n d -> touches f q -> In co [vx; vy; vz] -> (exists v, In v (fst f) /\ co v <= co q) /\ (exists v, In v (fst f) /\ co q <= co v).
Proof.
  intros S W Ico. destruct (touch_triangle f n d q S W) as (t & a & b & c & It & Tv & H & _). destruct (hull3_coord a b c q co Ico H) as ((v & Iv & Lv) & (w & Iw & Lw)).
  destruct t as ((i, j), k). destruct Tv as (T1 & T2 & T3). apply nth_error_In in T1, T2, T3.
  assert (X : forall v, In v [a; b; c] -> In v (fst f)) by (intros v0 [<-|[<-|[<-|[]]]]; auto). split; [exists v|exists w]; auto.
Qed.
Lemma within_accepted (f : face) n d q : sound_face f n d -> on_plane n d q -> touches f q -> is_point_inside q (fst f) (snd f) true GEOM_ATOL = Ok true.
Proof.
  intros S Q W. pose proof (touch_coord f n d q) as Tc. destruct (touch_triangle f n d q S W) as (t & a & b & c & It & Tv & _ & Ht). pose proof (coplanar_face f n d q S Q) as C. destruct (plane_sound f n d S) as (_ & _ & _ & Ne).
  unfold is_point_inside. destruct (inside_bbox_spec q (fst f) (1 / 100) Ne) as (bb & -> & B). assert (bb = true) as ->.
  { apply B. intros co Ico. destruct (Tc co S W Ico) as ((v & Iv & Lv) & (w & Iw & Lw)). split; [exists v|exists w]; (split; [auto|lra]). }
  destruct S as (U & P & G & _).
  cbn [rbind negb]. rewrite C. cbn [rbind negb]. clear C B. induction (snd f) as [|t' ts IH]; [destruct It|]. cbn [inside_loop]. destruct (G t' (or_introl eq_refl)) as (a' & b' & c' & Tv' & Ar).
  rewrite (proj2 (tri_pts_spec _ _ (a', b', c')) Tv'). cbn [rbind]. destruct It as [->|It].
  - destruct t as ((i, j), k). destruct Tv as (T1 & T2 & T3), Tv' as (T1' & T2' & T3'). assert (a' = a) by congruence. assert (b' = b) by congruence. assert (c' = c) by congruence. subst.
    rewrite Ht; auto.
  - destruct (inside_total a' b' c' q) as (bb & ->); [exact Ar|]. cbn [rbind]. destruct bb; auto. apply IH; auto. intros t0 I0. apply G. right; auto.
Qed.
Lemma beyond_box q pts atol : pts <> [] -> beyond pts q -> is_point_inside_bbox q pts (1 / 100) = Ok false /\ forall ts bin, is_point_inside q pts ts bin atol = Ok false.
Proof.
  intros Ne (c & Ic & O). destruct (inside_bbox_spec q pts (1 / 100) Ne) as (bb & E & B). assert (bb = false) as ->.
  { destruct bb; auto. exfalso. destruct (proj1 B eq_refl c Ic) as ((p1 & I1 & L1) & (p2 & I2 & L2)). destruct O as [O|O]; [specialize (O p2 I2)|specialize (O p1 I1)]; lra. }
  split; auto. intros ts bin. unfold is_point_inside. rewrite E. auto.
Qed.
Lemma clear_rejected (f : face) n d q : sound_face f n d -> on_plane n d q -> clear_of f q -> is_point_inside q (fst f) (snd f) true GEOM_ATOL = Ok false.
Proof.
  intros S Q Cl. pose proof (coplanar_face f n d q S Q) as C. destruct (plane_sound f n d S) as (_ & _ & _ & Ne). destruct S as (U & P & G & _).
  destruct Cl as [B|Cl]; [apply (beyond_box q (fst f) GEOM_ATOL Ne B)|]. unfold is_point_inside. destruct (inside_bbox_spec q (fst f) (1 / 100) Ne) as (bb & -> & _). cbn [rbind]. destruct bb; auto. cbn [negb]. rewrite C. cbn [rbind negb]. clear C.
  induction (snd f) as [|t ts IH]; auto. cbn [inside_loop]. destruct (G t (or_introl eq_refl)) as (a & b & c & Tv & Ar). rewrite (proj2 (tri_pts_spec _ _ (a, b, c)) Tv). cbn [rbind].
  assert (Z : is_point_inside_triangle q a b c GEOM_ATOL = Ok false).
  { destruct (Cl t a b c (or_introl eq_refl) Tv) as [(co & Ico & B)|(Oe & F1 & F2 & F3 & N)]; [apply (inside_out_of_box a b c q co); auto|].
    destruct (inside_total a b c q) as (bb & E); [exact Ar|]. rewrite E. f_equal. destruct bb; auto. exfalso. apply N. apply inside_sound; auto.
    unfold in_plane_of. destruct t as ((i, j), k). destruct Tv as (T1 & T2 & T3). apply nth_error_In in T1, T2, T3. apply P in T1, T2, T3. unfold on_plane in *.
    destruct (perp_cross n (vsub b a) (vsub c a)) as (k' & ->); auto; try (vunf; unfold dot in *; lra). replace (dot (smul k' n) (vsub q a)) with (k' * (dot n q - dot n a)) by (vunf; ring). replace (dot n q - dot n a) with 0 by lra. ring. }
  rewrite Z. cbn [rbind]. apply IH; [intros t0 I0; apply G; right; auto|]. intros t0 a0 b0 c0 I0. apply Cl. right; auto.
Qed.

Lemma not_collinear a b c q r : off_edge a b c -> are_points_collinear (a :: b :: c :: r ++ [q]) GEOM_ATOL = Ok false.
Proof.
  intros O. pose proof (off_edge_not_collinear a b c O) as E. cbn [are_points_collinear map chain_close] in *. f_equal. apply Ok_inj in E. rewrite andb_true_r in E. rewrite E. auto.
Qed.
Lemma off_face_rejected (f : face) n d p : sound_face f n d -> off_face p f n d -> is_point_inside p (fst f) (snd f) true GEOM_ATOL = Ok false.
Proof.
  intros S [O|[B|(Q & Cl)]]; [|destruct (plane_sound f n d S) as (_ & _ & _ & Ne); apply (beyond_box p (fst f) GEOM_ATOL Ne B)|apply (clear_rejected f n d); auto].
  destruct (plane_sound f n d S) as (_ & _ & _ & Ne). destruct S as (U & P & G & _ & a & b & c & r & E & A1 & A2 & Of). unfold is_point_inside. destruct (inside_bbox_spec p (fst f) (1 / 100) Ne) as (bb & -> & _). cbn [rbind]. destruct bb; auto. cbn [negb].
  replace (are_points_coplanar (fst f ++ [p]) GEOM_ATOL) with (@Ok bool false); auto. symmetry. rewrite E. cbn [app].
  assert (Pa : on_plane n d a) by (apply P; rewrite E; left; auto). assert (Pb : on_plane n d b) by (apply P; rewrite E; right; left; auto). assert (Pc : on_plane n d c) by (apply P; rewrite E; right; right; left; auto). unfold on_plane in *.
  assert (N : exists e, (e = 1 \/ e = -1) /\ normal a b c = Some (smul e n)).
  { destruct (normal a b c) as [m|] eqn:N; [|exfalso; apply normal_none in N; unfold true_area in A2; lra]. destruct (parallel_normal n a b c m) as (k & Ek); auto; [intros ->; unfold unit, dot, vzero in U; cbn in U; lra|lra|lra|]. exists k. subst m. split; auto.
    apply normal_spec in N. destruct N as (Um & _). unfold unit in *. replace (dot (smul k n) (smul k n)) with (k * k * dot n n) in Um by (vunf; ring). rewrite U in Um. assert (H : (k - 1) * (k + 1) = 0) by lra. apply Rmult_integral in H. destruct H; [left|right]; lra. }
  destruct N as (e & He & N). unfold are_points_coplanar. pose proof (not_collinear a b c p r Of) as Nc. cbn [app] in *. destruct (r ++ [p]) as [|x l] eqn:El; [destruct r; discriminate|]. rewrite Nc. cbn [rbind first_normal]. rewrite N. f_equal.
  apply not_true_iff_false. intros F. rewrite forallb_forall in F. assert (Ip : In p (a :: b :: c :: x :: l)). { right. right. right. rewrite <- El. apply in_app_iff. right. left. auto. }
  specialize (F p Ip). apply Rltb_true in F. unfold GEOM_ATOL in F. replace (-1 * dot (smul e n) a + dot (smul e n) p) with (e * (dot n p - dot n a)) in F by (vunf; ring). replace (dot n p - dot n a) with (dot n p + d) in F by lra.
  rewrite Rabs_mult in F. replace (Rabs e) with 1 in F by (destruct He as [->| ->]; [rewrite Rabs_R1|rewrite Rabs_left]; lra). lra.
Qed.
Lemma project_face (f : face) n d p t : sound_face f n d -> on_plane n d (ray p t) -> is_point_inside_projection p ray_dir (fst f) (snd f) true GEOM_ATOL = if Rltb t 0 then Ok false else is_point_inside (ray p t) (fst f) (snd f) true GEOM_ATOL.
Proof.
  intros S Q. destruct (plane_sound f n d S) as (e & He & C & Ne). destruct S as (U & P & G & Sg & _). destruct ray_dir_sight as (k & K & Ek).
  destruct (projection_spec p ray_dir (fst f) (snd f) true GEOM_ATOL (smul e n) (e * d) true C) as (s & Hs & Un & _); [unfold GEOM_ATOL; lra| |].
  { rewrite Ek. replace (dot (smul e n) (smul k sight)) with (e * (k * dot n sight)) by (vunf; ring). rewrite Rabs_mult. replace (Rabs e) with 1 by (destruct He as [->| ->]; [rewrite Rabs_R1|rewrite Rabs_left]; lra). rewrite Rabs_mult, (Rabs_pos_eq k) by lra. unfold GEOM_ATOL. nra. }
  assert (Es : s * k = t).
  { assert (s = t / k); [|subst; field; lra]. symmetry. apply Un. unfold on_plane, ray in *. rewrite Ek. replace (smul (t / k) (smul k sight)) with (smul t sight) by (unfold sight; vunf; f_equal; field; lra). replace (dot (smul e n) (vadd p (smul t sight))) with (e * dot n (vadd p (smul t sight))) by (vunf; ring). replace (dot n (vadd p (smul t sight))) with (- d) by lra. ring. }
  assert (Er : vadd p (smul s ray_dir) = ray p t). { unfold ray. rewrite Ek, <- Es. unfold sight. vunf. f_equal; ring. }
  assert (Sg0 : Rltb s 0 = Rltb t 0). { destruct (Rlt_dec t 0) as [L|L]; [rewrite (proj2 (Rltb_true t 0) L); apply Rltb_true; nra|rewrite (proj2 (Rltb_false t 0)) by lra; apply Rltb_false; nra]. }
  assert (X : forall b, is_point_inside_projection p ray_dir (fst f) (snd f) true GEOM_ATOL = Ok b <-> (if Rltb t 0 then Ok false else is_point_inside (ray p t) (fst f) (snd f) true GEOM_ATOL) = Ok b).
  { intros b. destruct (projection_spec p ray_dir (fst f) (snd f) true GEOM_ATOL (smul e n) (e * d) b C) as (s' & Hs' & Un' & I); [unfold GEOM_ATOL; lra| |].
    { rewrite Ek. replace (dot (smul e n) (smul k sight)) with (e * (k * dot n sight)) by (vunf; ring). rewrite Rabs_mult. replace (Rabs e) with 1 by (destruct He as [->| ->]; [rewrite Rabs_R1|rewrite Rabs_left]; lra). rewrite Rabs_mult, (Rabs_pos_eq k) by lra. unfold GEOM_ATOL. nra. }
    rewrite (Un s' Hs') in I. rewrite I, Er, Sg0. cbn [andb]. destruct (Rltb t 0); [|tauto]. split; [intros ->; auto|intros H; apply Ok_inj in H; auto]. }
  destruct (Rltb t 0) eqn:T; [apply X; auto|]. destruct (inside_poly_total (ray p t) (fst f) (snd f) true GEOM_ATOL Ne G) as (b & E). rewrite E. apply X. auto.
Qed.
Lemma meets_true (f : face) n d p : sound_face f n d -> ray_meets p f n d -> is_point_inside_projection p ray_dir (fst f) (snd f) true GEOM_ATOL = Ok true.
Proof. intros S (t & T & Q & W). rewrite (project_face f n d p t S Q), (proj2 (Rltb_false t 0)) by lra. apply (within_accepted f n d); auto. Qed.
Lemma passes_false (f : face) n d p : sound_face f n d -> ray_passes p f n d -> is_point_inside_projection p ray_dir (fst f) (snd f) true GEOM_ATOL = Ok false.
Proof. intros S (t & Q & H). rewrite (project_face f n d p t S Q). destruct (Rltb t 0) eqn:T; auto. apply Rltb_false in T. destruct H as [H|H]; [lra|]. apply (clear_rejected f n d); auto. Qed.
Lemma project_total (f : face) n d p : sound_face f n d -> exists b, is_point_inside_projection p ray_dir (fst f) (snd f) true GEOM_ATOL = Ok b.
Proof.
  intros S. assert (T : exists t, on_plane n d (ray p t)).
  { destruct S as (_ & _ & _ & Sg & _). assert (D : dot n sight <> 0) by (intros Z; rewrite Z, Rabs_R0 in Sg; lra). exists (- (dot n p + d) / dot n sight). unfold on_plane, ray. replace (dot n (vadd p (smul (- (dot n p + d) / dot n sight) sight))) with (dot n p + - (dot n p + d) / dot n sight * dot n sight) by (vunf; ring). field. auto. }
  destruct T as (t & Q). rewrite (project_face f n d p t S Q). destruct (Rltb t 0); eauto. destruct (plane_sound f n d S) as (_ & _ & _ & Ne). apply inside_poly_total; auto. apply S.
Qed.

(** Solids. *)
Lemma extent_spec polys p : concat (map fst polys) <> [] -> exists lo hi, solid_bbox polys = Ok (lo, hi) /\ ((Rltb (vx hi) (vx p) || Rltb (vy hi) (vy p) || Rltb (vz hi) (vz p) = false /\ Rltb (vx p) (vx lo) || Rltb (vy p) (vy lo) || Rltb (vz p) (vz lo) = false) <-> in_extent (concat (map fst polys)) p).
Proof.
  intros Ne. destruct (bbox_spec _ Ne) as (lo & hi & E & H). exists lo, hi. split; [exact E|]. rewrite !orb_false_iff, !Rltb_false. split.
  - intros (((A1 & A2) & A3) & ((B1 & B2) & B3)) c Ic. destruct (H c Ic) as (_ & (a & Ia & Ea) & (b & Ib & Eb)). split; [exists a|exists b]; (split; [auto|]); rewrite ?Ea, ?Eb; destruct Ic as [<-|[<-|[<-|[]]]]; lra.
  - intros I. assert (G : forall c, In c [vx; vy; vz] -> c lo <= c p <= c hi). { intros c Ic. destruct (H c Ic) as (L & _). destruct (I c Ic) as ((a & Ia & La) & (b & Ib & Lb)). specialize (L a Ia) as L1. specialize (L b Ib). lra. }
    pose proof (G vx ltac:(simpl; auto)). pose proof (G vy ltac:(simpl; auto)). pose proof (G vz ltac:(simpl; auto)). lra.
Qed.
Lemma outside_extent polys p : concat (map fst polys) <> [] -> ~ in_extent (concat (map fst polys)) p -> solid_point_inside polys p = Ok false.
Proof.
  intros Ne N. destruct (extent_spec polys p Ne) as (lo & hi & E & I). unfold solid_point_inside. rewrite E. cbn [rbind]. destruct (_ || _ || Rltb (vz hi) (vz p)); auto. destruct (_ || _ || Rltb (vz p) (vz lo)); auto. exfalso. apply N, I. auto.
Qed.
Lemma in_extent_steps polys p : concat (map fst polys) <> [] -> in_extent (concat (map fst polys)) p -> solid_point_inside polys p =
  do hs <- mapM (fun q => is_point_inside_projection p ray_dir (fst q) (snd q) true GEOM_ATOL) polys; if Nat.odd (count_true hs) then Ok true else solid_point_at_boundary polys p.
Proof. intros Ne Ex. destruct (extent_spec polys p Ne) as (lo & hi & E & I). unfold solid_point_inside. rewrite E. cbn [rbind]. apply I in Ex. destruct Ex as (-> & ->). auto. Qed.
Lemma hit_list fs p bs : ok_faces fs -> Forall2 (fun x (b : bool) => let '(f, n, d) := x in if b then ray_meets p f n d else ray_passes p f n d) fs bs ->
  mapM (fun q => is_point_inside_projection p ray_dir (fst q) (snd q) true GEOM_ATOL) (solid_of fs) = Ok bs.
Proof.
  intros S F. induction F as [|((f, n), d) b fs bs H F IH]; auto. cbn [solid_of map mapM fst]. assert (Sf : sound_face f n d) by (apply S; left; auto).
  assert (E : is_point_inside_projection p ray_dir (fst f) (snd f) true GEOM_ATOL = Ok b) by (destruct b; [apply (meets_true f n d)|apply (passes_false f n d)]; auto). rewrite E. cbn [rbind].
  unfold solid_of in IH. rewrite IH; auto. intros f' n' d' I. apply S. right; auto.
Qed.
Lemma some_points fs : ok_faces fs -> fs <> [] -> concat (map fst (solid_of fs)) <> [].
Proof.
  intros S N. destruct fs as [|((f, n), d) fs]; [congruence|]. destruct (plane_sound f n d (S f n d (or_introl eq_refl))) as (_ & _ & _ & Ne). cbn [solid_of map fst concat]. destruct (fst f); [congruence|discriminate].
Qed.
Lemma boundary_total fs p : ok_faces fs -> exists b, solid_point_at_boundary (solid_of fs) p = Ok b.
Proof.
  intros S. apply anyM_total. intros f I. unfold solid_of in I. apply in_map_iff in I. destruct I as (((f', n), d) & <- & I). cbn [fst]. destruct (plane_sound f' n d (S f' n d I)) as (_ & _ & _ & Ne). apply inside_poly_total; auto. apply (S f' n d I).
Qed.
Lemma parity_odd fs p bs : ok_faces fs -> fs <> [] -> in_extent (concat (map fst (solid_of fs))) p -> Forall2 (fun x (b : bool) => let '(f, n, d) := x in if b then ray_meets p f n d else ray_passes p f n d) fs bs ->
  Nat.odd (hits bs) = true -> solid_point_inside (solid_of fs) p = Ok true.
Proof. intros S N Ex F O. rewrite in_extent_steps; auto; [|apply some_points; auto]. rewrite (hit_list fs p bs S F). cbn [rbind]. change (count_true bs) with (hits bs). rewrite O. auto. Qed.
Lemma parity_even fs p bs : ok_faces fs -> fs <> [] -> Forall2 (fun x (b : bool) => let '(f, n, d) := x in if b then ray_meets p f n d else ray_passes p f n d) fs bs ->
  Nat.odd (hits bs) = false -> (forall f n d, In (f, n, d) fs -> off_face p f n d) -> solid_point_inside (solid_of fs) p = Ok false.
Proof.
  intros S N F O A. destruct (extent_spec (solid_of fs) p (some_points fs S N)) as (lo & hi & E & I). unfold solid_point_inside. rewrite E. cbn [rbind]. destruct (_ || _ || Rltb (vz hi) (vz p)); auto. destruct (_ || _ || Rltb (vz p) (vz lo)); auto.
  rewrite (hit_list fs p bs S F). cbn [rbind]. change (count_true bs) with (hits bs). rewrite O. apply anyM_false. intros f If. unfold solid_of in If. apply in_map_iff in If. destruct If as (((f', n), d) & <- & If). cbn [fst]. apply (off_face_rejected f' n d); auto.
Qed.
Lemma on_face_inside fs p f n d : ok_faces fs -> In (f, n, d) fs -> on_plane n d p -> touches f p -> solid_point_inside (solid_of fs) p = Ok true.
Proof.
  intros S I Q W. assert (N : fs <> []) by (intros ->; destruct I). assert (A : is_point_inside p (fst f) (snd f) true GEOM_ATOL = Ok true) by (apply (within_accepted f n d); auto).
  assert (If : In f (solid_of fs)) by (unfold solid_of; apply in_map_iff; exists (f, n, d); auto).
  assert (B : solid_point_at_boundary (solid_of fs) p = Ok true). { apply anyM_found; [|exists f; auto]. intros g Ig. unfold solid_of in Ig. apply in_map_iff in Ig. destruct Ig as (((f', n'), d') & <- & Ig). cbn [fst]. destruct (plane_sound f' n' d' (S _ _ _ Ig)) as (_ & _ & _ & Ne). apply inside_poly_total; auto. apply (S f' n' d' Ig). }
  assert (T : exists hs, mapM (fun q => is_point_inside_projection p ray_dir (fst q) (snd q) true GEOM_ATOL) (solid_of fs) = Ok hs).
  { clear - S. induction fs as [|((f, n), d) fs IH]; [eexists; reflexivity|]. cbn [solid_of map mapM fst]. destruct (project_total f n d p) as (b & ->); [apply S; left; auto|]. cbn [rbind]. destruct IH as (hs & E); [intros f' n' d' I; apply S; right; auto|]. unfold solid_of in E. rewrite E. cbn [rbind]. eauto. }
  destruct T as (hs & T). rewrite in_extent_steps; [rewrite T; cbn [rbind]; destruct (Nat.odd _); auto|apply some_points; auto|].
  intros co Ico. destruct (touch_coord f n d p co (S _ _ _ I) W Ico) as ((v & Iv & Lv) & (w & Iw & Lw)).
  assert (C : forall v, In v (fst f) -> In v (concat (map fst (solid_of fs)))) by (intros v0 Iv0; apply in_concat; exists (fst f); split; auto; apply in_map; auto).
  split; [exists v|exists w]; auto.
Qed.
