(** Triangulation of a polygon: the whole function. *)
From Coq Require Import ZArith Reals List Bool Arith Lia Lra.
From Verif Require Import Prelude UtilModel TreeModel MeshModel VecModel VecProofs VoxModel GeomModel GeomSpec GeomProofs1 GeomProofs2 GeomProofs3 GeomProofs5 TriModel PolyModel CrossSpec CrossProofs1 AdjSpec AdjProofs1 MshProofs6 StatModel TriaModel TriaSpec TriaProofs TriaProofs2 TriaProofs3.
Import ListNotations.
Local Open Scope R_scope.

Lemma tri_verts_fun pts t q q' : tri_verts pts t q -> tri_verts pts t q' -> q = q'.
Proof. destruct t as ((i, j), k), q as ((a, b), c), q' as ((a', b'), c'). cbn. intros (A & B & C) (A' & B' & C'). congruence. Qed.
Lemma allclose_close a b atol : allclose a b RTOL atol = true <-> close_to atol a b.
Proof.
  unfold allclose, isclose, close_to, RTOL. rewrite !andb_true_iff. unfold Rleb. split.
  - intros ((A & B) & C) c [<-|[<-|[<-|[]]]]; repeat match goal with H : (if ?d then true else false) = true |- _ => destruct d; [clear H|discriminate] end; auto.
  - intros H. pose proof (H vx ltac:(cbn; auto)). pose proof (H vy ltac:(cbn; auto)). pose proof (H vz ltac:(cbn; auto)).
    repeat match goal with |- context [Rle_dec ?x ?y] => destruct (Rle_dec x y); [|contradiction] end. auto.
Qed.
Lemma keep_faces poly vs ts kept : mapM (keep_face poly vs) ts = Ok kept -> selected (has_centroid_in poly vs) ts (concat kept).
Proof.
  intros M. destruct (mapM_select (has_centroid_in poly vs) (fun t => t) (keep_face poly vs) ts kept) as (sel & Ss & E); [|exact M|rewrite E, map_id; auto].
  intros t r _ H. unfold keep_face in H. destruct (tri_pts vs t) as [((a, b), c)|] eqn:T; [|discriminate]. apply tri_pts_spec in T. cbn [rbind] in H.
  destruct (is_point_inside _ _ _ _ _) as [i|] eqn:I; [|discriminate]. cbn [rbind] in H. injection H as <-. unfold triangle_centroid in I. destruct i.
  - left. split; auto. exists a, b, c. auto.
  - right. split; auto. intros (a' & b' & c' & T' & I'). pose proof (tri_verts_fun _ _ _ _ T T') as E. injection E as <- <- <-. congruence.
Qed.
Lemma turn_faces poly vs ts fs : mapM (turn_face poly vs) ts = Ok fs -> Forall2 (turned vs (p_vn poly)) ts fs.
Proof.
  intros M. apply mapM_Forall2 in M. induction M as [|t t' ts fs H F IH]; constructor; auto. unfold turn_face in H.
  destruct (tri_pts vs t) as [((a, b), c)|] eqn:T; [|discriminate]. apply tri_pts_spec in T. cbn [rbind] in H. destruct t as ((i, j), k).
  destruct (normal a b c) as [n|] eqn:N.
  - destruct (allclose (vopp n) (p_vn poly) RTOL ATOL8) eqn:C.
    + injection H as <-. left. split; [|auto]. exists a, b, c, n. split; auto. split; auto. apply (allclose_close _ _ ATOL8). auto.
    + injection H as <-. right. split; [|auto]. intros (a' & b' & c' & n' & T' & N' & C'). pose proof (tri_verts_fun _ _ _ _ T T') as E. injection E as <- <- <-. rewrite N in N'. injection N' as <-.
      apply (allclose_close _ _ ATOL8) in C'. congruence.
  - injection H as <-. right. split; [|auto]. intros (a' & b' & c' & n' & T' & N' & C'). pose proof (tri_verts_fun _ _ _ _ T T') as E. injection E as <- <- <-. congruence.
Qed.
Lemma margin_total pts poly2 : make_polygon pts None None = Ok poly2 -> forall m p, exists b, is_point_inside_margin p m (p_pts poly2) (p_tri poly2) = Ok b.
Proof.
  intros Mk m p. destruct (made_proper _ _ Mk) as (L & G & Re). assert (N : p_pts poly2 <> []) by (destruct (p_pts poly2); [cbn in L; lia|discriminate]).
  unfold is_point_inside_margin. destruct (inside_poly_total p (p_pts poly2) (p_tri poly2) true GEOM_ATOL N G) as (b & ->). cbn [rbind]. destruct b; cbn [negb]; [|eauto].
  rewrite polygon_edges_eq by auto. cbn [rbind]. unfold real_edges in Re. induction (cyc_pairs (p_pts poly2)) as [|e es IH]; [exists true; auto|]. cbn [allM].
  destruct (dist_edge_min p (fst e) (snd e) (Re e (or_introl eq_refl))) as (d & -> & _). cbn [rbind]. destruct (negb (Rltb d m)); [apply IH; intros; apply Re; right; auto|eauto].
Qed.

Section Whole.
  Context (same : vec -> vec -> bool) (in_set : list vec -> list vec -> bool).
  Context (between : list vec -> R -> list vec -> result (list vec)).
  Context (delaunay : nat -> list (R * R) -> result (list itri)) (jog : nat -> nat -> nat -> R * R).
  Notation tria := (delaunay_triangulation same in_set between delaunay jog).
  Notation rounds_ := (rounds same in_set between delaunay jog).
  Notation round_ := (round same in_set between delaunay jog).
  Notation level := (level between).
  Notation origin := (origin between).
  Notation uses_all := (uses_all same).

  Lemma tria_spec fuel poly delta fixed vs fs : 0 < delta -> tria fuel poly delta fixed = Ok (vs, fs) ->
    exists f g p0 p1 r n poly2 final ts k kept,
      p_pts poly = p0 :: p1 :: r /\ normal (last (p_pts poly) p0) p0 p1 = Some n /\
      is_rotation f /\ is_rotation g /\ inverses f g /\
      (f n = ez1 \/ ((forall v, f v = v) /\ Rabs (vx n) < 1 / 10000000000000 /\ Rabs (vy n) < 1 / 10000000000000)) /\
      let z := vz (f p0) in
      let corners := map (fun p => V (vx (f p)) (vy (f p)) z) (p_pts poly) in
      make_polygon corners None None = Ok poly2 /\ (k <= fuel)%nat /\
      rounds_ poly2 corners (map f fixed) delta z 0 k corners final ts /\ vs = map g final /\
      selected (has_centroid_in poly vs) ts kept /\ Forall2 (turned vs (p_vn poly)) kept fs /\
      exists t0 fs' a b c n0, fs = t0 :: fs' /\ tri_verts vs t0 (a, b, c) /\ normal a b c = Some n0 /\ close_to (1 / 10000000000000) n0 (p_vn poly).
  Proof.
    intros D H. unfold delaunay_triangulation in H. destruct (rotate_points_to_plane (p_pts poly) vzero (V 0 0 1) 0) as [((pxy, ax), phi)|] eqn:Ro; [|discriminate].
    destruct (to_xy _ _ _ _ Ro) as (f & g & pl & p0 & p1 & n & F3 & N & Rf & Rg & Inv & -> & Rot & Back & Al). cbn [rbind] in H.
    assert (Ep : exists r, p_pts poly = p0 :: p1 :: r /\ pl = last (p_pts poly) p0).
    { unfold first_three in F3. destruct (p_pts poly) as [|x [|y r]]; try discriminate. injection F3 as <- <- <-. eauto. }
    destruct Ep as (r & Ep & ->). assert (A0 : at_index (map f (p_pts poly)) 0 = Ok (f p0)) by (rewrite Ep; reflexivity). rewrite A0 in H. cbn [rbind] in H. rewrite map_map in H.
    change (map (fun x => flat (vz (f p0)) (f x)) (p_pts poly)) with (map (fun p => V (vx (f p)) (vy (f p)) (vz (f p0))) (p_pts poly)) in H.
    destruct (make_polygon _ None None) as [poly2|] eqn:Mk; [|discriminate]. cbn [rbind] in H.
    assert (Fx : (match fixed with [] => Ok [] | _ => do a <- rotate_points_around_vector fixed ax phi; Ok (fst a) end) = Ok (map f fixed)).
    { destruct fixed; [reflexivity|]. destruct (Rot (v :: fixed)) as (m & ->). reflexivity. }
    rewrite Fx in H. cbn [rbind] in H. destruct (mesh_loop _ _ _ _ _ _ _ _ _ _ _ _ _) as [(final, ts)|] eqn:Lo; [|discriminate]. cbn [rbind fst snd] in H.
    destruct (Back final) as (m & Eb). rewrite Eb in H. cbn [rbind fst] in H. destruct (mapM (keep_face poly (map g final)) ts) as [kept|] eqn:K; [|discriminate]. cbn [rbind] in H.
    destruct (mapM (turn_face poly (map g final)) (concat kept)) as [faces|] eqn:T; [|discriminate]. cbn [rbind] in H.
    destruct (at_index faces 0) as [f0|] eqn:A; [|discriminate]. cbn [rbind] in H. destruct (tri_pts (map g final) f0) as [((a, b), c)|] eqn:Tp; [|discriminate]. cbn [rbind] in H.
    destruct (normal a b c) as [n0|] eqn:N0; [|discriminate]. destruct (allclose n0 (p_vn poly) RTOL GEOM_ATOL) eqn:C; [|discriminate]. injection H as <- <-.
    destruct (loop_rounds same in_set between delaunay jog _ _ _ _ _ _ _ _ _ _ D Lo) as (k & Lk & Rk).
    exists f, g, p0, p1, r, n, poly2, final, ts, k, (concat kept). split; auto. split; auto. split; auto. split; auto. split; auto. split; auto. cbv zeta. split; auto. split; auto. split; auto. split; auto.
    split; [apply keep_faces; auto|]. split; [apply turn_faces; auto|]. destruct faces as [|t0 faces]; [discriminate|]. injection A as <-. exists t0, faces, a, b, c, n0. split; auto. split; [apply tri_pts_spec; auto|]. split; auto.
    apply (allclose_close _ _ GEOM_ATOL). auto.
  Qed.

  (** The last round. *)
  Lemma rounds_last poly2 corners fixed delta z pass n pts final ts : rounds_ poly2 corners fixed delta z pass n pts final ts ->
    exists pass' pts', round_ pass' poly2 corners fixed delta z pts' final ts true.
  Proof. induction 1; eauto. Qed.
  Lemma round_level pass poly2 corners fixed delta z pts final ts ok : level -> at_height z fixed -> at_height z pts ->
    round_ pass poly2 corners fixed delta z pts final ts ok -> at_height z final.
  Proof.
    intros Lv Hf Hp (edge & inner & first & sel & Be & Gr & _ & _ & Ss & -> & _) p I. apply in_map_iff in I. destruct I as ((i, q) & <- & I). apply (selected_in _ _ _ Ss) in I. destruct I as (I & _).
    apply in_numbered, nth_error_In in I. cbn [snd]. rewrite !in_app_iff in I. destruct I as [I|[I|[I|I]]]; auto; [apply (Lv _ _ _ _ _ Hp Hf Be q I)|].
    apply Gr in I. destruct I as (x0 & x1 & y0 & y1 & i' & j' & _ & _ & _ & _ & -> & _). reflexivity.
  Qed.
  Lemma rounds_level poly2 corners fixed delta z pass n pts final ts : level -> at_height z fixed ->
    rounds_ poly2 corners fixed delta z pass n pts final ts -> at_height z pts -> at_height z final.
  Proof. intros Lv Hf H. induction H as [pass pts final ts H|pass n pts mid ts' final ts H Rs IH]; intros Hp; [|apply IH]; apply (round_level _ _ _ _ _ _ _ _ _ _ Lv Hf Hp H). Qed.

  Lemma round_origin pass poly2 corners fixed delta z pts final ts ok : (forall p, In p pts -> origin poly2 corners fixed delta z p) ->
    round_ pass poly2 corners fixed delta z pts final ts ok -> forall p, In p final -> origin poly2 corners fixed delta z p.
  Proof.
    intros Hp (edge & inner & first & sel & Be & Gr & _ & _ & Ss & -> & _) p I. apply in_map_iff in I. destruct I as ((i, q) & <- & I). apply (selected_in _ _ _ Ss) in I. destruct I as (I & _).
    apply in_numbered, nth_error_In in I. cbn [snd]. rewrite !in_app_iff in I. destruct I as [I|[I|[I|I]]]; auto; [right; right; left; eauto| |right; left; auto].
    apply Gr in I. destruct I as (x0 & x1 & y0 & y1 & i' & j' & _ & _ & _ & _ & -> & K). right; right; right. auto.
  Qed.
  Lemma rounds_origin poly2 corners fixed delta z pass n pts final ts : rounds_ poly2 corners fixed delta z pass n pts final ts ->
    (forall p, In p pts -> origin poly2 corners fixed delta z p) -> forall p, In p final -> origin poly2 corners fixed delta z p.
  Proof. induction 1 as [pass pts final ts H|pass n pts mid ts' final ts H Rs IH]; intros Hp; [|apply IH]; apply (round_origin _ _ _ _ _ _ _ _ _ _ Hp H). Qed.

  Lemma level_normal a b c n : vz a = vz b -> vz a = vz c -> normal a b c = Some n -> n = ez1 \/ n = vopp ez1.
  Proof.
    intros E1 E2 N. apply normal_some in N. destruct N as (L & ->). set (w := cross (vsub b a) (vsub c a)) in *.
    assert (W : w = V 0 0 (vz w)). { subst w. destruct a as [a0 a1 a2], b as [b0 b1 b2], c as [c0 c1 c2]. vunf. cbn [vz] in E1, E2. subst. f_equal; ring. }
    rewrite W in *. set (k := vz w) in *. clearbody k. clear W w. assert (Nk : norm (V 0 0 k) = Rabs k). { unfold norm, dot. cbn [vx vy vz]. replace (0 * 0 + 0 * 0 + k * k) with (Rsqr k) by (unfold Rsqr; ring). apply sqrt_Rsqr_abs. }
    rewrite Nk in *. unfold vdiv, ez1, vopp, smul. cbn [vx vy vz]. unfold Rabs in *. destruct (Rcase_abs k); [right|left]; f_equal; field; lra.
  Qed.
  Lemma close_not_both m vn : unit m -> close_to (1 / 100000000) m vn -> close_to (1 / 100000000) (vopp m) vn -> False.
  Proof.
    intros U A B. assert (Sm : forall c, In c [vx; vy; vz] -> Rabs (c m) <= 1 / 1000).
    { intros c I. specialize (A c I). specialize (B c I). assert (O : c (vopp m) = - c m) by (destruct I as [<-|[<-|[<-|[]]]]; unfold vopp, smul; cbn [vx vy vz]; ring). rewrite O in B.
      assert (Bd : Rabs (c m) <= 1). { assert (c m * c m <= 1) by (unfold unit, dot in U; destruct I as [<-|[<-|[<-|[]]]]; nra). unfold Rabs. destruct (Rcase_abs (c m)); nra. }
      set (x := c m) in *. set (y := c vn) in *. clearbody x y. clear - A B Bd. unfold Rabs in *.
      destruct (Rcase_abs (x - y)), (Rcase_abs (- x - y)), (Rcase_abs y), (Rcase_abs x); lra. }
    pose proof (Sm vx ltac:(cbn; auto)) as X. pose proof (Sm vy ltac:(cbn; auto)) as Y. pose proof (Sm vz ltac:(cbn; auto)) as Z. unfold unit, dot in U.
    assert (Sq : forall x, Rabs x <= 1 / 1000 -> x * x <= 1 / 1000) by (intros x; unfold Rabs; destruct (Rcase_abs x); nra).
    apply Sq in X, Y, Z. lra.
  Qed.
  Lemma vopp_vopp v : vopp (vopp v) = v.
  Proof. dvec v. unfold vopp. vunf. f_equal; ring. Qed.
  Lemma close_weaker a b v t : a <= b -> close_to a v t -> close_to b v t.
  Proof. intros L H c I. specialize (H c I). lra. Qed.
  Lemma faces_oriented vs vn m kept fs t0 fs' a b c n0 : unit m -> (forall t a b c n, tri_verts vs t (a, b, c) -> normal a b c = Some n -> n = m \/ n = vopp m) ->
    Forall2 (turned vs vn) kept fs -> fs = t0 :: fs' -> tri_verts vs t0 (a, b, c) -> normal a b c = Some n0 -> close_to (1 / 10000000000000) n0 vn ->
    forall t a b c n, In t fs -> tri_verts vs t (a, b, c) -> normal a b c = Some n -> n = n0.
  Proof.
    intros U Pm F E0 T0 N0 C0 t a' b' c' n I Tv Nn. assert (C8 : close_to (1 / 100000000) n0 vn) by (apply (close_weaker (1 / 10000000000000)); [lra|auto]).
    assert (U0 : unit n0) by (apply normal_spec in N0; tauto).
    assert (Opp : n = n0 \/ n = vopp n0). { destruct (Pm _ _ _ _ _ T0 N0) as [->| ->], (Pm _ _ _ _ _ Tv Nn) as [->| ->]; rewrite ?vopp_vopp; auto. }
    destruct Opp as [|Opp]; auto. exfalso. clear E0. induction F as [|s s' kept fs Ht F IH]; [destruct I|]. destruct I as [->|I]; [|auto].
    destruct Ht as [((x & y & w & nn & Ts & Ns & Cs) & ->)|(No & ->)].
    - destruct s as ((i, j), k). cbn [reversed] in Tv. cbn in Ts, Tv. destruct Ts as (S1 & S2 & S3), Tv as (V1 & V2 & V3). assert (a' = x /\ b' = w /\ c' = y) as (-> & -> & ->) by (repeat split; congruence).
      rewrite normal_swap, Ns in Nn. cbn [option_map] in Nn. injection Nn as <-. assert (nn = n0) as -> by (rewrite <- (vopp_vopp nn), Opp, vopp_vopp; auto). apply (close_not_both n0 vn); auto.
    - apply No. exists a', b', c', n. split; auto. split; auto. rewrite Opp, vopp_vopp. auto.
  Qed.
  Lemma oriented fuel poly delta fixed vs fs : 0 < delta -> level -> tria fuel poly delta fixed = Ok (vs, fs) ->
    exists p0 p1 r n m n0, p_pts poly = p0 :: p1 :: r /\ normal (last (p_pts poly) p0) p0 p1 = Some n /\ unit m /\
      (m = n \/ (m = ez1 /\ Rabs (vx n) < 1 / 10000000000000 /\ Rabs (vy n) < 1 / 10000000000000)) /\
      ((forall q, In q fixed -> dot m q = dot m p0) -> (forall v, In v vs -> dot m v = dot m p0) /\
        (n0 = m \/ n0 = vopp m) /\ close_to (1 / 10000000000000) n0 (p_vn poly) /\
        forall t a b c n', In t fs -> tri_verts vs t (a, b, c) -> normal a b c = Some n' -> n' = n0).
  Proof.
    intros D Lv H. destruct (tria_spec _ _ _ _ _ _ D H) as (f & g & p0 & p1 & r & n & poly2 & final & ts & k & kept & Ep & N & Rf & Rg & Inv & Al & Mk & _ & Rs & -> & Sk & Ft & (t0 & fs' & a & b & c & n0 & E0 & T0 & N0 & C0)).
    exists p0, p1, r, n, (g ez1), n0. split; auto. split; auto.
    assert (Ue : unit ez1) by (unfold unit, ez1; vunf; ring). assert (Um : unit (g ez1)) by (unfold unit; destruct Rg as (_ & _ & Dg & _); rewrite Dg; auto). split; auto.
    split; [destruct Al as [Al|(Id & Lx & Ly)]; [left; rewrite <- Al; apply Inv|right; split; auto; rewrite <- (Id (g ez1)); apply Inv]|].
    assert (Hz : forall q, dot (g ez1) q = vz (f q)).
    { intros q. destruct (Inv q) as (I1 & _). rewrite <- I1 at 1. destruct Rg as (_ & _ & Dg & _). rewrite Dg. unfold ez1, dot. cbn [vx vy vz]. ring. }
    intros Hf. assert (Lf : at_height (vz (f p0)) (map f fixed)). { intros q I. apply in_map_iff in I. destruct I as (q' & <- & I). rewrite <- !Hz. auto. }
    assert (Lc : at_height (vz (f p0)) (map (fun p => V (vx (f p)) (vy (f p)) (vz (f p0))) (p_pts poly))). { intros q I. apply in_map_iff in I. destruct I as (q' & <- & I). reflexivity. }
    pose proof (rounds_level _ _ _ _ _ _ _ _ _ _ Lv Lf Rs Lc) as Hl. split.
    { intros v I. apply in_map_iff in I. destruct I as (q & <- & I). rewrite !Hz. destruct (Inv q) as (_ & ->). auto. }
    assert (Pm : forall t a b c nn, tri_verts (map g final) t (a, b, c) -> normal a b c = Some nn -> nn = g ez1 \/ nn = vopp (g ez1)).
    { intros ((i, j), k') x y w nn Tv Nn. cbn in Tv. rewrite !nth_error_map in Tv. destruct Tv as (V1 & V2 & V3).
      destruct (nth_error final i) as [x'|] eqn:E1; [|discriminate]. destruct (nth_error final j) as [y'|] eqn:E2; [|discriminate]. destruct (nth_error final k') as [w'|] eqn:E3; [|discriminate]. cbn [option_map] in V1, V2, V3.
      injection V1 as <-. injection V2 as <-. injection V3 as <-. rewrite (rot_normal g _ _ _ Rg) in Nn. destruct (normal x' y' w') as [n1|] eqn:N1; [|discriminate]. injection Nn as <-.
      apply nth_error_In in E1, E2, E3. apply Hl in E1, E2, E3. destruct (level_normal x' y' w' n1) as [->| ->]; [congruence|congruence|auto|auto|]. right. unfold vopp. apply Rg. }
    split; [apply (Pm t0 a b c); auto|]. split; auto. apply (faces_oriented _ (p_vn poly) (g ez1) kept fs t0 fs' a b c n0); auto.
  Qed.

  Lemma fixed_kept fuel poly delta fixed vs fs tol : 0 < delta -> (forall p q, same p q = true -> dist p q <= tol) ->
    tria fuel poly delta fixed = Ok (vs, fs) -> forall q, In q fixed -> exists v, In v vs /\ dist q v <= tol.
  Proof.
    intros D Sm H q I. destruct (tria_spec _ _ _ _ _ _ D H) as (f & g & p0 & p1 & r & n & poly2 & final & ts & k & kept & Ep & N & Rf & Rg & Inv & Al & Mk & _ & Rs & -> & _).
    destruct (rounds_last _ _ _ _ _ _ _ _ _ _ Rs) as (pass' & pts' & (edge & inner & first & sel & _ & _ & _ & _ & _ & _ & _ & _ & Ok1)). destruct (proj1 Ok1 eq_refl) as (Hf & _).
    destruct (Hf (f q) (in_map f _ _ I)) as (v & Iv & Sv). exists (g v). split; [apply in_map; auto|]. destruct (Inv q) as (Eq & _). rewrite <- Eq, (rot_dist g _ _ Rg). auto.
  Qed.
  Lemma vertices_from fuel poly delta fixed vs fs : 0 < delta -> tria fuel poly delta fixed = Ok (vs, fs) ->
    exists f g p0 r n p1 poly2, p_pts poly = p0 :: r /\ is_rotation f /\ is_rotation g /\ inverses f g /\ normal (last (p_pts poly) p0) p0 p1 = Some n /\
      let z := vz (f p0) in let corners := map (fun p => V (vx (f p)) (vy (f p)) z) (p_pts poly) in
      make_polygon corners None None = Ok poly2 /\ forall v, In v vs -> origin poly2 corners (map f fixed) delta z (f v).
  Proof.
    intros D H. destruct (tria_spec _ _ _ _ _ _ D H) as (f & g & p0 & p1 & r & n & poly2 & final & ts & k & kept & Ep & N & Rf & Rg & Inv & Al & Mk & _ & Rs & -> & _).
    exists f, g, p0, (p1 :: r), n, p1, poly2. split; auto. split; auto. split; auto. split; auto. split; auto. cbv zeta. split; auto. intros v I. apply in_map_iff in I. destruct I as (q & <- & I).
    destruct (Inv q) as (_ & ->). apply (rounds_origin _ _ _ _ _ _ _ _ _ _ Rs); auto. intros p Ip. left. auto.
  Qed.
  (** All vertices are used by the last triangulation. *)
  Lemma all_used fuel poly delta fixed vs fs : 0 < delta -> (forall n l ts i, delaunay n l = Ok ts -> used ts i -> (i < length l)%nat) -> tria fuel poly delta fixed = Ok (vs, fs) ->
    exists f k l ts, delaunay k l = Ok ts /\ (exists j, k = 2 * j + 1)%nat /\ length l = length vs /\ (forall i, used ts i <-> (i < length vs)%nat) /\ (forall t, In t fs -> In t ts \/ In (reversed t) ts) /\
      is_rotation f /\ l = coords (map f vs).
  Proof.
    intros D Vd H. destruct (tria_spec _ _ _ _ _ _ D H) as (f & g & p0 & p1 & r & n & poly2 & final & ts & k & kept & Ep & N & Rf & Rg & Inv & Al & Mk & _ & Rs & -> & Sk & Ft & _).
    destruct (rounds_last _ _ _ _ _ _ _ _ _ _ Rs) as (pass' & pts' & (edge & inner & first & sel & _ & _ & _ & _ & _ & _ & D2 & (us & Nu & Lu & Us) & _)).
    exists f, (2 * pass' + 1)%nat, (coords final), ts. split; auto. split; [exists pass'; reflexivity|]. split; [unfold coords; rewrite !map_length; auto|]. rewrite !map_length.
    assert (Lc : length (coords final) = length final) by apply map_length.
    split.
    { intros i. split; [intros U; rewrite <- Lc; apply (Vd _ _ _ _ D2 U)|]. intros I. apply Us.
      assert (Inc : incl (seq 0 (length final)) us). { apply NoDup_length_incl; [exact Nu|rewrite seq_length; lia|]. intros j Ij. apply in_seq. apply Us in Ij. apply (Vd _ _ _ _ D2) in Ij. lia. }
      apply Inc, in_seq. lia. }
    split.
    { intros t I. pose proof (selected_in _ _ _ Sk) as Si. clear - Ft I Si. assert (X : exists s, In s kept /\ turned (map g final) (p_vn poly) s t).
      { clear Si. induction Ft as [|s s' ks fs' Hs F IH]; [destruct I|]. destruct I as [<-|I]; [exists s; cbn; auto|]. destruct (IH I) as (s1 & I1 & K). exists s1. cbn; auto. }
      destruct X as (s & Is & [(_ & ->)|(_ & ->)]); apply Si in Is; destruct Is as (Is & _); [right; destruct s as ((i, j), k); auto|left; auto]. }
    split; auto. f_equal. rewrite map_map. rewrite <- (map_id final) at 1. apply map_ext. intros v. symmetry. apply Inv.
  Qed.

  (** More rounds. *)
  Lemma loop_more fuel k pass poly2 corners fixed delta z pts r : mesh_loop same in_set between delaunay jog fuel pass poly2 corners fixed delta z pts = Ok r ->
    mesh_loop same in_set between delaunay jog (fuel + k) pass poly2 corners fixed delta z pts = Ok r.
  Proof.
    revert pass pts. induction fuel as [|fuel IH]; intros pass pts H; [discriminate|]. cbn [mesh_loop plus] in *. destruct (mesh_pass _ _ _ _ _ _ _ _ _ _ _ _) as [((mid, ts'), ok)|]; [|discriminate]. cbn [rbind] in *. destruct ok; auto.
  Qed.
  Lemma tria_more fuel k poly delta fixed r : tria fuel poly delta fixed = Ok r -> tria (fuel + k) poly delta fixed = Ok r.
  Proof.
    intros H. unfold delaunay_triangulation in *. destruct (rotate_points_to_plane _ _ _ _) as [((pxy, ax), phi)|]; [|discriminate]. cbn [rbind] in *. destruct (at_index pxy 0) as [p0|]; [|discriminate]. cbn [rbind] in *.
    destruct (make_polygon _ None None) as [poly2|]; [|discriminate]. cbn [rbind] in *. destruct (match fixed with [] => Ok [] | _ => _ end) as [fx|]; [|discriminate]. cbn [rbind] in *.
    destruct (mesh_loop _ _ _ _ _ fuel _ _ _ _ _ _ _) as [m|] eqn:Lo; [|discriminate]. rewrite (loop_more _ k _ _ _ _ _ _ _ _ Lo). auto.
  Qed.
  Lemma tria_one n poly delta fixed : 0 < delta -> (forall l ts, delaunay 0 (coords l) = Ok ts -> uses_all l ts) ->
    (forall e l, (forall p, In p e -> among same p l) -> in_set e l = true) -> tria (S n) poly delta fixed = tria 1 poly delta fixed.
  Proof.
    intros D Ua Is. unfold delaunay_triangulation. destruct (rotate_points_to_plane _ _ _ _) as [((pxy, ax), phi)|]; [|reflexivity]. cbn [rbind]. destruct (at_index pxy 0) as [p0|]; [|reflexivity]. cbn [rbind].
    destruct (make_polygon _ None None) as [poly2|]; [|reflexivity]. cbn [rbind]. destruct (match fixed with [] => Ok [] | _ => _ end) as [fx|]; [|reflexivity]. cbn [rbind].
    f_equal || idtac. cbn [mesh_loop]. destruct (mesh_pass _ _ _ _ _ 0 _ _ _ _ _ _) as [((mid, ts'), ok)|] eqn:P; [|reflexivity]. cbn [rbind]. apply pass_round in P; auto.
    assert (Ok1 : ok = true); [|rewrite Ok1; reflexivity].
    destruct P as (edge & inner & first & sel & Be & _ & D1 & _ & Ss & -> & _ & _ & Ok1). apply Ok1. specialize (Ua _ _ D1).
    assert (Kp : forall p, In p fx \/ In p edge -> among same p (map snd sel)).
    { intros p I. destruct (Ua p) as (i & q & Nq & Uq & S1 & S2); [rewrite !in_app_iff; tauto|]. exists q. split; auto. apply in_map_iff. exists (i, q). split; auto. apply (selected_in _ _ _ Ss). split; [apply in_numbered; auto|]. cbn [fst snd]. split; auto.
      destruct I as [I|I]; [right; left; exists p; auto|right; right; left; exists p; auto]. }
    split; [auto|apply Is; auto].
  Qed.
  Lemma round_runs pass poly2 corners fixed delta z pts edge : 0 < delta -> pts <> [] -> between pts delta fixed = Ok edge -> make_polygon corners None None = Ok poly2 ->
    (forall l, exists ts, delaunay (2 * pass) (coords l) = Ok ts /\ forall t, In t ts -> exists q, tri_verts l t q) ->
    (forall l, exists ts, delaunay (2 * pass + 1) (coords l) = Ok ts /\ forall i, used ts i <-> (i < length l)%nat) ->
    exists final ts ok, mesh_pass same in_set between delaunay jog pass poly2 corners fixed delta z pts = Ok (final, ts, ok).
  Proof. intros D Np Be Mk D1 D2. apply (pass_total same in_set between delaunay jog pass poly2 corners fixed delta z pts edge); auto. intros p. apply (margin_total _ _ Mk). Qed.
End Whole.

(** The end of the function. *)
Lemma close_dec atol v t : {close_to atol v t} + {~ close_to atol v t}.
Proof. destruct (allclose v t RTOL atol) eqn:E; [left|right]; rewrite <- allclose_close; congruence. Qed.
Lemma tria_end same in_set between delaunay jog fuel poly delta fixed pxy ax phi p0 poly2 fx final ts back : 
  rotate_points_to_plane (p_pts poly) vzero (V 0 0 1) 0 = Ok (pxy, ax, phi) -> nth_error pxy 0 = Some p0 ->
  make_polygon (map (flat (vz p0)) pxy) None None = Ok poly2 -> proper poly ->
  rotate_points_around_vector fixed ax phi = Ok fx ->
  mesh_loop same in_set between delaunay jog fuel 0 poly2 (map (flat (vz p0)) pxy) (fst fx) delta (vz p0) (map (flat (vz p0)) pxy) = Ok (final, ts) ->
  rotate_points_around_vector final ax (- phi) = Ok back ->
  (forall t, In t ts -> exists q, tri_verts (fst back) t q) ->
  let vs := fst back in exists kept fs, selected (has_centroid_in poly vs) ts kept /\ Forall2 (turned vs (p_vn poly)) kept fs /\
    ((fs = [] /\ delaunay_triangulation same in_set between delaunay jog fuel poly delta fixed = Err IndexError) \/
     exists t0 r a b c, fs = t0 :: r /\ tri_verts vs t0 (a, b, c) /\
       ((exists n0, normal a b c = Some n0 /\ close_to (1 / 10000000000000) n0 (p_vn poly) /\ delaunay_triangulation same in_set between delaunay jog fuel poly delta fixed = Ok (vs, fs)) \/
        ((forall n0, normal a b c = Some n0 -> ~ close_to (1 / 10000000000000) n0 (p_vn poly)) /\ delaunay_triangulation same in_set between delaunay jog fuel poly delta fixed = Err MeshError))).
Proof.
  intros Ro P0 Mk Pr Fx Lo Bk Vt vs. assert (A0 : at_index pxy 0 = Ok p0) by (unfold at_index; rewrite P0; auto).
  assert (Fx' : (match fixed with [] => Ok [] | _ => do a <- rotate_points_around_vector fixed ax phi; Ok (fst a) end) = Ok (fst fx)).
  { destruct fixed; [|rewrite Fx; reflexivity]. unfold rotate_points_around_vector in Fx. destruct (_ || _); [injection Fx as <-; reflexivity|]. destruct (rotation_matrix ax phi); [|discriminate]. injection Fx as <-. reflexivity. }
  assert (K : exists kept, mapM (keep_face poly vs) ts = Ok kept).
  { apply mapM_total. intros t I. destruct (Vt t I) as (((a, b), c) & Tv). apply tri_pts_spec in Tv. unfold keep_face, vs. rewrite Tv. cbn [rbind]. destruct Pr as (L & G & _).
    assert (N : p_pts poly <> []) by (destruct (p_pts poly); [cbn in L; lia|discriminate]). destruct (inside_poly_total (triangle_centroid a b c) (p_pts poly) (p_tri poly) true GEOM_ATOL N G) as (i & ->). cbn [rbind]. eauto. }
  destruct K as (kept & K). pose proof (keep_faces _ _ _ _ K) as Ks.
  assert (T : exists fs, mapM (turn_face poly vs) (concat kept) = Ok fs).
  { apply mapM_total. intros t I. apply (selected_in _ _ _ Ks) in I. destruct I as (I & _). destruct (Vt t I) as (((a, b), c) & Tv). apply tri_pts_spec in Tv. unfold turn_face, vs. rewrite Tv. cbn [rbind]. destruct t as ((i, j), k). destruct (normal a b c); eauto. }
  destruct T as (fs & T). pose proof (turn_faces _ _ _ _ T) as Tf. exists (concat kept), fs. split; auto. split; auto.
  unfold delaunay_triangulation. rewrite Ro. cbn [rbind]. rewrite A0. cbn [rbind]. rewrite Mk. cbn [rbind]. rewrite Fx'. cbn [rbind]. rewrite Lo. cbn [rbind fst snd]. rewrite Bk. cbn [rbind]. fold vs. rewrite K. cbn [rbind]. rewrite T. cbn [rbind].
  destruct fs as [|t0 r]; [left; auto|right]. assert (At : at_index (t0 :: r) 0 = Ok t0) by reflexivity. rewrite At. cbn [rbind].
  assert (V0 : exists q, tri_verts vs t0 q).
  { inversion Tf as [|s s' ks fs' Hs F]; subst. assert (Is : In s ts) by (apply (selected_in _ _ _ Ks); rewrite <- H; left; auto). destruct (Vt s Is) as (((a, b), c) & Tv).
    destruct Hs as [(_ & ->)|(_ & ->)]; [|eauto]. destruct s as ((i, j), k). exists (a, c, b). cbn in Tv |- *. unfold vs. tauto. }
  destruct V0 as (((a, b), c) & Tv). exists t0, r, a, b, c. split; auto. split; auto. pose proof Tv as Tv'. apply tri_pts_spec in Tv'. rewrite Tv'. cbn [rbind].
  destruct (normal a b c) as [n0|] eqn:N0; [|right; split; [discriminate|auto]]. destruct (allclose n0 (p_vn poly) RTOL GEOM_ATOL) eqn:C.
  - left. exists n0. split; auto. split; auto. apply (allclose_close _ _ GEOM_ATOL). auto.
  - right. split; auto. intros n1 E1 Cl. injection E1 as <-. apply (allclose_close _ _ GEOM_ATOL) in Cl. congruence.
Qed.
