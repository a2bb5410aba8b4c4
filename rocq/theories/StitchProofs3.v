(** Evaluation of crossings and containment on integer points. *)
From Coq Require Import Reals List Bool Arith Lia Lra ZArith.
From Verif Require Import Prelude VecModel VecProofs GeomModel GeomSpec GeomProofs1 GeomProofs2 GeomProofs3 GeomProofs4 GeomProofs5 TriModel TriSpec TriProofs TriProofs2 TriProofs3 PolyModel PolySpec PolyProofs1 PolyProofs2 VisModel VisSpec VisProofs SliceModel SliceSpec SliceProofs1 SliceProofs3 SliceProofs4 SliceProofs7 SliceProofs8 StitchModel.
Import ListNotations.
Local Open Scope R_scope.

(** Segments that meet, ends included. *)
Lemma lsi_value a1 d1 b1 a2 d2 b2 t s q : b1 = vadd a1 d1 -> b2 = vadd a2 d2 -> q = vadd a1 (smul t d1) -> q = vadd a2 (smul s d2) -> norm a1 <= 16 -> norm b1 <= 16 -> norm a2 <= 16 -> norm b2 <= 16 ->
  1 <= norm d1 <= 20 -> 1 <= norm d2 <= 20 -> 1 <= norm (cross d1 d2) -> apart01 t -> apart01 s ->
  line_segment_intersection a1 b1 a2 b2 = if Rltb t 0 || Rltb 1 t || Rltb s 0 || Rltb 1 s then None else Some q.
Proof.
  intros E1 E2 Q1 Q2 Na1 Nb1 Na2 Nb2 N1 N2 C T S. destruct (plainly_apart d1 d2 N1 N2 C) as (Z1 & Z2 & NP).
  assert (D1 : vsub b1 a1 = d1) by (rewrite E1; dvec a1; dvec d1; vunf; f_equal; ring). assert (D2 : vsub b2 a2 = d2) by (rewrite E2; dvec a2; dvec d2; vunf; f_equal; ring).
  assert (Li : line_intersection a1 (vsub b1 a1) a2 (vsub b2 a2) = Some q) by (rewrite D1, D2; apply intersection_complete; auto; [exists t; auto|exists s; auto]).
  assert (Sg : forall a d b r, b = vadd a d -> q = vadd a (smul r d) -> 0 <= r <= 1 -> on_segment a b q). { intros a d b r Eb Eq R. exists r. split; auto. rewrite Eq. unfold seg_point. subst b. dvec a. dvec d. vunf. f_equal; ring. }
  unfold line_segment_intersection. rewrite Li.
  assert (Tr : (t <= - (1 / 200) \/ 1 + 1 / 200 <= t) \/ 0 <= t <= 1) by (unfold apart01 in T; lra). assert (Sr : (s <= - (1 / 200) \/ 1 + 1 / 200 <= s) \/ 0 <= s <= 1) by (unfold apart01 in S; lra). clear T S.
  assert (Ou : forall r, r <= - (1 / 200) \/ 1 + 1 / 200 <= r -> Rltb r 0 || Rltb 1 r = true). { intros r R. apply orb_true_iff. rewrite !Rltb_true. lra. }
  assert (In_ : forall r, 0 <= r <= 1 -> Rltb r 0 || Rltb 1 r = false). { intros r R. apply orb_false_iff. rewrite !Rltb_false. lra. }
  rewrite <- !orb_assoc, (orb_assoc (Rltb t 0)).
  destruct Tr as [Tr|Tr]. { rewrite (outside_segment a1 d1 b1 q t) by auto. cbn [andb]. rewrite (Ou t) by auto. auto. }
  rewrite (In_ t Tr). cbn [orb].
  destruct Sr as [Sr|Sr]. { rewrite (outside_segment a2 d2 b2 q s) by auto. rewrite andb_false_r, (Ou s) by auto. auto. }
  rewrite (In_ s Sr). rewrite (on_segment_accepted a1 b1 q), (on_segment_accepted a2 b2 q) by (try (unfold GEOM_ATOL; lra); first [apply (Sg a1 d1 b1 t); auto; lra|apply (Sg a2 d2 b2 s); auto; lra]). auto.
Qed.
(** A point on a segment. *)
Definition zseg (q a b : z3) : bool :=
  if zeqb q a || zeqb q b then true
  else if negb (zeqb (zcross (zsub q a) (zsub b a)) (0, 0, 0)%Z) then false
  else (0 <=? zdot (zsub q a) (zsub b a))%Z && (zdot (zsub q a) (zsub b a) <=? zdot (zsub b a) (zsub b a))%Z.
Lemma z_close0 c : allclose (at3 c) vzero RTOL GEOM_ATOL = zeqb c (0, 0, 0)%Z.
Proof.
  destruct (zeqb c (0, 0, 0)%Z) eqn:E.
  - apply zeqb_eq in E. subst c. unfold at3. apply points_equal_refl.
  - destruct (allclose (at3 c) vzero RTOL GEOM_ATOL) eqn:X; auto. exfalso. apply allclose_dist in X; try (unfold RTOL, GEOM_ATOL; lra). rewrite (proj2 (norm_zero vzero) eq_refl) in X. replace (vsub (at3 c) vzero) with (at3 c) in X by (dvec (at3 c); unfold vzero; vunf; f_equal; ring).
    assert (D : (1 <= zdot c c)%Z). { destruct c as ((x, y), z). unfold zeqb, zdot, zx, zy, zz in *. cbn [fst snd] in *. destruct (Z.eqb_spec x 0), (Z.eqb_spec y 0), (Z.eqb_spec z 0); try discriminate; nia. }
    apply IZR_le in D. assert (N : 1 <= norm (at3 c)) by (unfold norm; rewrite at3_dot; rewrite <- sqrt_1; apply sqrt_le_1_alt; lra). unfold GEOM_ATOL in X. lra.
Qed.
Lemma z_seg q a b : small3 q = true -> small3 a = true -> small3 b = true -> is_point_on_segment (at3 q) (at3 a) (at3 b) GEOM_ATOL = zseg q a b.
Proof.
  intros Sq Sa Sb. unfold is_point_on_segment, zseg. change (allclose (at3 q) (at3 a) RTOL GEOM_ATOL) with (points_equal (at3 q) (at3 a)). change (allclose (at3 q) (at3 b) RTOL GEOM_ATOL) with (points_equal (at3 q) (at3 b)). rewrite !z3_equal by auto.
  destruct (zeqb q a || zeqb q b); auto. rewrite !at3_sub, at3_cross, z_close0. destruct (zeqb _ _); cbn [negb]; auto. rewrite !at3_dot. set (d := zdot (zsub q a) (zsub b a)). set (l := zdot (zsub b a) (zsub b a)). unfold GEOM_ATOL.
  replace (Rltb (IZR d) (- (1 / 10000000000000))) with (negb (0 <=? d)%Z).
  - replace (Rltb (IZR l + 1 / 10000000000000) (IZR d)) with (negb (d <=? l)%Z).
    + rewrite negb_orb, !negb_involutive. auto.
    + destruct (Z.leb_spec d l) as [H|H]; cbn [negb]; symmetry; [apply Rltb_false; apply IZR_le in H; lra|apply Rltb_true; apply IZR_step in H; lra].
  - destruct (Z.leb_spec 0 d) as [H|H]; cbn [negb]; symmetry; [apply Rltb_false; apply IZR_le in H; lra|apply Rltb_true; apply IZR_step in H; lra].
Qed.
Lemma inside_loop_strict q pts ts atol r b : inside_loop q pts true atol ts = Ok r -> is_point_at_boundary q pts atol = Ok b -> inside_loop q pts false atol ts = Ok (r && negb b).
Proof.
  intros H B. revert r H. induction ts as [|t ts IH]; intros r; cbn [inside_loop]; [intros H; apply Ok_inj in H; subst; auto|]. destruct (tri_pts pts t) as [((x, y), z)|]; [|discriminate]. cbn [rbind]. destruct (is_point_inside_triangle q x y z GEOM_ATOL) as [[|]|]; cbn [rbind]; auto; [|discriminate]. intros H. apply Ok_inj in H. subst r. rewrite B. auto.
Qed.
Lemma inside_strict q pts ts atol r b : is_point_inside q pts ts true atol = Ok r -> is_point_at_boundary q pts atol = Ok b -> is_point_inside q pts ts false atol = Ok (r && negb b).
Proof.
  unfold is_point_inside. intros H B. destruct (is_point_inside_bbox q pts (1 / 100)) as [[|]|]; cbn [rbind negb] in *; [|apply Ok_inj in H; subst; auto|discriminate]. destruct (are_points_coplanar _ atol) as [[|]|]; cbn [rbind negb] in *; [|apply Ok_inj in H; subst; auto|discriminate]. apply inside_loop_strict; auto.
Qed.
Lemma anyM_map {A B} (f : A -> B) g h l : (forall x r, h x = Ok r -> g (f x) = Ok r) -> forall r, anyM h l = Ok r -> anyM g (map f l) = Ok r.
Proof. intros H. induction l as [|x l IH]; intros r; cbn [map anyM]; auto. destruct (h x) as [b|] eqn:E; [|discriminate]. rewrite (H _ _ E). cbn [rbind]. destruct b; auto. Qed.
Lemma allM_map {A B} (f : A -> B) g h l : (forall x r, h x = Ok r -> g (f x) = Ok r) -> forall r, allM h l = Ok r -> allM g (map f l) = Ok r.
Proof. intros H. induction l as [|x l IH]; intros r; cbn [map allM]; auto. destruct (h x) as [b|] eqn:E; [|discriminate]. rewrite (H _ _ E). cbn [rbind]. destruct b; auto. Qed.

Section Stitch.
Context (u : z3) (Hu : zdot u u = 1%Z).
(** Whether two segments meet. *)
Definition zlsi (e1 e2 : z3 * z3) : result bool :=
  let '(a1, b1) := e1 in let '(a2, b2) := e2 in
  let d1 := zsub b1 a1 in let d2 := zsub b2 a2 in let w := zsub a2 a1 in
  let c := zcross d1 d2 in let D := zdot c u in
  if small9 a1 && small9 b1 && small9 a2 && small9 b2 && zeqb c (zscale D u) && (zdot w u =? 0)%Z && (1 <=? zdot d1 d1)%Z && (zdot d1 d1 <=? 400)%Z && (1 <=? zdot d2 d2)%Z && (zdot d2 d2 <=? 400)%Z then
    if (D =? 0)%Z then
      if negb (zdot d1 d2 =? 0)%Z && zeqb (zscale (zdot d1 d1) d2) (zscale (zdot d1 d2) d1) then Ok false else Err OutOfFuel
    else
      let sg := Z.sgn D in
      let n1 := (sg * zdot (zcross w d2) u)%Z in let n2 := (sg * zdot (zcross w d1) u)%Z in let dd := Z.abs D in
      if (dd <=? 200)%Z && zeqb (zscale dd w) (zsub (zscale n1 d1) (zscale n2 d2)) then
        Ok ((0 <=? n1) && (n1 <=? dd) && (0 <=? n2) && (n2 <=? dd))%Z
      else Err OutOfFuel
  else Err OutOfFuel.
Lemma frac_out n d : (0 < d)%Z -> Rltb (IZR n / IZR d) 0 = negb (0 <=? n)%Z /\ Rltb 1 (IZR n / IZR d) = negb (n <=? d)%Z.
Proof.
  intros D. apply IZR_lt in D as D'. set (r := IZR n / IZR d). assert (E : IZR n = r * IZR d) by (unfold r; field; lra). split.
  - destruct (Z.leb_spec 0 n) as [H|H]; cbn [negb]; [apply Rltb_false; apply IZR_le in H; nra|apply Rltb_true; apply IZR_lt in H; nra].
  - destruct (Z.leb_spec n d) as [H|H]; cbn [negb]; [apply Rltb_false; apply IZR_le in H; nra|apply Rltb_true; apply IZR_lt in H; nra].
Qed.
Lemma z_lsi e1 e2 r : zlsi e1 e2 = Ok r -> exists o, line_segment_intersection (fst (both e1)) (snd (both e1)) (fst (both e2)) (snd (both e2)) = o /\ (if r then o <> None else o = None).
Proof.
  destruct e1 as (a1, b1), e2 as (a2, b2). unfold zlsi. set (d1 := zsub b1 a1). set (d2 := zsub b2 a2). set (w := zsub a2 a1). set (D := zdot (zcross d1 d2) u).
  match goal with |- (if ?c then _ else _) = _ -> _ => destruct c eqn:C; [|discriminate] end. rewrite !andb_true_iff, !Z.leb_le in C. destruct C as (((((((((S1 & S2) & S3) & S4) & Fl) & Pl) & A1) & A2) & B1) & B2). apply zeqb_eq in Fl.
  pose proof (norm_range d1 A1 A2) as N1. pose proof (norm_range d2 B1 B2) as N2. unfold both. cbn [fst snd]. destruct (Z.eqb_spec D 0) as [Z|Z].
  - destruct (Z.eqb_spec (zdot d1 d2) 0) as [K|K]; [discriminate|]. cbn [negb andb]. destruct (zeqb _ _) eqn:E; [|discriminate]. apply zeqb_eq in E. intros H. apply Ok_inj in H. subst r. exists None. split; auto. unfold line_segment_intersection. rewrite !at3_sub. fold d1 d2.
    assert (P : at3 d2 = smul (IZR (zdot d1 d2) / IZR (zdot d1 d1)) (at3 d1)).
    { apply (f_equal at3) in E. rewrite !at3_scale in E. assert (L : 1 <= IZR (zdot d1 d1)) by (apply IZR_le; auto). set (k := IZR (zdot d1 d1)) in *. set (m := IZR (zdot d1 d2)) in *. clearbody k m. clear - E L. dvec (at3 d1). dvec (at3 d2). vunf. injection E as E1 E2 E3. f_equal; apply (Rmult_eq_reg_l k); try lra; rewrite ?E1, ?E2, ?E3; field; lra. }
    rewrite P, exact_parallel; auto. apply IZR_le in A1. intros X. apply K. apply eq_IZR. apply (f_equal (fun x => x * IZR (zdot d1 d1))) in X. rewrite Rmult_0_l in X. rewrite <- X. field. lra.
  - set (n1 := (Z.sgn D * zdot (zcross w d2) u)%Z). set (n2 := (Z.sgn D * zdot (zcross w d1) u)%Z). set (dd := Z.abs D).
    match goal with |- (if ?c then _ else _) = _ -> _ => destruct c eqn:C; [|discriminate] end. rewrite andb_true_iff, Z.leb_le in C. destruct C as (Ld & E). apply zeqb_eq in E. assert (Pd : (0 < dd <= 200)%Z) by (unfold dd in *; lia).
    destruct (frac_apart n1 dd Pd) as (T1 & _ & _), (frac_apart n2 dd Pd) as (T4 & _ & _). destruct (frac_out n1 dd (proj1 Pd)) as (T2 & T3), (frac_out n2 dd (proj1 Pd)) as (T5 & T6). set (t := IZR n1 / IZR dd) in *. set (s := IZR n2 / IZR dd) in *.
    assert (Pr : 0 < IZR dd) by (apply IZR_lt; lia).
    assert (Ew : at3 w = vsub (smul t (at3 d1)) (smul s (at3 d2))).
    { apply (f_equal at3) in E. rewrite <- at3_sub, !at3_scale in E. unfold t, s. set (k := IZR dd) in *. set (x := IZR n1) in *. set (y := IZR n2) in *. clearbody k x y. clear - E Pr. dvec (at3 d1). dvec (at3 d2). dvec (at3 w). vunf. injection E as E1 E2 E3. f_equal; apply (Rmult_eq_reg_l k); try lra; rewrite ?E1, ?E2, ?E3; field; lra. }
    assert (NC : 1 <= norm (cross (at3 d1) (at3 d2))). { rewrite at3_cross. fold D in Fl. rewrite Fl, at3_scale, norm_smul, (unit_norm _ (axis_unit u Hu)), Rmult_1_r, <- abs_IZR. apply IZR_le. fold dd. lia. }
    intros H. apply Ok_inj in H. eexists. split; [reflexivity|]. rewrite (lsi_value (at3 a1) (at3 d1) (at3 b1) (at3 a2) (at3 d2) (at3 b2) t s (vadd (at3 a1) (smul t (at3 d1)))); auto; try (apply add_sub); try (apply small9_norm; auto).
    + rewrite T2, T3, T5, T6, <- !negb_andb. subst r. destruct ((0 <=? n1) && (n1 <=? dd) && (0 <=? n2) && (n2 <=? dd))%Z; cbn [negb]; auto. discriminate.
    + unfold w in Ew. rewrite <- at3_sub in Ew. clear - Ew. dvec (at3 a1). dvec (at3 a2). dvec (at3 d1). dvec (at3 d2). vunf. injection Ew as E1 E2 E3. f_equal; lra.
Qed.
(** Strictly inside. *)
Definition zstrict (q : z3) (pts : list z3) (ts : list tri) : result bool :=
  if forallb small3 (q :: pts) then do r <- zinside u q pts ts; Ok (r && negb (existsb (fun e => zseg q (fst e) (snd e)) (cyc_pairs pts))) else Err OutOfFuel.
Lemma z_strict q pts ts r : zstrict q pts ts = Ok r -> is_point_inside (at3 q) (map at3 pts) ts false GEOM_ATOL = Ok r.
Proof.
  unfold zstrict. destruct (forallb small3 (q :: pts)) eqn:S; [|discriminate]. destruct (zinside u q pts ts) as [i|] eqn:I; [|discriminate]. cbn [rbind]. intros H. apply Ok_inj in H. subst r. assert (N : pts <> []) by (intros ->; discriminate).
  apply inside_strict; [apply (z_inside u Hu); auto|]. unfold is_point_at_boundary. rewrite polygon_edges_eq by (destruct pts; [congruence|discriminate]). cbn [rbind]. f_equal. rewrite cyc_map_both. cbn [forallb] in S. apply andb_true_iff in S. destruct S as (Sq & Sp). rewrite forallb_forall in Sp.
  assert (G : forall e, In e (cyc_pairs pts) -> In (fst e) pts /\ In (snd e) pts). { intros e J. apply (cyc_members _ _ J). }
  induction (cyc_pairs pts) as [|e l IH]; cbn [map existsb]; auto. rewrite IH by (intros; apply G; right; auto). f_equal. destruct (G e) as (G1 & G2); [left; auto|]. unfold both. cbn [fst snd]. apply z_seg; auto.
Qed.
End Stitch.
Section Pair.
(** The normals of the two polygons. *)
Context (u : z3) (Hu : zdot u u = 1%Z) (u2 : z3) (Hu2 : zdot u2 u2 = 1%Z).
(** Crossing edges, when the first sample decides. *)
Definition zpair (pts1 : list z3) (ts1 : list tri) (pts2 : list z3) (ts2 : list tri) (e1 e2 : z3 * z3) : result bool :=
  if forallb small3 [fst e1; snd e1; fst e2; snd e2] && negb (zeqb (fst e1) (snd e1)) && negb (zeqb (fst e2) (snd e2)) then
    if zeqb (fst e1) (fst e2) || zeqb (fst e1) (snd e2) || zeqb (snd e1) (snd e2) || zeqb (snd e1) (fst e2) then Ok false
    else
      do l <- zlsi u e1 e2;
      if l then
        do a <- zstrict u2 (fst e1) pts2 ts2;
        do b <- (if a then Ok true else zstrict u (fst e2) pts1 ts1);
        if b then Ok true else Err OutOfFuel
      else Ok false
  else Err OutOfFuel.
Lemma between0 a b : new_point_between a b (INR 0 / INR (10 - 1)) = a.
Proof. unfold new_point_between. replace (INR 0 / INR (10 - 1)) with 0 by (unfold Rdiv; cbn [INR]; ring). dvec a. dvec b. vunf. f_equal; ring. Qed.
Lemma z_pair pts1 ts1 pts2 ts2 e1 e2 r : zpair pts1 ts1 pts2 ts2 e1 e2 = Ok r -> crossing_pair (map at3 pts1) ts1 (map at3 pts2) ts2 (both e1) (both e2) = Ok r.
Proof.
  unfold zpair. match goal with |- (if ?c then _ else _) = _ -> _ => destruct c eqn:C; [|discriminate] end. rewrite !andb_true_iff, !negb_true_iff in C. destruct C as ((S & D1) & D2). cbn [forallb] in S. rewrite !andb_true_iff in S. destruct S as (S1 & S2 & S3 & S4 & _). unfold crossing_pair. unfold both at 1 2 3 4 5 6 7 8. cbn [fst snd]. rewrite !z3_equal by auto.
  destruct (zeqb (fst e1) (fst e2) || zeqb (fst e1) (snd e2) || zeqb (snd e1) (snd e2) || zeqb (snd e1) (fst e2)); auto.
  destruct (zlsi u e1 e2) as [l|] eqn:L; [|discriminate]. cbn [rbind]. destruct (z_lsi u Hu _ _ _ L) as (o & Eo & D). rewrite Eo. destruct l; [|intros H; rewrite D; auto]. destruct o as [q|]; [clear D|congruence]. intros H. assert (Er : r = true). { destruct (zstrict u2 (fst e1) pts2 ts2) as [[|]|]; cbn [rbind] in H; try discriminate; [apply Ok_inj in H; auto|]. destruct (zstrict u (fst e2) pts1 ts1) as [[|]|]; cbn [rbind] in H; try discriminate. apply Ok_inj in H; auto. } subst r.
  apply zeqb_ne in D1, D2. destruct (dist_edge_min q (fst (both e1)) (snd (both e1))) as (x & Ex & _); [intros X; apply D1, at3_inj; auto|]. destruct (dist_edge_min q (fst (both e2)) (snd (both e2))) as (y & Ey & _); [intros X; apply D2, at3_inj; auto|]. rewrite Ex, Ey. cbn [rbind].
  assert (A : anyM (fun x => do a <- is_point_inside (new_point_between (fst (both e1)) (snd (both e1)) x) (map at3 pts2) ts2 false GEOM_ATOL; if a then Ok true else is_point_inside (new_point_between (fst (both e2)) (snd (both e2)) x) (map at3 pts1) ts1 false GEOM_ATOL) (linspace01 10) = Ok true).
  { unfold linspace01. cbn [seq map anyM]. rewrite !between0. change (fst (both e1)) with (at3 (fst e1)). change (fst (both e2)) with (at3 (fst e2)). destruct (zstrict u2 (fst e1) pts2 ts2) as [[|]|] eqn:Z1; cbn [rbind] in H; try discriminate.
    - rewrite (z_strict u2 Hu2 _ _ _ _ Z1). auto.
    - rewrite (z_strict u2 Hu2 _ _ _ _ Z1). cbn [rbind]. destruct (zstrict u (fst e2) pts1 ts1) as [[|]|] eqn:Z2; cbn [rbind] in H; try discriminate. rewrite (z_strict u Hu _ _ _ _ Z2). auto. }
  rewrite A. destruct (isclose x 0 RTOL ATOL8); cbn [rbind]; auto. destruct (isclose y 0 RTOL ATOL8); auto.
Qed.
Definition zoverlap (pts1 pts2 : list z3) : bool :=
  forallb (fun f : z3 -> Z => existsb (fun a => existsb (fun b => (f b <=? f a)%Z) pts2) pts1 && existsb (fun a => existsb (fun b => (f a <=? f b)%Z) pts2) pts1) coords.
Definition zcrossing (pts1 : list z3) (ts1 : list tri) (pts2 : list z3) (ts2 : list tri) : result bool :=
  if zplane u (pts1 ++ pts2) && zoverlap pts1 pts2 then anyM (fun e1 => anyM (fun e2 => zpair pts1 ts1 pts2 ts2 e1 e2) (cyc_pairs pts2)) (cyc_pairs pts1) else Err OutOfFuel.
Lemma z_crossing pts1 ts1 pts2 ts2 r : zcrossing pts1 ts1 pts2 ts2 = Ok r -> are_polygons_crossing (map at3 pts1) ts1 (map at3 pts2) ts2 = Ok r.
Proof.
  unfold zcrossing. destruct (zplane u (pts1 ++ pts2)) eqn:P; [|discriminate]. destruct (zoverlap pts1 pts2) eqn:O; [|discriminate]. cbn [andb]. intros H.
  assert (N : pts1 <> [] /\ pts2 <> []). { unfold zoverlap, coords in O. cbn [forallb] in O. rewrite !andb_true_iff in O. destruct O as ((O & _) & _). apply existsb_exists in O. destruct O as (a & I & O). apply existsb_exists in O. destruct O as (b & J & _). split; intros ->; contradiction. } destruct N as (N1 & N2).
  assert (M1 : map at3 pts1 <> []) by (destruct pts1; [congruence|discriminate]). assert (M2 : map at3 pts2 <> []) by (destruct pts2; [congruence|discriminate]).
  destruct (bbox_spec _ M1) as (lo1 & hi1 & B1 & C1). destruct (bbox_spec _ M2) as (lo2 & hi2 & B2 & C2). unfold are_polygons_crossing. rewrite B1, B2. cbn [rbind].
  assert (Ov : are_bboxes_overlapping (lo1, hi1) (lo2, hi2) = true).
  { unfold are_bboxes_overlapping, any_lt. cbn [fst snd]. apply negb_true_iff. assert (G : forall c, In c [vx; vy; vz] -> Rltb (c hi1) (c lo2) = false /\ Rltb (c hi2) (c lo1) = false).
    { intros c Ic. destruct (coord_of c Ic) as (f & If & Ef). unfold zoverlap in O. rewrite forallb_forall in O. specialize (O f If). apply andb_true_iff in O. destruct O as (O1 & O2). rewrite !existsb_exists in O1, O2. destruct O1 as (a & Ia & O1). rewrite existsb_exists in O1. destruct O1 as (b & Ib & O1). destruct O2 as (a' & Ia' & O2). rewrite existsb_exists in O2. destruct O2 as (b' & Ib' & O2). apply Z.leb_le in O1, O2. apply IZR_le in O1, O2. rewrite <- !Ef in O1, O2.
      destruct (C1 c Ic) as (L1 & _), (C2 c Ic) as (L2 & _). pose proof (L1 _ (in_map at3 _ _ Ia)). pose proof (L1 _ (in_map at3 _ _ Ia')). pose proof (L2 _ (in_map at3 _ _ Ib)). pose proof (L2 _ (in_map at3 _ _ Ib')). rewrite !Rltb_false. lra. }
    destruct (G vx) as (-> & ->); [simpl; auto|]. destruct (G vy) as (-> & ->); [simpl; auto|]. destruct (G vz) as (-> & ->); [simpl; auto|]. auto. }
  rewrite Ov. cbn [negb]. rewrite <- map_app. rewrite (coplanar_accepted (map at3 (pts1 ++ pts2)) GEOM_ATOL); [|unfold GEOM_ATOL; lra|apply (z_coplanar u Hu); auto]. cbn [rbind negb]. rewrite !polygon_edges_eq by auto. cbn [rbind]. rewrite !cyc_map_both.
  revert H. apply anyM_map. intros e1 b. apply anyM_map. intros e2 b'. apply z_pair.
Qed.
End Pair.
Section Contain.
Context (u : z3) (Hu : zdot u u = 1%Z).
(** Containment. *)
Definition zcontains (bnd : bool) (pts1 : list z3) (ts1 : list tri) (pts2 : list z3) : result bool :=
  allM (fun q => do i <- zinside u q pts1 ts1; if negb i then Ok false else allM (fun e => do o <- zon u q (fst e) (snd e); Ok (bnd || negb o)) (cyc_pairs pts1)) pts2.
Lemma z_contains (bnd : bool) p q pts1 pts2 r : p_pts p = map at3 pts1 -> p_pts q = map at3 pts2 -> zcontains bnd pts1 (p_tri p) pts2 = Ok r -> contains_margin (if bnd then with_boundary else GEOM_ATOL) p q = Ok r.
Proof.
  intros Ep Eq H. unfold contains_margin. rewrite Ep, Eq. revert H. unfold zcontains. apply allM_map. intros x b. unfold is_point_inside_margin. destruct (zinside u x pts1 (p_tri p)) as [i|] eqn:I; [|discriminate]. rewrite (z_inside u Hu _ _ _ _ I). cbn [rbind]. destruct i; cbn [negb]; auto.
  assert (N : pts1 <> []) by (intros ->; discriminate). rewrite polygon_edges_eq by (destruct pts1; [congruence|discriminate]). cbn [rbind]. rewrite cyc_map_both. apply allM_map. intros e s. destruct (zon u x (fst e) (snd e)) as [o|] eqn:O; [|discriminate]. cbn [rbind]. intros H. apply Ok_inj in H. subst s. destruct (z_dist u Hu _ _ _ _ O) as (d & Ed & P & D). unfold both. cbn [fst snd]. rewrite Ed. cbn [rbind]. f_equal.
  destruct bnd; cbn [orb].
  - apply negb_true_iff, Rltb_false. unfold with_boundary. lra.
  - f_equal. destruct o; [apply Rltb_true|apply Rltb_false]; unfold GEOM_ATOL; lra.
Qed.
(** Points of a chain that are inside. *)
Definition zremove (pts : list z3) (ts : list tri) (chain : list z3) : result (list z3) :=
  do l <- mapM (fun q => do b <- zinside u q pts ts; Ok (if b then [q] else [])) chain; Ok (concat l).
Lemma z_remove p pts chain r : p_pts p = map at3 pts -> zremove pts (p_tri p) chain = Ok r -> remove_outside p (map at3 chain) = Ok (map at3 r).
Proof.
  intros Ep. unfold zremove, remove_outside. rewrite Ep. revert r. induction chain as [|q chain IH]; intros r; cbn [mapM map].
  - intros H. apply Ok_inj in H. subst r. auto.
  - destruct (zinside u q pts (p_tri p)) as [b|] eqn:I; [|discriminate]. rewrite (z_inside u Hu _ _ _ _ I). cbn [rbind]. destruct (mapM (fun q => do b <- zinside u q pts (p_tri p); Ok (if b then [q] else [])) chain) as [l|]; [|discriminate]. cbn [rbind] in *. specialize (IH _ eq_refl).
    destruct (mapM _ (map at3 chain)) as [l'|]; [|discriminate]. cbn [rbind] in *. apply Ok_inj in IH. intros H. apply Ok_inj in H. subst r. f_equal. cbn [concat]. rewrite IH. destruct b; auto.
Qed.
End Contain.
