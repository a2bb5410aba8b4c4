(** Evaluation of crossings and of whole slices on integer points. *)
From Coq Require Import Reals List Bool Arith Lia Lra ZArith Permutation.
From Verif Require Import Prelude VecModel VecProofs GeomModel GeomSpec GeomProofs1 GeomProofs2 GeomProofs3 GeomProofs4 GeomProofs5 TriModel TriSpec TriProofs TriProofs2 TriProofs3 PolyModel PolySpec PolyProofs1 PolyProofs2 VisModel VisSpec VisProofs SliceModel SliceSpec SliceProofs1 SliceProofs3 SliceProofs4 SliceProofs7.
Import ListNotations.
Local Open Scope R_scope.

Lemma norm_triangle a b : norm (vadd a b) <= norm a + norm b.
Proof.
  pose proof (norm_pos a). pose proof (norm_pos b). pose proof (norm_pos (vadd a b)). pose proof (cauchy a b) as C. pose proof (Rle_abs (dot a b)). pose proof (norm_sq a) as A. pose proof (norm_sq b) as B. pose proof (norm_sq (vadd a b)) as S.
  assert (Q : dot (vadd a b) (vadd a b) = dot a a + 2 * dot a b + dot b b) by (clear; dvec a; dvec b; vunf; ring). rewrite Q in S. apply Rsqr_incr_0_var; [unfold Rsqr; nra|lra].
Qed.
Definition apart01 (t : R) : Prop := t <= - (1 / 200) \/ t = 0 \/ 1 / 200 <= t <= 1 - 1 / 200 \/ t = 1 \/ 1 + 1 / 200 <= t.
Lemma outside_segment a d b q t : b = vadd a d -> q = vadd a (smul t d) -> norm a <= 16 -> norm b <= 16 -> 1 <= norm d <= 20 -> t <= - (1 / 200) \/ 1 + 1 / 200 <= t -> is_point_on_segment q a b GEOM_ATOL = false.
Proof.
  intros Eb Eq Na Nb Nd T. unfold is_point_on_segment.
  assert (E1 : vsub q a = smul t d) by (rewrite Eq; dvec a; dvec d; vunf; f_equal; ring). assert (E2 : vsub b a = d) by (rewrite Eb; dvec a; dvec d; vunf; f_equal; ring). assert (E3 : vsub q b = smul (t - 1) d) by (rewrite Eq, Eb; dvec a; dvec d; vunf; f_equal; ring).
  assert (A1 : allclose q a RTOL GEOM_ATOL = false).
  { destruct (allclose q a RTOL GEOM_ATOL) eqn:X; auto. exfalso. apply allclose_dist in X; try (unfold RTOL, GEOM_ATOL; lra). rewrite E1, norm_smul in X. assert (1 / 200 <= Rabs t) by (unfold Rabs; destruct (Rcase_abs t); lra). unfold RTOL, GEOM_ATOL in X. nra. }
  assert (A2 : allclose q b RTOL GEOM_ATOL = false).
  { destruct (allclose q b RTOL GEOM_ATOL) eqn:X; auto. exfalso. apply allclose_dist in X; try (unfold RTOL, GEOM_ATOL; lra). rewrite E3, norm_smul in X. assert (1 / 200 <= Rabs (t - 1)) by (unfold Rabs; destruct (Rcase_abs (t - 1)); lra). unfold RTOL, GEOM_ATOL in X. nra. }
  rewrite A1, A2. cbn [orb]. destruct (negb _); auto. rewrite E1, E2, dot_smul_l. pose proof (norm_sq d) as Q. assert (L : 1 <= dot d d) by (rewrite <- Q; nra). apply negb_false_iff, orb_true_iff. rewrite !Rltb_true. unfold GEOM_ATOL. destruct T as [T|T]; [left|right]; nra.
Qed.
Lemma end_apart a d b q t : b = vadd a d -> q = vadd a (smul t d) -> norm a <= 16 -> 1 <= norm d <= 20 -> 1 / 200 <= t <= 1 - 1 / 200 -> points_equal a q = false /\ points_equal b q = false.
Proof.
  intros Eb Eq Na Nd T. assert (Nq : norm q <= 36). { rewrite Eq. eapply Rle_trans; [apply norm_triangle|]. rewrite norm_smul, Rabs_pos_eq by lra. nra. }
  unfold points_equal. split.
  - destruct (allclose a q RTOL GEOM_ATOL) eqn:X; auto. exfalso. apply allclose_dist in X; try (unfold RTOL, GEOM_ATOL; lra). replace (vsub a q) with (smul (- t) d) in X by (rewrite Eq; dvec a; dvec d; vunf; f_equal; ring). rewrite norm_smul, Rabs_Ropp, Rabs_pos_eq in X by lra. unfold RTOL, GEOM_ATOL in X. nra.
  - destruct (allclose b q RTOL GEOM_ATOL) eqn:X; auto. exfalso. apply allclose_dist in X; try (unfold RTOL, GEOM_ATOL; lra). replace (vsub b q) with (smul (1 - t) d) in X by (rewrite Eq, Eb; dvec a; dvec d; vunf; f_equal; ring). rewrite norm_smul, Rabs_pos_eq in X by lra. unfold RTOL, GEOM_ATOL in X. nra.
Qed.
Lemma plainly_apart d1 d2 : 1 <= norm d1 <= 20 -> 1 <= norm d2 <= 20 -> 1 <= norm (cross d1 d2) -> ~ seem_zero d1 /\ ~ seem_zero d2 /\ ~ seem_parallel d1 d2.
Proof.
  intros N1 N2 C. assert (Z : forall d, 1 <= norm d -> ~ seem_zero d). { intros d N X. unfold seem_zero in X. apply allclose_dist in X; try (unfold RTOL, ATOL8; lra). rewrite (proj2 (norm_zero vzero) eq_refl) in X. replace (vsub d vzero) with d in X by (dvec d; unfold vzero; vunf; f_equal; ring). unfold ATOL8 in X. lra. }
  split; [apply Z; lra|]. split; [apply Z; lra|].
  assert (G : forall d, norm d = norm d2 -> norm (cross d1 d) = norm (cross d1 d2) -> allclose (vdiv d1 (norm d1)) (vdiv d (norm d)) RTOL ATOL8 = true -> False).
  { intros d Nd Nc X. apply allclose_dist in X; try (unfold RTOL, ATOL8; lra). assert (U1 : unit (vdiv d1 (norm d1))) by (apply unit_vdiv; lra). assert (U2 : unit (vdiv d (norm d))) by (apply unit_vdiv; lra). rewrite (unit_norm _ U2) in X. set (a := vdiv d1 (norm d1)) in *. set (b := vdiv d (norm d)) in *.
    assert (E : norm (cross a b) = norm (cross d1 d) / (norm d1 * norm d)).
    { replace (cross a b) with (smul (1 / (norm d1 * norm d)) (cross d1 d)) by (unfold a, b; set (n := norm d1) in *; set (m := norm d) in *; assert (n <> 0) by lra; assert (m <> 0) by lra; clearbody n m; clear - H H0; dvec d1; dvec d; vunf; f_equal; field; auto).
      rewrite norm_smul, Rabs_pos_eq; [field; lra|]. apply Rlt_le, Rdiv_lt_0_compat; try lra. nra. }
    assert (F : cross a b = cross a (vsub b a)) by (clear; dvec a; dvec b; vunf; f_equal; ring). pose proof (cross_norm_le a (vsub b a)) as Q. rewrite <- F, E, (unit_norm _ U1), Nc in Q.
    assert (S : norm (vsub b a) = norm (vsub a b)) by (apply norm_dot_eq; clear; dvec a; dvec b; vunf; ring). rewrite S in Q. assert (P : 0 < norm d1 * norm d) by nra. assert (B : norm d1 * norm d <= 400) by nra.
    assert (L : 1 / 400 <= norm (cross d1 d2) / (norm d1 * norm d)). { apply (Rmult_le_reg_r (norm d1 * norm d)); auto. unfold Rdiv. rewrite (Rmult_assoc (norm (cross d1 d2))), Rinv_l by lra. lra. }
    unfold RTOL, ATOL8 in X. lra. }
  intros [X|X]; [apply (G d2); auto|]. apply (G (vopp d2)); [|..].
  - apply norm_dot_eq. dvec d2. unfold vopp. vunf. ring.
  - apply norm_dot_eq. clear. dvec d1. dvec d2. unfold vopp. vunf. ring.
  - replace (norm (vopp d2)) with (norm d2) by (symmetry; apply norm_dot_eq; clear; dvec d2; unfold vopp; vunf; ring). auto.
Qed.
Lemma crossing_value a1 d1 b1 a2 d2 b2 t s q : b1 = vadd a1 d1 -> b2 = vadd a2 d2 -> q = vadd a1 (smul t d1) -> q = vadd a2 (smul s d2) -> norm a1 <= 16 -> norm b1 <= 16 -> norm a2 <= 16 -> norm b2 <= 16 ->
  1 <= norm d1 <= 20 -> 1 <= norm d2 <= 20 -> 1 <= norm (cross d1 d2) -> apart01 t -> apart01 s ->
  new_crossing (a1, b1) (a2, b2) = if Rltb 0 t && Rltb t 1 && Rltb 0 s && Rltb s 1 then Some q else None.
Proof.
  intros E1 E2 Q1 Q2 Na1 Nb1 Na2 Nb2 N1 N2 C T S. destruct (plainly_apart d1 d2 N1 N2 C) as (Z1 & Z2 & NP).
  assert (D1 : vsub b1 a1 = d1) by (rewrite E1; dvec a1; dvec d1; vunf; f_equal; ring). assert (D2 : vsub b2 a2 = d2) by (rewrite E2; dvec a2; dvec d2; vunf; f_equal; ring).
  assert (Li : line_intersection a1 (vsub b1 a1) a2 (vsub b2 a2) = Some q) by (rewrite D1, D2; apply intersection_complete; auto; [exists t; auto|exists s; auto]).
  assert (Sg : forall a d b r, b = vadd a d -> q = vadd a (smul r d) -> 0 <= r <= 1 -> on_segment a b q). { intros a d b r Eb Eq R. exists r. split; auto. rewrite Eq. unfold seg_point. subst b. dvec a. dvec d. vunf. f_equal; ring. }
  unfold new_crossing, line_segment_intersection. cbn [fst snd]. rewrite Li.
  assert (Tr : (t <= - (1 / 200) \/ 1 + 1 / 200 <= t) \/ (t = 0 \/ t = 1) \/ 1 / 200 <= t <= 1 - 1 / 200) by (unfold apart01 in T; tauto). assert (Sr : (s <= - (1 / 200) \/ 1 + 1 / 200 <= s) \/ (s = 0 \/ s = 1) \/ 1 / 200 <= s <= 1 - 1 / 200) by (unfold apart01 in S; tauto). clear T S.
  assert (No : forall r, (r <= - (1 / 200) \/ 1 + 1 / 200 <= r) \/ (r = 0 \/ r = 1) -> Rltb 0 r && Rltb r 1 = false). { intros r R. apply andb_false_iff. rewrite !Rltb_false. lra. }
  destruct Tr as [Tr|Tr]. { rewrite (outside_segment a1 d1 b1 q t) by auto. cbn [andb]. rewrite (No t) by auto. auto. }
  destruct Sr as [Sr|Sr]. { rewrite (outside_segment a2 d2 b2 q s) by auto. rewrite andb_false_r, <- andb_assoc, (No s), andb_false_r by auto. auto. }
  rewrite (on_segment_accepted a1 b1 q), (on_segment_accepted a2 b2 q) by (try (unfold GEOM_ATOL; lra); first [apply (Sg a1 d1 b1 t); auto; lra|apply (Sg a2 d2 b2 s); auto; lra]). cbn [andb].
  assert (En : forall a d b r, b = vadd a d -> q = vadd a (smul r d) -> r = 0 \/ r = 1 -> a = q \/ b = q). { intros a d b r Eb Eq [->| ->]; [left|right]; rewrite Eq, ?Eb; dvec a; dvec d; vunf; f_equal; ring. }
  destruct Tr as [Tr|Tr].
  { rewrite (No t) by auto. cbn [andb]. destruct (En a1 d1 b1 t E1 Q1 Tr) as [->| ->]; rewrite points_equal_refl; auto. destruct (points_equal a1 q); auto. }
  destruct (end_apart a1 d1 b1 q t) as (P1 & P2); auto. rewrite P1, P2. destruct Sr as [Sr|Sr].
  { rewrite <- andb_assoc, (No s), andb_false_r by auto. destruct (En a2 d2 b2 s E2 Q2 Sr) as [->| ->]; rewrite points_equal_refl; auto. destruct (points_equal a2 q); auto. }
  destruct (end_apart a2 d2 b2 q s) as (P3 & P4); auto. rewrite P3, P4. rewrite !(proj2 (Rltb_true _ _)) by lra. auto.
Qed.

(** Integer crossings. *)
Definition small9 (p : z3) : bool := ((-9 <=? zx p) && (zx p <=? 9) && (-9 <=? zy p) && (zy p <=? 9) && (-9 <=? zz p) && (zz p <=? 9))%Z.
Lemma small9_norm a : small9 a = true -> norm (at3 a) <= 16.
Proof.
  unfold small9. rewrite !andb_true_iff, !Z.leb_le. intros S. unfold norm. rewrite at3_dot. assert (B : (zdot a a <= 256)%Z) by (destruct a as ((a, a'), a''); unfold zdot, zx, zy, zz in *; cbn [fst snd] in *; nia).
  apply IZR_le in B. replace 16 with (sqrt 256) by (replace 256 with (16 * 16) by lra; apply sqrt_square; lra). apply sqrt_le_1_alt. lra.
Qed.
Definition zadd (a b : z3) : z3 := (zx a + zx b, zy a + zy b, zz a + zz b)%Z.
Lemma at3_add a b : vadd (at3 a) (at3 b) = at3 (zadd a b).
Proof. rewrite !at3_eq. unfold zadd, vadd, zx, zy, zz. cbn [fst snd vx vy vz]. rewrite !plus_IZR. auto. Qed.
Lemma frac_apart n d : (0 < d <= 200)%Z -> apart01 (IZR n / IZR d) /\ (Rltb 0 (IZR n / IZR d) = (0 <? n)%Z) /\ (Rltb (IZR n / IZR d) 1 = (n <? d)%Z).
Proof.
  intros (D & L). apply IZR_lt in D as D'. apply IZR_le in L. set (r := IZR n / IZR d). assert (E : IZR n = r * IZR d) by (unfold r; field; lra).
  assert (B1 : Rltb 0 r = (0 <? n)%Z). { destruct (Z.ltb_spec 0 n) as [H|H]; [apply IZR_lt in H; apply Rltb_true; nra|apply IZR_le in H; apply Rltb_false; nra]. }
  assert (B2 : Rltb r 1 = (n <? d)%Z). { destruct (Z.ltb_spec n d) as [H|H]; [apply IZR_lt in H; apply Rltb_true; nra|apply IZR_le in H; apply Rltb_false; nra]. }
  split; auto. unfold apart01. destruct (Z.lt_trichotomy n 0) as [H|[H|H]].
  - left. assert (H1 : (n <= -1)%Z) by lia. apply IZR_le in H1. nra.
  - subst n. right. left. unfold r. field. lra.
  - right. right. assert (H1 : (1 <= n)%Z) by lia. apply IZR_le in H1. destruct (Z.lt_trichotomy n d) as [K|[K|K]].
    + left. assert (K1 : (n <= d - 1)%Z) by lia. apply IZR_le in K1. rewrite minus_IZR in K1. split; nra.
    + subst n. right. left. unfold r. field. lra.
    + right. right. assert (K1 : (d + 1 <= n)%Z) by lia. apply IZR_le in K1. rewrite plus_IZR in K1. nra.
Qed.
Section Crossing.
Context (u : z3) (Hu : zdot u u = 1%Z).
(** The orientation may be chosen so that the determinant is positive. *)
Definition znew (e1 e2 : z3 * z3) : result (option z3) :=
  let '(a1, b1) := e1 in let '(a2, b2) := e2 in
  let d1 := zsub b1 a1 in let d2 := zsub b2 a2 in let w := zsub a2 a1 in
  let c := zcross d1 d2 in let D := zdot c u in
  if small9 a1 && small9 b1 && small9 a2 && small9 b2 && zeqb c (zscale D u) && (zdot w u =? 0)%Z && (1 <=? zdot d1 d1)%Z && (zdot d1 d1 <=? 400)%Z && (1 <=? zdot d2 d2)%Z && (zdot d2 d2 <=? 400)%Z then
    if (D =? 0)%Z then
      (* parallel: d2 * |d1|^2 = (d1.d2) d1 *) if negb (zdot d1 d2 =? 0)%Z && zeqb (zscale (zdot d1 d1) d2) (zscale (zdot d1 d2) d1) then Ok None else Err OutOfFuel
    else
      let sg := Z.sgn D in
      let n1 := (sg * zdot (zcross w d2) u)%Z in let n2 := (sg * zdot (zcross w d1) u)%Z in let dd := Z.abs D in
      if (dd <=? 200)%Z && zeqb (zscale dd w) (zsub (zscale n1 d1) (zscale n2 d2)) then
        if ((0 <? n1) && (n1 <? dd) && (0 <? n2) && (n2 <? dd))%Z then
          let q := zadd a1 (zx d1 * n1 / dd, zy d1 * n1 / dd, zz d1 * n1 / dd)%Z in
          if zeqb (zscale dd (zsub q a1)) (zscale n1 d1) then Ok (Some q) else Err OutOfFuel
        else Ok None
      else Err OutOfFuel
  else Err OutOfFuel.
Lemma norm_range d : (1 <= zdot d d)%Z -> (zdot d d <= 400)%Z -> 1 <= norm (at3 d) <= 20.
Proof.
  intros A B. apply IZR_le in A, B. unfold norm. rewrite at3_dot. split; [rewrite <- sqrt_1; apply sqrt_le_1_alt; lra|]. replace 20 with (sqrt 400) by (replace 400 with (20 * 20) by lra; apply sqrt_square; lra). apply sqrt_le_1_alt. lra.
Qed.
Lemma add_sub a b : at3 b = vadd (at3 a) (at3 (zsub b a)).
Proof. rewrite <- at3_sub. dvec (at3 a). dvec (at3 b). vunf. f_equal; ring. Qed.
Lemma z_new e1 e2 r : znew e1 e2 = Ok r -> new_crossing (both e1) (both e2) = option_map at3 r.
Proof.
  destruct e1 as (a1, b1), e2 as (a2, b2). unfold znew. set (d1 := zsub b1 a1). set (d2 := zsub b2 a2). set (w := zsub a2 a1). set (D := zdot (zcross d1 d2) u).
  match goal with |- (if ?c then _ else _) = _ -> _ => destruct c eqn:C; [|discriminate] end. rewrite !andb_true_iff, !Z.leb_le in C. destruct C as (((((((((S1 & S2) & S3) & S4) & Fl) & Pl) & A1) & A2) & B1) & B2). apply zeqb_eq in Fl.
  pose proof (norm_range d1 A1 A2) as N1. pose proof (norm_range d2 B1 B2) as N2. unfold both. cbn [fst snd]. destruct (Z.eqb_spec D 0) as [Z|Z].
  - destruct (Z.eqb_spec (zdot d1 d2) 0) as [K|K]; [discriminate|]. cbn [negb andb]. destruct (zeqb _ _) eqn:E; [|discriminate]. apply zeqb_eq in E. intros H. apply Ok_inj in H. subst r. unfold new_crossing, line_segment_intersection. cbn [fst snd]. rewrite !at3_sub. fold d1 d2.
    assert (P : at3 d2 = smul (IZR (zdot d1 d2) / IZR (zdot d1 d1)) (at3 d1)).
    { apply (f_equal at3) in E. rewrite !at3_scale in E. assert (L : 1 <= IZR (zdot d1 d1)) by (apply IZR_le; auto). set (k := IZR (zdot d1 d1)) in *. set (m := IZR (zdot d1 d2)) in *. clearbody k m. clear - E L. dvec (at3 d1). dvec (at3 d2). vunf. injection E as E1 E2 E3. f_equal; apply (Rmult_eq_reg_l k); try lra; rewrite ?E1, ?E2, ?E3; field; lra. }
    rewrite P, exact_parallel; auto. apply IZR_le in A1. intros X. apply K. apply eq_IZR. apply (f_equal (fun x => x * IZR (zdot d1 d1))) in X. rewrite Rmult_0_l in X. rewrite <- X. field. lra.
  - set (n1 := (Z.sgn D * zdot (zcross w d2) u)%Z). set (n2 := (Z.sgn D * zdot (zcross w d1) u)%Z). set (dd := Z.abs D).
    match goal with |- (if ?c then _ else _) = _ -> _ => destruct c eqn:C; [|discriminate] end. rewrite andb_true_iff, Z.leb_le in C. destruct C as (Ld & E). apply zeqb_eq in E. assert (Pd : (0 < dd <= 200)%Z) by (unfold dd in *; lia).
    destruct (frac_apart n1 dd Pd) as (T1 & T2 & T3), (frac_apart n2 dd Pd) as (T4 & T5 & T6). set (t := IZR n1 / IZR dd) in *. set (s := IZR n2 / IZR dd) in *.
    assert (Pr : 0 < IZR dd) by (apply IZR_lt; lia).
    assert (Ew : at3 w = vsub (smul t (at3 d1)) (smul s (at3 d2))).
    { apply (f_equal at3) in E. rewrite <- at3_sub, !at3_scale in E. unfold t, s. set (k := IZR dd) in *. set (x := IZR n1) in *. set (y := IZR n2) in *. clearbody k x y. clear - E Pr. dvec (at3 d1). dvec (at3 d2). dvec (at3 w). vunf. injection E as E1 E2 E3. f_equal; apply (Rmult_eq_reg_l k); try lra; rewrite ?E1, ?E2, ?E3; field; lra. }
    assert (NC : 1 <= norm (cross (at3 d1) (at3 d2))). { rewrite at3_cross. fold D in Fl. rewrite Fl, at3_scale, norm_smul, (unit_norm _ (axis_unit u Hu)), Rmult_1_r, <- abs_IZR. apply IZR_le. fold dd. lia. }
    rewrite (crossing_value (at3 a1) (at3 d1) (at3 b1) (at3 a2) (at3 d2) (at3 b2) t s (vadd (at3 a1) (smul t (at3 d1)))); auto; try (apply add_sub); try (apply small9_norm; auto).
    + rewrite T2, T3, T5, T6. destruct ((0 <? n1) && (n1 <? dd) && (0 <? n2) && (n2 <? dd))%Z.
      * destruct (zeqb _ (zscale n1 d1)) eqn:Q; [|discriminate]. apply zeqb_eq in Q. intros H. apply Ok_inj in H. subst r. cbn [option_map]. f_equal. set (q := zadd a1 _) in *. clearbody q. rewrite (add_sub a1 q). f_equal.
        apply (f_equal at3) in Q. rewrite !at3_scale in Q. unfold t. set (k := IZR dd) in *. set (x := IZR n1) in *. clearbody k x. clear - Q Pr. dvec (at3 d1). dvec (at3 (zsub q a1)). vunf. injection Q as E1 E2 E3. f_equal; apply (Rmult_eq_reg_l k); try lra; rewrite ?E1, ?E2, ?E3; field; lra.
      * intros H. apply Ok_inj in H. subst r. auto.
    + unfold w in Ew. rewrite <- at3_sub in Ew. clear - Ew. dvec (at3 a1). dvec (at3 a2). dvec (at3 d1). dvec (at3 d2). vunf. injection Ew as E1 E2 E3. f_equal; lra.
Qed.
Fixpoint zsomes (f : z3 * z3 -> result (option z3)) (es : list (z3 * z3)) : result (list z3) :=
  match es with
  | [] => Ok []
  | e :: r => do x <- f e; do l <- zsomes f r; Ok (match x with Some q => q :: l | None => l end)
  end.
Fixpoint zweave (f : z3 * z3 -> result (list z3)) (es : list (z3 * z3)) : result (list z3) :=
  match es with
  | [] => Ok []
  | e :: r => do x <- f e; do l <- zweave f r; Ok (fst e :: x ++ l)
  end.
Definition zadded (pts1 pts2 : list z3) : result (list z3 * list z3) :=
  match pts1, pts2 with
  | [], _ | _, [] => Err OutOfFuel
  | _, _ =>
      do o1 <- zweave (fun e1 => zsomes (znew e1) (cyc_pairs pts2)) (cyc_pairs pts1);
      do o2 <- zweave (fun e2 => zsomes (fun e1 => znew e1 e2) (cyc_pairs pts1)) (cyc_pairs pts2);
      Ok (o1, o2)
  end.
Lemma z_somes f g es l : (forall e r, g e = Ok r -> f (both e) = option_map at3 r) -> zsomes g es = Ok l -> somes f (map both es) = map at3 l.
Proof.
  intros H. unfold somes. revert l. induction es as [|e es IH]; intros l; cbn [zsomes map concat]; [intros E; apply Ok_inj in E; subst; auto|]. destruct (g e) as [x|] eqn:G; [|discriminate]. cbn [rbind]. destruct (zsomes g es) as [l'|] eqn:Z; [|discriminate]. cbn [rbind]. intros E. apply Ok_inj in E. subst l. rewrite (IH l' eq_refl), (H _ _ G). destruct x; auto.
Qed.
Lemma z_weave f g es l : (forall e r, g e = Ok r -> f (both e) = map at3 r) -> zweave g es = Ok l -> weave f (map both es) = map at3 l.
Proof.
  intros H. unfold weave. revert l. induction es as [|e es IH]; intros l; cbn [zweave map concat]; [intros E; apply Ok_inj in E; subst; auto|]. destruct (g e) as [x|] eqn:G; [|discriminate]. cbn [rbind]. destruct (zweave g es) as [l'|] eqn:Z; [|discriminate]. cbn [rbind]. intros E. apply Ok_inj in E. subst l. rewrite (IH l' eq_refl), (H _ _ G). cbn [map app]. rewrite map_app. auto.
Qed.
Lemma z_added pts1 pts2 o1 o2 : zadded pts1 pts2 = Ok (o1, o2) -> add_intersection_points (map at3 pts1) (map at3 pts2) = Ok (map at3 o1, map at3 o2).
Proof.
  intros H. assert (N : pts1 <> [] /\ pts2 <> []) by (destruct pts1, pts2; try discriminate; split; discriminate). destruct N as (N1 & N2). assert (E : (do o1 <- zweave (fun e1 => zsomes (znew e1) (cyc_pairs pts2)) (cyc_pairs pts1); do o2 <- zweave (fun e2 => zsomes (fun e1 => znew e1 e2) (cyc_pairs pts1)) (cyc_pairs pts2); Ok (o1, o2)) = Ok (o1, o2)) by (destruct pts1, pts2; try discriminate; exact H). clear H.
  rewrite added_eq by (destruct pts1, pts2; try discriminate; congruence). destruct (zweave _ (cyc_pairs pts1)) as [l1|] eqn:E1; [|discriminate]. cbn [rbind] in E. destruct (zweave _ (cyc_pairs pts2)) as [l2|] eqn:E2; [|discriminate]. cbn [rbind] in E. apply Ok_inj in E. injection E as -> ->. rewrite !cyc_map_both. f_equal. f_equal.
  - apply (z_weave _ _ _ _) with (2 := E1). intros e r G. apply (z_somes _ _ _ _) with (2 := G). intros e' r' G'. apply z_new. auto.
  - apply (z_weave _ _ _ _) with (2 := E2). intros e r G. apply (z_somes _ _ _ _) with (2 := G). intros e' r' G'. apply z_new. auto.
Qed.
(** make_polygon with a given normal. *)
Lemma z_triangulate pts r ts : triangulate (zconvex3 u) (ztri u) false pts = Ok (r, ts) -> triangulate_pts (map at3 pts) (at3 u) = Ok (map at3 r, ts).
Proof.
  unfold triangulate_pts. rewrite (z3_vn_zero u Hu). apply (triangulate_lift at3 (ear_convex (at3 u)) ear_inside (zconvex3 u) (ztri u) pts).
  - intros a b c b0 _ _ _. apply (z3_convex u Hu).
  - intros q a b c b0 _ _ _ _ _ H. apply (z_tri u Hu). auto.
Qed.
Definition zmake_vn (pts : list z3) : result (list z3 * list tri) :=
  if (3 <=? length pts)%nat && zplane u pts then triangulate (zconvex3 u) (ztri u) false pts else Err OutOfFuel.
Lemma z_make_vn pts r ts : zmake_vn pts = Ok (r, ts) -> exists p, make_polygon (map at3 pts) None (Some (at3 u)) = Ok p /\ p_pts p = map at3 r /\ p_tri p = ts /\ p_vn p = at3 u /\ p_area p = polygon_area (map at3 r) (at3 u).
Proof.
  unfold zmake_vn. destruct (3 <=? length pts)%nat eqn:L; [|discriminate]. cbn [andb]. destruct (zplane u pts) eqn:P; [|discriminate]. intros T. apply z_triangulate in T. apply Nat.leb_le in L. rewrite <- (map_length at3) in L.
  unfold make_polygon, check_polygon, build_polygon. rewrite (coplanar_accepted (map at3 pts) GEOM_ATOL); [|unfold GEOM_ATOL; lra|apply (z_coplanar u Hu); auto]. cbn [rbind negb]. rewrite (proj2 (Nat.ltb_ge _ _) L). cbn [rbind]. rewrite T. cbn [rbind].
  assert (Ln : length (map at3 r) = length (map at3 pts)) by (destruct (tri_structure _ _ _ _ L T) as ([-> | ->] & _); rewrite ?rev_length; auto).
  destruct (centroid_total (map at3 r) ts) as (c & Ec); [apply (tri_nonempty _ _ _ _ T L)|apply (tri_in_range _ _ _ _ T L)|]. rewrite Ec. cbn [rbind].
  destruct (plane_total (map at3 r)) as (pc & Ep); [lia|]. rewrite Ep. cbn [rbind]. eexists. split; [reflexivity|]. auto.
Qed.
End Crossing.
(** Twice the vector area. *)
Definition zarea2 (pts : list z3) : z3 := fold_right zadd (0, 0, 0)%Z (map (fun e => zcross (fst e) (snd e)) (cyc_pairs pts)).
Lemma z_area2 pts : vector_area2 (map at3 pts) = at3 (zarea2 pts).
Proof.
  unfold vector_area2, zarea2. rewrite cyc_map_both, map_map. induction (cyc_pairs pts) as [|e l IH]; cbn [map fold_right]; [reflexivity|]. rewrite IH. unfold both. cbn [fst snd]. rewrite at3_cross, at3_add. auto.
Qed.
Definition up : z3 := (0, 0, 1)%Z.
Definition sq6 : list z3 := [(0, 0, 0); (6, 0, 0); (6, 6, 0); (0, 6, 0)]%Z.
