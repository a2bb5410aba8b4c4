(** Rays, segments and the signed number of triangles. *)
From Coq Require Import Reals List ZArith Bool Arith Lia Lra Psatz Permutation.
From Verif Require Import Prelude VecModel VecProofs GeomModel GeomSpec GeomProofs1 PolySpec RoomSpec WindSpec ShellSpec ShellProofs1 ShellProofs2.
Import ListNotations.
Local Open Scope R_scope.

Definition tn (a b c : vec) : vec := cross (vsub b a) (vsub c a).
(** Affine functions. *)
Definition f_det (k : R) (a b c : vec) : vec * R := (smul (- k) (tn a b c), k * dot (tn a b c) a).
Definition f_edge (k : R) (r a b : vec) : vec * R := (smul k (cross r (vsub b a)), k * dot r (cross a b)).
Definition f_side (m a : vec) : vec * R := (smul (-1) m, dot m a).
Lemma f_det_aff k a b c q : aff (f_det k a b c) q = k * trip (vsub a q) (vsub b q) (vsub c q).
Proof. unfold aff, f_det, trip, tn. cbn [fst snd]. vunf. ring. Qed.
Lemma f_edge_aff k r a b q : aff (f_edge k r a b) q = k * trip r (vsub a q) (vsub b q).
Proof. unfold aff, f_edge, trip. cbn [fst snd]. vunf. ring. Qed.
Lemma f_side_aff m a q : aff (f_side m a) q = dot m (vsub a q).
Proof. unfold aff, f_side. cbn [fst snd]. vunf. ring. Qed.
Definition f_dir (k : R) (x y : vec) : vec * R := (smul k (cross x y), 0).
Lemma f_dir_aff k x y r : aff (f_dir k x y) r = k * trip r x y.
Proof. unfold aff, f_dir, trip. cbn [fst snd]. vunf. ring. Qed.
Definition f_back (m : vec) : vec * R := (smul (-1) m, 0).
Lemma f_back_aff m r : aff (f_back m) r = - dot m r.
Proof. unfold aff, f_back. cbn [fst snd]. vunf. ring. Qed.

(** Nearby points off all planes, nearby directions off all planes. *)
Lemma near_pt T P N q : proper_mesh T -> pos P q -> (forall f, In f N -> fst f <> vzero) -> exists q', pos P q' /\ nonz N q' /\ gen_pt T q'.
Proof.
  intros Pr H Z. destruct (generic_point P (N ++ map (fun t => let '(a, b, c) := t in f_det 1 a b c) T) q H) as (q' & A & B).
  - intros f I. apply in_app_or in I. destruct I as [I|I]; auto. apply in_map_iff in I. destruct I as (((a, b), c) & <- & I). cbn [f_det fst]. intros E. apply (Pr a b c I). fold (tn a b c).
    replace (tn a b c) with (smul (-1) (smul (- (1)) (tn a b c))) by (destruct (tn a b c); vunf; f_equal; ring). rewrite E. vunf. f_equal; ring.
  - apply nonz_app in B. destruct B as (B1 & B2). exists q'. split; auto. split; auto. intros a b c I. assert (X := B2 (f_det 1 a b c)). rewrite f_det_aff, Rmult_1_l in X. apply X. apply in_map_iff. exists (a, b, c). auto.
Qed.
Lemma near_dir T P q r : gen_pt T q -> pos P r -> exists r', pos P r' /\ gen_dir T q r'.
Proof.
  intros G H. destruct (generic_point P (map (fun e => f_dir 1 (vsub (fst e) q) (vsub (snd e) q)) (mesh_edges T)) r H) as (r' & A & B).
  - intros f I. apply in_map_iff in I. destruct I as ((a, b) & <- & I). cbn [f_dir fst snd]. destruct (mesh_edges_inv a b T I) as (c & Ht).
    assert (X : cross (vsub a q) (vsub b q) <> vzero). { destruct Ht as [J|[J|J]]; pose proof (trip_cross _ _ _ (G _ _ _ J)) as (X1 & X2 & X3); auto. }
    intros E. apply X. replace (cross (vsub a q) (vsub b q)) with (smul 1 (cross (vsub a q) (vsub b q))) by (vunf; f_equal; ring). auto.
  - exists r'. split; auto. intros a b I. assert (X := B (f_dir 1 (vsub a q) (vsub b q))). rewrite f_dir_aff, Rmult_1_l in X. apply X. apply in_map_iff. exists (a, b). auto.
Qed.

(** Values of chi. *)
Lemma sg_true x : sg x = true <-> 0 < x. Proof. apply Rltb_true. Qed.
Lemma sg_false x : sg x = false <-> x <= 0. Proof. apply Rltb_false. Qed.
Lemma sgb_is s a b c d : (s = 1 \/ s = -1)%Z -> 0 < IZR s * a -> 0 < IZR s * b -> 0 < IZR s * c -> 0 < IZR s * d -> sg4 a b c d = s.
Proof.
  intros [-> | ->] A B C D; unfold sg4.
  - rewrite (proj2 (sg_true a)), (proj2 (sg_true b)), (proj2 (sg_true c)), (proj2 (sg_true d)) by lra. reflexivity.
  - rewrite (proj2 (sg_false a)), (proj2 (sg_false b)), (proj2 (sg_false c)), (proj2 (sg_false d)) by lra. reflexivity.
Qed.
Lemma sgb_inv a b c d : a <> 0 -> b <> 0 -> c <> 0 -> d <> 0 -> sg4 a b c d = 0%Z \/ exists s, (s = 1 \/ s = -1)%Z /\ sg4 a b c d = s /\ 0 < IZR s * a /\ 0 < IZR s * b /\ 0 < IZR s * c /\ 0 < IZR s * d.
Proof.
  intros A B C D. unfold sg4. destruct (sg a) eqn:Ea, (sg b) eqn:Eb, (sg c) eqn:Ec, (sg d) eqn:Ed; try (left; reflexivity); right.
  - exists 1%Z. rewrite sg_true in *. repeat split; auto; lra.
  - exists (-1)%Z. rewrite sg_false in *. repeat split; auto; lra.
Qed.
Lemma trip_frame m r x y z : trip x y z * dot m r = trip r y z * dot m x + trip r z x * dot m y + trip r x y * dot m z.
Proof. unfold trip. dvec m; dvec r; dvec x; dvec y; dvec z. vunf. ring. Qed.
Lemma chi_none m r x y z : trip r x y <> 0 -> trip r y z <> 0 -> trip r z x <> 0 -> trip x y z <> 0 -> 0 < dot m x -> 0 < dot m y -> 0 < dot m z -> dot m r < 0 -> chi r x y z = 0%Z.
Proof.
  intros A B C D X Y Z Rn. unfold chi. destruct (sgb_inv _ _ _ _ A B C D) as [E|(s & S & E & P1 & P2 & P3 & P4)]; auto. exfalso.
  pose proof (trip_frame m r x y z) as F. apply (f_equal (Rmult (IZR s))) in F.
  assert (L : IZR s * (trip x y z * dot m r) < 0) by (replace (IZR s * (trip x y z * dot m r)) with ((IZR s * trip x y z) * dot m r) by ring; nra).
  assert (Q : 0 < IZR s * (trip r y z * dot m x + trip r z x * dot m y + trip r x y * dot m z)).
  { replace (IZR s * (trip r y z * dot m x + trip r z x * dot m y + trip r x y * dot m z)) with ((IZR s * trip r y z) * dot m x + (IZR s * trip r z x) * dot m y + (IZR s * trip r x y) * dot m z) by ring.
    pose proof (Rmult_lt_0_compat _ _ P2 X). pose proof (Rmult_lt_0_compat _ _ P3 Y). pose proof (Rmult_lt_0_compat _ _ P1 Z). lra. }
  lra.
Qed.
(** A triangle beside a segment is met from both ends or from neither. *)
Lemma chi_beside m w q a b c : let q' := vadd q w in
  trip w (vsub a q) (vsub b q) <> 0 -> trip w (vsub b q) (vsub c q) <> 0 -> trip w (vsub c q) (vsub a q) <> 0 -> trip (vsub a q) (vsub b q) (vsub c q) <> 0 -> trip (vsub a q') (vsub b q') (vsub c q') <> 0 ->
  0 < dot m (vsub a q) -> 0 < dot m (vsub b q) -> 0 < dot m (vsub c q) -> 0 < dot m (vsub a q') -> 0 < dot m (vsub b q') -> 0 < dot m (vsub c q') ->
  chi w (vsub a q) (vsub b q) (vsub c q) = chi w (vsub a q') (vsub b q') (vsub c q').
Proof.
  intros q' A B C D D' M1 M2 M3 N1 N2 N3. unfold chi.
  assert (E1 : forall x y, trip w (vsub x q') (vsub y q') = trip w (vsub x q) (vsub y q)) by (intros x y; unfold q', trip; vunf; ring).
  rewrite !E1. pose proof (trip_frame m w (vsub a q) (vsub b q) (vsub c q)) as F. pose proof (trip_frame m w (vsub a q') (vsub b q') (vsub c q')) as F'. rewrite !E1 in F'.
  set (d := trip (vsub a q) (vsub b q) (vsub c q)) in *. set (d' := trip (vsub a q') (vsub b q') (vsub c q')) in *.
  set (e1 := trip w (vsub a q) (vsub b q)) in *. set (e2 := trip w (vsub b q) (vsub c q)) in *. set (e3 := trip w (vsub c q) (vsub a q)) in *.
  clearbody d d' e1 e2 e3. clear E1. set (g := dot m w) in *.
  assert (K : forall s x y : R, 0 < s * e1 -> 0 < s * e2 -> 0 < s * e3 -> (0 < d <-> 0 < d')).
  { intros s _ _ P1 P2 P3.
    assert (H1 : 0 < s * (d * g)). { rewrite F. replace (s * (e2 * dot m (vsub a q) + e3 * dot m (vsub b q) + e1 * dot m (vsub c q))) with ((s * e2) * dot m (vsub a q) + (s * e3) * dot m (vsub b q) + (s * e1) * dot m (vsub c q)) by ring.
      pose proof (Rmult_lt_0_compat _ _ P2 M1). pose proof (Rmult_lt_0_compat _ _ P3 M2). pose proof (Rmult_lt_0_compat _ _ P1 M3). lra. }
    assert (H2 : 0 < s * (d' * g)). { rewrite F'. replace (s * (e2 * dot m (vsub a q') + e3 * dot m (vsub b q') + e1 * dot m (vsub c q'))) with ((s * e2) * dot m (vsub a q') + (s * e3) * dot m (vsub b q') + (s * e1) * dot m (vsub c q')) by ring.
      pose proof (Rmult_lt_0_compat _ _ P2 N1). pose proof (Rmult_lt_0_compat _ _ P3 N2). pose proof (Rmult_lt_0_compat _ _ P1 N3). lra. }
    replace (s * (d * g)) with (d * (s * g)) in H1 by ring. replace (s * (d' * g)) with (d' * (s * g)) in H2 by ring. clear -H1 H2. split; intros L; destruct (Rlt_dec 0 (s * g)); nra. }
  unfold sg4. destruct (sg e1) eqn:S1, (sg e2) eqn:S2, (sg e3) eqn:S3; try (unfold sgb; cbn; destruct (sg d), (sg d'); reflexivity).
  - rewrite sg_true in *. assert (X := K 1 0 0). destruct (sg d) eqn:U, (sg d') eqn:U'; auto; rewrite ?sg_true, ?sg_false in *; exfalso; assert (0 < d <-> 0 < d') by (apply X; lra); lra.
  - rewrite sg_false in *. assert (X := K (-1) 0 0). destruct (sg d) eqn:U, (sg d') eqn:U'; auto; rewrite ?sg_true, ?sg_false in *; exfalso; assert (0 < d <-> 0 < d') by (apply X; lra); lra.
Qed.

(** What piercing means for the signs. *)
Lemma sense_pm r t : (sense r t = 1 \/ sense r t = -1)%Z.
Proof. destruct t as ((a, b), c). unfold sense. destruct (Rlt_dec _ _); auto. Qed.
Lemma sense_pos r a b c : dot (tn a b c) r <> 0 -> 0 < IZR (sense r (a, b, c)) * dot (tn a b c) r.
Proof. unfold sense. fold (tn a b c). destruct (Rlt_dec 0 (dot (tn a b c) r)); intros; lra. Qed.
Lemma pierce_signs q r a b c s : dot (tn a b c) r <> 0 -> 0 < s -> strictly_inside a b c (vadd q (smul s r)) ->
  let k := IZR (sense r (a, b, c)) in 0 < k * trip (vsub a q) (vsub b q) (vsub c q) /\ 0 < k * trip r (vsub a q) (vsub b q) /\ 0 < k * trip r (vsub b q) (vsub c q) /\ 0 < k * trip r (vsub c q) (vsub a q) /\
    trip (vsub a q) (vsub b q) (vsub c q) = s * dot (tn a b c) r.
Proof.
  intros N Sp (x & y & z & X & Y & Z & Su & E) k.
  assert (Er : smul s r = vadd (vadd (smul x (vsub a q)) (smul y (vsub b q))) (smul z (vsub c q))).
  { assert (Ez : z = 1 - x - y) by lra. subst z. revert E. unfold bary. dvec a; dvec b; dvec c; dvec q; dvec r. vunf. intros E. injection E as E1 E2 E3. f_equal; lra. }
  assert (Pk := sense_pos r a b c N). fold k in Pk. clearbody k. set (D := trip (vsub a q) (vsub b q) (vsub c q)).
  assert (A1 : s * trip r (vsub a q) (vsub b q) = z * D). { replace (s * trip r (vsub a q) (vsub b q)) with (trip (smul s r) (vsub a q) (vsub b q)) by (unfold trip; vunf; ring). rewrite Er. unfold D, trip. vunf. ring. }
  assert (A2 : s * trip r (vsub b q) (vsub c q) = x * D). { replace (s * trip r (vsub b q) (vsub c q)) with (trip (smul s r) (vsub b q) (vsub c q)) by (unfold trip; vunf; ring). rewrite Er. unfold D, trip. vunf. ring. }
  assert (A3 : s * trip r (vsub c q) (vsub a q) = y * D). { replace (s * trip r (vsub c q) (vsub a q)) with (trip (smul s r) (vsub c q) (vsub a q)) by (unfold trip; vunf; ring). rewrite Er. unfold D, trip. vunf. ring. }
  assert (A0 : dot (tn a b c) r = trip r (vsub a q) (vsub b q) + trip r (vsub b q) (vsub c q) + trip r (vsub c q) (vsub a q)) by (unfold trip, tn; vunf; ring).
  assert (A4 : D = s * dot (tn a b c) r) by (rewrite A0; replace (s * (trip r (vsub a q) (vsub b q) + trip r (vsub b q) (vsub c q) + trip r (vsub c q) (vsub a q))) with (z * D + x * D + y * D) by lra; replace (z * D + x * D + y * D) with ((x + y + z) * D) by ring; rewrite Su; ring).
  assert (Pd : 0 < k * D) by (rewrite A4; replace (k * (s * dot (tn a b c) r)) with (s * (k * dot (tn a b c) r)) by ring; apply Rmult_lt_0_compat; auto).
  split; auto. assert (G : forall e w, s * e = w * D -> 0 < w -> 0 < k * e). { intros e w Ee W. apply (Rmult_lt_reg_l s); auto. rewrite Rmult_0_r. replace (s * (k * e)) with (w * (k * D)) by (replace (s * (k * e)) with (k * (s * e)) by ring; rewrite Ee; ring). apply Rmult_lt_0_compat; auto. }
  split; [apply (G _ z); auto|]. split; [apply (G _ x); auto|]. split; [apply (G _ y); auto|]. exact A4.
Qed.

(** Separating planes. *)
Lemma smul_part a b c q x y z s : 0 < s -> 0 <= x -> 0 <= y -> 0 <= z -> s = x + y + z ->
  vadd (smul x (vsub a q)) (vadd (smul y (vsub b q)) (smul z (vsub c q))) = smul s (vsub (bary a b c (x / s) (y / s) (z / s)) q).
Proof. intros S X Y Z E. unfold bary. vunf. f_equal; field_simplify_eq; try lra; rewrite E; ring. Qed.
Lemma miss_side q r a b c : r <> vzero -> misses q r (a, b, c) -> exists m, 0 < dot m (vsub a q) /\ 0 < dot m (vsub b q) /\ 0 < dot m (vsub c q) /\ dot m r < 0.
Proof.
  intros Nr M. destruct (gordan [vsub a q; vsub b q; vsub c q; smul (-1) r]) as [(m & H)|C].
  - exists m. split; [apply H; simpl; auto|]. split; [apply H; simpl; auto|]. split; [apply H; simpl; auto|]. assert (X : 0 < dot m (smul (-1) r)) by (apply H; simpl; auto 6). replace (dot m (smul (-1) r)) with (- dot m r) in X by (vunf; ring). lra.
  - exfalso. destruct (comb_weights _ _ C) as (ws & L & P & S & E). destruct ws as [|x [|y [|z [|k [|? ?]]]]]; try discriminate L.
    assert (X := P x ltac:(simpl; auto)). assert (Y := P y ltac:(simpl; auto)). assert (Z := P z ltac:(simpl; auto)). assert (K := P k ltac:(simpl; auto 6)). unfold Rsum in S. cbn [fold_right] in S. cbn [wsum] in E.
    set (s := x + y + z). destruct (Rle_lt_dec s 0) as [Ls|Ls].
    + assert (x = 0 /\ y = 0 /\ z = 0) as (-> & -> & ->) by (unfold s in Ls; lra). assert (Kp : 0 < k) by lra. apply Nr. replace r with (smul (- / k) (vadd (smul 0 (vsub a q)) (vadd (smul 0 (vsub b q)) (vadd (smul 0 (vsub c q)) (vadd (smul k (smul (-1) r)) vzero))))) by (destruct r; vunf; f_equal; field; lra).
      rewrite <- E. vunf. f_equal; ring.
    + apply (M (k / s)); [apply Rmult_le_pos; [auto|left; apply Rinv_0_lt_compat; auto]|]. exists (x / s), (y / s), (z / s).
      assert (Is : 0 < / s) by (apply Rinv_0_lt_compat; auto). split; [apply Rmult_le_pos; lra|]. split; [apply Rmult_le_pos; lra|]. split; [apply Rmult_le_pos; lra|]. split; [unfold s; field; fold s; lra|].
      pose proof (smul_part a b c q x y z s Ls X Y Z eq_refl) as Q. set (B := bary a b c (x / s) (y / s) (z / s)) in *.
      assert (Q2 : smul k r = smul s (vsub B q)). { rewrite <- Q. revert E. dvec a; dvec b; dvec c; dvec q; dvec r. vunf. intros E. injection E as E1 E2 E3. f_equal; lra. }
      replace (smul (k / s) r) with (smul (/ s) (smul k r)) by (vunf; f_equal; field; lra). rewrite Q2. clearbody B. destruct B as (bx, by_, bz). destruct q. vunf. f_equal; field; lra.
Qed.
Lemma avoid_side q q' a b c : avoids q q' (a, b, c) -> exists m, 0 < dot m (vsub a q) /\ 0 < dot m (vsub b q) /\ 0 < dot m (vsub c q) /\ 0 < dot m (vsub a q') /\ 0 < dot m (vsub b q') /\ 0 < dot m (vsub c q').
Proof.
  intros M. destruct (gordan [vsub a q; vsub b q; vsub c q; vsub a q'; vsub b q'; vsub c q']) as [(m & H)|C].
  - exists m. repeat split; apply H; simpl; auto 8.
  - exfalso. destruct (comb_weights _ _ C) as (ws & L & P & S & E). destruct ws as [|x [|y [|z [|x' [|y' [|z' [|? ?]]]]]]]; try discriminate L.
    assert (X := P x ltac:(simpl; auto 9)). assert (Y := P y ltac:(simpl; auto 9)). assert (Z := P z ltac:(simpl; auto 9)). assert (X' := P x' ltac:(simpl; auto 9)). assert (Y' := P y' ltac:(simpl; auto 9)). assert (Z' := P z' ltac:(simpl; auto 9)).
    unfold Rsum in S. cbn [fold_right] in S. cbn [wsum] in E. set (s := x + y + z + x' + y' + z') in *. assert (Ls : 0 < s) by (unfold s; lra). assert (Is : 0 < / s) by (apply Rinv_0_lt_compat; auto).
    apply (M (bary a b c ((x + x') / s) ((y + y') / s) ((z + z') / s))).
    + exists ((x' + y' + z') / s). split; [split; [apply Rmult_le_pos; lra|apply (Rmult_le_reg_r s); auto; unfold Rdiv; rewrite Rmult_assoc, Rinv_l by lra; unfold s; lra]|].
      assert (G : smul s (bary a b c ((x + x') / s) ((y + y') / s) ((z + z') / s)) = smul s (seg_point q q' ((x' + y' + z') / s))).
      { transitivity (bary a b c (x + x') (y + y') (z + z')); [unfold bary; vunf; f_equal; field; lra|]. transitivity (vadd (smul (x + y + z) q) (smul (x' + y' + z') q')).
        - revert E. unfold bary. dvec a; dvec b; dvec c; dvec q; dvec q'. vunf. intros E. injection E as E1 E2 E3. f_equal; lra.
        - unfold seg_point. vunf. f_equal; field_simplify_eq; try lra; unfold s; ring. }
      apply (f_equal (smul (/ s))) in G. assert (I : forall v, smul (/ s) (smul s v) = v) by (intros v; destruct v; vunf; f_equal; field; lra). rewrite !I in G. exact G.
    + exists ((x + x') / s), ((y + y') / s), ((z + z') / s). split; [apply Rmult_le_pos; lra|]. split; [apply Rmult_le_pos; lra|]. split; [apply Rmult_le_pos; lra|]. split; auto. unfold s. field. fold s. lra.
Qed.
