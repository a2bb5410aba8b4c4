(** Areas, volumes, normals, angles. *)
From Coq Require Import Reals List Bool Arith Lia Lra Psatz.
From Verif Require Import Prelude VecModel VecProofs GeomModel GeomSpec.
Import ListNotations.
Local Open Scope R_scope.

(** [dv a b c] names the coordinates of vectors. *)
Ltac dvec v := destruct v as (?x, ?y, ?z).
Ltac vunf := unfold vopp, dot, cross, vsub, vadd, smul, vdiv, vzero in *; cbn [vx vy vz] in *.

Lemma sqrt_sum_bounds a e : 0 <= a -> 0 <= e -> a <= sqrt (a * a + e) <= a + sqrt e.
Proof.
  intros A E. split.
  - rewrite <- (sqrt_Rsqr a) at 1 by auto. apply sqrt_le_1_alt. unfold Rsqr. lra.
  - pose proof (sqrt_pos e) as S. pose proof (sqrt_sqrt e E) as Q.
    rewrite <- (sqrt_Rsqr (a + sqrt e)) by lra. apply sqrt_le_1_alt. unfold Rsqr. nra.
Qed.
Lemma sqrt_eps : sqrt EPSILON = 1 / 1000000.
Proof. replace EPSILON with (Rsqr (1 / 1000000)) by (unfold EPSILON, Rsqr; lra). apply sqrt_Rsqr. lra. Qed.

(** Heron's formula. *)
Lemma triangle_area_eq p1 p2 p3 : triangle_area p1 p2 p3 = sqrt (true_area p1 p2 p3 * true_area p1 p2 p3 + EPSILON).
Proof.
  unfold triangle_area, true_area. f_equal. f_equal.
  set (c := cross (vsub p2 p1) (vsub p3 p1)).
  replace (norm c / 2 * (norm c / 2)) with (norm c * norm c / 4) by field. rewrite norm_sq.
  set (a := norm (vsub p2 p1)). set (b := norm (vsub p3 p2)). set (d := norm (vsub p3 p1)).
  transitivity ((2 * (a*a) * (b*b) + 2 * (b*b) * (d*d) + 2 * (d*d) * (a*a) - (a*a)*(a*a) - (b*b)*(b*b) - (d*d)*(d*d)) / 16); [field|].
  unfold a, b, d. rewrite !norm_sq. unfold c. dvec p1; dvec p2; dvec p3. vunf. field.
Qed.
Lemma true_area_pos p1 p2 p3 : 0 <= true_area p1 p2 p3.
Proof. unfold true_area. pose proof (norm_pos (cross (vsub p2 p1) (vsub p3 p1))). lra. Qed.
Lemma triangle_area_bounds p1 p2 p3 : true_area p1 p2 p3 <= triangle_area p1 p2 p3 <= true_area p1 p2 p3 + 1 / 1000000.
Proof. rewrite triangle_area_eq, <- sqrt_eps. apply sqrt_sum_bounds; [apply true_area_pos|unfold EPSILON; lra]. Qed.
Lemma triangle_area_degenerate p1 p2 p3 : true_area p1 p2 p3 = 0 -> triangle_area p1 p2 p3 = 1 / 1000000.
Proof. intros H. rewrite triangle_area_eq, H, <- sqrt_eps. f_equal. ring. Qed.
Lemma triangle_area_sq p1 p2 p3 : triangle_area p1 p2 p3 * triangle_area p1 p2 p3 = true_area p1 p2 p3 * true_area p1 p2 p3 + EPSILON.
Proof. rewrite triangle_area_eq. apply sqrt_sqrt. pose proof (true_area_pos p1 p2 p3). unfold EPSILON. nra. Qed.
Lemma norm_dot_eq a b : dot a a = dot b b -> norm a = norm b.
Proof. unfold norm. intros ->. auto. Qed.
Lemma true_area_perm p1 p2 p3 : true_area p1 p2 p3 = true_area p2 p1 p3 /\ true_area p1 p2 p3 = true_area p1 p3 p2.
Proof.
  unfold true_area. split; f_equal; apply norm_dot_eq; dvec p1; dvec p2; dvec p3; vunf; ring.
Qed.
Lemma true_area_shift p1 p2 p3 t : true_area (vadd p1 t) (vadd p2 t) (vadd p3 t) = true_area p1 p2 p3.
Proof. unfold true_area. f_equal. apply norm_dot_eq. dvec p1; dvec p2; dvec p3; dvec t; vunf; ring. Qed.
Lemma triangle_area_perm p1 p2 p3 : triangle_area p1 p2 p3 = triangle_area p2 p1 p3 /\ triangle_area p1 p2 p3 = triangle_area p1 p3 p2.
Proof. rewrite !triangle_area_eq. destruct (true_area_perm p1 p2 p3) as (<- & <-). auto. Qed.
Lemma triangle_area_shift p1 p2 p3 t : triangle_area (vadd p1 t) (vadd p2 t) (vadd p3 t) = triangle_area p1 p2 p3.
Proof. rewrite !triangle_area_eq, true_area_shift. auto. Qed.

(** Cayley-Menger. *)
Lemma pow2_norm a : norm a ^ 2 = dot a a.
Proof. simpl. rewrite Rmult_1_r. apply norm_sq. Qed.
Lemma volume_eq p0 p1 p2 p3 : tetrahedron_volume p0 p1 p2 p3 = sqrt (det3 p0 p1 p2 p3 * det3 p0 p1 p2 p3 * 4 + EPSILON) / 12.
Proof.
  unfold tetrahedron_volume, det3. f_equal. f_equal. rewrite !pow2_norm. f_equal.
  dvec p0; dvec p1; dvec p2; dvec p3. vunf. ring.
Qed.
Lemma volume_bounds p0 p1 p2 p3 : Rabs (det3 p0 p1 p2 p3) / 6 <= tetrahedron_volume p0 p1 p2 p3 <= Rabs (det3 p0 p1 p2 p3) / 6 + 1 / 12000000.
Proof.
  rewrite volume_eq. set (d := det3 p0 p1 p2 p3).
  replace (d * d * 4) with ((2 * Rabs d) * (2 * Rabs d)).
  2:{ rewrite <- (Rabs_pos_eq 2) by lra. rewrite <- Rabs_mult. replace (Rabs (2 * d) * Rabs (2 * d)) with (Rsqr (Rabs (2 * d))) by reflexivity. rewrite <- Rsqr_abs. unfold Rsqr. ring. }
  pose proof (Rabs_pos d). pose proof (sqrt_sum_bounds (2 * Rabs d) EPSILON ltac:(lra) ltac:(unfold EPSILON; lra)) as (A & B).
  rewrite sqrt_eps in B. split; lra.
Qed.
Lemma det3_perm p0 p1 p2 p3 : det3 p1 p0 p2 p3 = - det3 p0 p1 p2 p3 /\ det3 p0 p2 p1 p3 = - det3 p0 p1 p2 p3 /\ det3 p0 p1 p3 p2 = - det3 p0 p1 p2 p3.
Proof. unfold det3. dvec p0; dvec p1; dvec p2; dvec p3. vunf. split; [|split]; ring. Qed.
Lemma volume_perm p0 p1 p2 p3 : let v := tetrahedron_volume p0 p1 p2 p3 in
  tetrahedron_volume p1 p0 p2 p3 = v /\ tetrahedron_volume p0 p2 p1 p3 = v /\ tetrahedron_volume p0 p1 p3 p2 = v.
Proof.
  cbv zeta. rewrite !volume_eq. destruct (det3_perm p0 p1 p2 p3) as (-> & -> & ->).
  replace (- det3 p0 p1 p2 p3 * - det3 p0 p1 p2 p3) with (det3 p0 p1 p2 p3 * det3 p0 p1 p2 p3) by ring. auto.
Qed.
Lemma volume_shift p0 p1 p2 p3 t : tetrahedron_volume (vadd p0 t) (vadd p1 t) (vadd p2 t) (vadd p3 t) = tetrahedron_volume p0 p1 p2 p3.
Proof. rewrite !volume_eq. f_equal. f_equal. unfold det3. dvec p0; dvec p1; dvec p2; dvec p3; dvec t. vunf. ring. Qed.

(** Normals. *)
Lemma isclose_zero x rt at_ : 0 <= x -> isclose x 0 rt at_ = Rleb x at_.
Proof. intros H. unfold isclose. rewrite Rminus_0_r, Rabs_R0, Rmult_0_r, Rplus_0_r, Rabs_pos_eq; auto. Qed.
Lemma normal_some p0 p1 p2 n : normal p0 p1 p2 = Some n <->
  1 / 100000000 < norm (cross (vsub p1 p0) (vsub p2 p0)) /\ n = vdiv (cross (vsub p1 p0) (vsub p2 p0)) (norm (cross (vsub p1 p0) (vsub p2 p0))).
Proof.
  unfold normal. set (c := cross _ _). rewrite isclose_zero by apply norm_pos. unfold ATOL8. destruct (Rleb (norm c) (1 / 100000000)) eqn:E; rbool.
  - split; [discriminate|intros (H & _); lra].
  - split; [intros H; inversion H; auto|intros (_ & ->); auto].
Qed.
Lemma normal_none p0 p1 p2 : normal p0 p1 p2 = None <-> norm (cross (vsub p1 p0) (vsub p2 p0)) <= 1 / 100000000.
Proof.
  unfold normal. set (c := cross _ _). rewrite isclose_zero by apply norm_pos. unfold ATOL8. destruct (Rleb (norm c) (1 / 100000000)) eqn:E; rbool; split; intros; auto; try discriminate; lra.
Qed.
Lemma vdiv_smul v k : vdiv v k = smul (/ k) v.
Proof. dvec v. unfold vdiv, smul. cbn [vx vy vz]. f_equal; unfold Rdiv; ring. Qed.
Lemma dot_smul_l k a b : dot (smul k a) b = k * dot a b.
Proof. unfold dot, smul. cbn [vx vy vz]. ring. Qed.
Lemma dot_smul_r k a b : dot a (smul k b) = k * dot a b.
Proof. unfold dot, smul. cbn [vx vy vz]. ring. Qed.
Lemma cross_perp a b : dot (cross a b) a = 0 /\ dot (cross a b) b = 0.
Proof. dvec a; dvec b. vunf. split; ring. Qed.
Lemma unit_vdiv v : norm v <> 0 -> unit (vdiv v (norm v)).
Proof.
  intros H. unfold unit. rewrite vdiv_smul, dot_smul_l, dot_smul_r, <- norm_sq. field. auto.
Qed.
Lemma normal_spec p0 p1 p2 n : normal p0 p1 p2 = Some n ->
  unit n /\ perp n (vsub p1 p0) /\ perp n (vsub p2 p0) /\ perp n (vsub p2 p1) /\ 0 < dot n (cross (vsub p1 p0) (vsub p2 p0)).
Proof.
  intros H. apply normal_some in H. destruct H as (L & ->). set (c := cross (vsub p1 p0) (vsub p2 p0)) in *.
  pose proof (cross_perp (vsub p1 p0) (vsub p2 p0)) as (A & B). fold c in A, B.
  split; [apply unit_vdiv; lra|]. unfold perp. rewrite vdiv_smul, !dot_smul_l, A, B. split; [ring|]. split; [ring|]. split.
  - replace (vsub p2 p1) with (vsub (vsub p2 p0) (vsub p1 p0)) by (dvec p0; dvec p1; dvec p2; vunf; f_equal; ring).
    replace (dot c (vsub (vsub p2 p0) (vsub p1 p0))) with (dot c (vsub p2 p0) - dot c (vsub p1 p0)) by (unfold dot, vsub; cbn [vx vy vz]; ring). rewrite A, B. ring.
  - rewrite <- norm_sq. replace (/ norm c * (norm c * norm c)) with (norm c) by (field; lra). lra.
Qed.
Lemma normal_shift p0 p1 p2 t : normal (vadd p0 t) (vadd p1 t) (vadd p2 t) = normal p0 p1 p2.
Proof.
  unfold normal. replace (vsub (vadd p1 t) (vadd p0 t)) with (vsub p1 p0) by (dvec p0; dvec p1; dvec t; vunf; f_equal; ring).
  replace (vsub (vadd p2 t) (vadd p0 t)) with (vsub p2 p0) by (dvec p0; dvec p2; dvec t; vunf; f_equal; ring). auto.
Qed.
Lemma normal_cycle p0 p1 p2 : normal p1 p2 p0 = normal p0 p1 p2.
Proof.
  unfold normal. replace (cross (vsub p2 p1) (vsub p0 p1)) with (cross (vsub p1 p0) (vsub p2 p0)); auto.
  dvec p0; dvec p1; dvec p2; vunf; f_equal; ring.
Qed.
Lemma norm_vopp v : norm (vopp v) = norm v.
Proof. unfold vopp. rewrite norm_smul. rewrite Rabs_left by lra. ring. Qed.
Lemma normal_swap p0 p1 p2 : normal p0 p2 p1 = option_map vopp (normal p0 p1 p2).
Proof.
  unfold normal. replace (cross (vsub p2 p0) (vsub p1 p0)) with (vopp (cross (vsub p1 p0) (vsub p2 p0))) by (dvec p0; dvec p1; dvec p2; vunf; f_equal; ring).
  rewrite norm_vopp. set (c := cross _ _). destruct (isclose (norm c) 0 RTOL ATOL8); [reflexivity|]. cbn [option_map]. f_equal.
  dvec c. vunf. f_equal; unfold Rdiv; ring.
Qed.
(** Swapping the first two points. *)
Lemma normal_swap01 p0 p1 p2 : normal p1 p0 p2 = option_map vopp (normal p0 p1 p2).
Proof. rewrite <- normal_swap, <- (normal_cycle p0 p2 p1), <- (normal_cycle p2 p1 p0). auto. Qed.

(** Angles. *)
Lemma cauchy a b : Rabs (dot a b) <= norm a * norm b.
Proof.
  unfold norm. rewrite <- sqrt_mult by apply dot_pos. rewrite <- (sqrt_Rsqr_abs (dot a b)). apply sqrt_le_1_alt. unfold Rsqr.
  replace (dot a a * dot b b) with (dot a b * dot a b + dot (cross a b) (cross a b)) by (dvec a; dvec b; vunf; ring). pose proof (dot_pos (cross a b)). lra.
Qed.
Lemma unit_dot_range a b : unit a -> unit b -> -1 <= dot a b <= 1.
Proof.
  intros A B. pose proof (cauchy a b) as C. unfold norm in C. rewrite A, B, sqrt_1, Rmult_1_l in C. unfold Rabs in C. destruct (Rcase_abs (dot a b)); lra.
Qed.
Lemma angle_eq v1 v2 : norm v1 <> 0 -> norm v2 <> 0 ->
  angle v1 v2 = Some (acos (dot v1 v2 / (norm v1 * norm v2))).
Proof.
  intros A B. unfold angle. rewrite (proj2 (Reqb_false _ _) A), (proj2 (Reqb_false _ _) B). cbn [orb].
  pose proof (unit_dot_range _ _ (unit_vdiv v1 A) (unit_vdiv v2 B)) as R.
  rewrite (proj2 (Rltb_false 1 _)) by lra. rewrite (proj2 (Rltb_false _ (-1))) by lra.
  pose proof (acos_bound (dot (vdiv v1 (norm v1)) (vdiv v2 (norm v2)))). rewrite (proj2 (Rltb_false _ 0)) by lra.
  f_equal. f_equal. rewrite !vdiv_smul, dot_smul_l, dot_smul_r. field. auto.
Qed.
Lemma angle_none v1 v2 : angle v1 v2 = None <-> v1 = vzero \/ v2 = vzero.
Proof.
  rewrite <- !norm_zero. unfold angle. destruct (Reqb (norm v1) 0) eqn:A, (Reqb (norm v2) 0) eqn:B; rbool; cbn [orb]; split; auto; try discriminate; intros [H|H]; contradiction.
Qed.
Lemma angle_range v1 v2 a : angle v1 v2 = Some a -> 0 <= a <= PI.
Proof.
  intros H. assert (N : angle v1 v2 <> None) by congruence. rewrite angle_none in N. rewrite <- !norm_zero in N.
  rewrite angle_eq in H by tauto. inversion H. apply acos_bound.
Qed.
Lemma angle_cos v1 v2 a : angle v1 v2 = Some a -> cos a * (norm v1 * norm v2) = dot v1 v2.
Proof.
  intros H. assert (N : angle v1 v2 <> None) by congruence. rewrite angle_none in N. rewrite <- !norm_zero in N. assert (N1 : norm v1 <> 0) by tauto. assert (N2 : norm v2 <> 0) by tauto.
  rewrite angle_eq in H by auto. inversion H. rewrite cos_acos.
  - field. auto.
  - pose proof (unit_dot_range _ _ (unit_vdiv v1 N1) (unit_vdiv v2 N2)) as R. rewrite !vdiv_smul, dot_smul_l, dot_smul_r in R.
    replace (dot v1 v2 / (norm v1 * norm v2)) with (/ norm v1 * (/ norm v2 * dot v1 v2)) by (field; auto). auto.
Qed.
Lemma angle_sym v1 v2 : angle v1 v2 = angle v2 v1.
Proof.
  destruct (Req_EM_T (norm v1) 0) as [A|A], (Req_EM_T (norm v2) 0) as [B|B].
  1,2,3: rewrite (proj2 (angle_none v1 v2)), (proj2 (angle_none v2 v1)); auto; rewrite <- !norm_zero; auto.
  rewrite !angle_eq by auto. rewrite dot_comm, (Rmult_comm (norm v1)). auto.
Qed.
Lemma angle_scale v1 v2 k : 0 < k -> angle (smul k v1) v2 = angle v1 v2.
Proof.
  intros K. assert (N : norm (smul k v1) = k * norm v1) by (rewrite norm_smul, Rabs_pos_eq by lra; auto).
  destruct (Req_EM_T (norm v1) 0) as [A|A].
  - rewrite (proj2 (angle_none v1 v2)), (proj2 (angle_none (smul k v1) v2)); auto; left; apply norm_zero; auto. rewrite N, A. ring.
  - destruct (Req_EM_T (norm v2) 0) as [B|B].
    + rewrite (proj2 (angle_none v1 v2)), (proj2 (angle_none (smul k v1) v2)); auto; right; apply norm_zero; auto.
    + rewrite !angle_eq; auto; [|rewrite N; nra]. f_equal. f_equal. rewrite N, dot_smul_l. field. split; [auto|split; [auto|lra]].
Qed.
Lemma angle_parallel v k : v <> vzero -> 0 < k -> angle v (smul k v) = Some 0 /\ angle v (smul (- k) v) = Some PI.
Proof.
  intros N K. rewrite <- norm_zero in N.
  assert (A : norm (smul k v) = k * norm v) by (rewrite norm_smul, Rabs_pos_eq by lra; auto).
  assert (B : norm (smul (- k) v) = k * norm v) by (rewrite norm_smul, Rabs_Ropp, Rabs_pos_eq by lra; auto).
  rewrite !angle_eq by (auto; rewrite ?A, ?B; nra). rewrite A, B, !dot_smul_r, <- norm_sq. split; f_equal.
  - replace (k * (norm v * norm v) / (norm v * (k * norm v))) with 1 by (field; split; [auto|lra]). apply acos_1.
  - replace (- k * (norm v * norm v) / (norm v * (k * norm v))) with (-1) by (field; split; [auto|lra]). replace (-1) with (Ropp 1) by lra. rewrite acos_opp, acos_1. lra.
Qed.
