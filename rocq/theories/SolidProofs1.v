(** Rectangles and boxes. *)
From Coq Require Import Ascii String Reals List Bool Arith Lia Lra ZArith Permutation.
From Verif Require Import Prelude TreeModel VecModel VecProofs GeomModel GeomSpec GeomProofs1 GeomProofs2 GeomProofs3 GeomProofs4 GeomProofs5 TriModel TriSpec TriProofs TriProofs2 TriProofs3 PolyModel PolySpec PolyProofs1 PolyProofs2 SolidModel SolidSpec.
Import ListNotations.
Local Open Scope R_scope.

Definition rect (o u w : vec) : list vec := [o; vadd o u; vadd (vadd o u) w; vadd o w].
Section Rect.
Context (o u w n : vec) (a b m : R).
Context (Un : unit n) (Na : norm u = a) (Nb : norm w = b) (P : dot u w = 0) (Cr : cross u w = smul (a * b) n).
Context (Hm : 1 / 1000 <= m) (Ha : m <= a <= 5000 * m) (Hb : m <= b <= 5000 * m).
Context (Hn : forall p, In p (rect o u w) -> norm p <= 40000 * m).
Lemma rect_ab : 1 / 1000000 <= a * b.
Proof. nra. Qed.
Lemma rect_diag v : v = vadd u w \/ v = vsub w u \/ v = vsub u w -> m <= norm v /\ norm v <= a + b.
Proof.
  intros H. assert (Q : dot v v = a * a + b * b).
  { rewrite <- Na, <- Nb, !norm_sq. clear - P H. dvec u. dvec w. unfold dot, vadd, vsub in *. cbn [vx vy vz] in *. destruct H as [->|[->| ->]]; cbn [vx vy vz]; nra. }
  unfold norm. rewrite Q. split.
  - apply Rle_trans with a; [lra|]. rewrite <- (sqrt_square a) at 1 by lra. apply sqrt_le_1_alt. nra.
  - rewrite <- (sqrt_square (a + b)) by lra. apply sqrt_le_1_alt. nra.
Qed.
Lemma norm_opp v : norm (vopp v) = norm v.
Proof. unfold vopp. rewrite norm_smul, Rabs_left by lra. lra. Qed.
Lemma cross_ab c : c = cross u w \/ c = vopp (cross u w) -> norm c = a * b.
Proof. intros [->| ->]; rewrite ?norm_opp, Cr, norm_smul, (unit_norm n Un), Rabs_pos_eq by nra; ring. Qed.
Lemma rect_triangles : triangulate_pts (rect o u w) n = Ok (rect o u w, [(3, 0, 1); (3, 1, 2)]%nat).
Proof.
  pose proof rect_ab as AB. change [(3, 0, 1); (3, 1, 2)]%nat with (fan (length (rect o u w))). apply convex_fan; [simpl; lia|exact Un|].
  intros i p q r L Ea Eb Ec. destruct i as [|[|i]]; [| |simpl in L; lia]; cbn in Ea, Eb, Ec; injection Ea as <-; injection Eb as <-; injection Ec as <-.
  - split. { exists (a * b). split; [rewrite <- Cr; dvec o; dvec u; dvec w; vunf; f_equal; ring|unfold GEOM_ATOL; lra]. }
    intros j q J Eq. simpl in J. replace j with 2%nat in Eq by lia. cbn in Eq. injection Eq as <-.
    set (p2 := vadd (vadd o u) w). set (p3 := vadd o w). set (p1 := vadd o u).
    assert (D30 : dist p3 o = b). { unfold dist. replace (vsub o p3) with (vopp w) by (unfold p3; dvec o; dvec w; vunf; f_equal; ring). rewrite norm_opp; auto. }
    assert (D32 : dist p3 p2 = a). { unfold dist. replace (vsub p2 p3) with u by (unfold p3, p2; dvec o; dvec w; dvec u; vunf; f_equal; ring). auto. }
    assert (D01 : dist o p1 = a). { unfold dist. replace (vsub p1 o) with u by (unfold p1; dvec o; dvec w; dvec u; vunf; f_equal; ring). auto. }
    assert (D12 : dist p1 p2 = b). { unfold dist. replace (vsub p2 p1) with w by (unfold p2, p1; dvec o; dvec w; dvec u; vunf; f_equal; ring). auto. }
    assert (D02 : m <= dist o p2 <= a + b). { unfold dist. apply rect_diag. left. unfold p2. dvec o; dvec w; dvec u; vunf; f_equal; ring. }
    assert (D13 : m <= dist p1 p3 <= a + b). { unfold dist. apply rect_diag. right; left. unfold p1, p3. dvec o; dvec w; dvec u; vunf; f_equal; ring. }
    assert (A1 : 2 * true_area p3 o p2 = a * b). { unfold true_area. rewrite (cross_ab (cross (vsub o p3) (vsub p2 p3))); [lra|]. left. unfold p2, p3. clear. dvec o; dvec w; dvec u; vunf; f_equal; ring. }
    assert (A2 : 2 * true_area o p1 p2 = a * b). { unfold true_area. rewrite (cross_ab (cross (vsub p1 o) (vsub p2 o))); [lra|]. left. unfold p2, p1. clear. dvec o; dvec w; dvec u; vunf; f_equal; ring. }
    assert (A3 : 2 * true_area p1 p3 p2 = a * b). { unfold true_area. rewrite (cross_ab (cross (vsub p3 p1) (vsub p2 p1))); [lra|]. right. unfold p2, p3, p1. clear. dvec o; dvec w; dvec u; vunf; f_equal; ring. }
    assert (I : norm o <= 40000 * m /\ norm p1 <= 40000 * m /\ norm p2 <= 40000 * m /\ norm p3 <= 40000 * m) by (split; [|split; [|split]]; apply Hn; unfold rect; simpl; auto).
    split; [unfold in_plane_of, p1, p2, p3; clear; dvec o; dvec w; dvec u; vunf; ring|]. split.
    { unfold off_edges, off_edge. rewrite A1, A2, A3, D30, D32, D01, D12. repeat split; try lra; nra. }
    unfold far_from. rewrite D32, D12. split; [lra|]. split; [lra|]. split; [lra|].
    intros (x & y & z & X & Y & Z_ & S & E). assert (Q : dot (vsub p2 o) u = dot (vsub (bary p3 o p1 x y z) o) u) by (rewrite <- E; auto).
    assert (Q1 : dot (vsub p2 o) u = a * a). { rewrite <- Na, norm_sq. unfold p2. transitivity (dot u u + dot u w); [|rewrite P; ring]. clear. dvec o; dvec w; dvec u; vunf; ring. }
    assert (Q2 : dot (vsub (bary p3 o p1 x y z) o) u = z * (a * a)).
    { rewrite <- Na, norm_sq. replace y with (1 - x - z) by lra. unfold bary, p1, p3. transitivity (z * dot u u + x * dot u w); [|rewrite P; ring]. clear. dvec o; dvec w; dvec u; vunf; ring. }
    rewrite Q1, Q2 in Q. assert (AA : 0 < a * a) by (apply Rmult_lt_0_compat; lra). assert (Z1 : z = 1) by (apply (Rmult_eq_reg_r (a * a)); lra). lra.
  - split. { exists (a * b). split; [rewrite <- Cr; dvec o; dvec u; dvec w; vunf; f_equal; ring|unfold GEOM_ATOL; lra]. }
    intros j q J. simpl in J. lia.
Qed.
Lemma rect_make : exists p, make_polygon (rect o u w) None None = Ok p /\ p_pts p = rect o u w /\ p_tri p = [(3, 0, 1); (3, 1, 2)]%nat /\ p_vn p = n /\ p_area p = a * b.
Proof.
  pose proof rect_ab as AB.
  assert (Nn : normal (vadd o w) o (vadd o u) = Some n). { apply (normal_parallel _ _ _ _ (a * b)); auto; [lra|]. rewrite <- Cr. clear. dvec o; dvec u; dvec w; vunf; f_equal; ring. }
  destruct (make_ok (rect o u w) (vadd o w) o (vadd o u) n (rect o u w) [(3, 0, 1); (3, 1, 2)]%nat) as (p & E & E1 & E2 & E3 & E4); auto.
  - simpl. lia.
  - exists n, (dot n o). split; [intros E; unfold unit in Un; rewrite E in Un; vunf; lra|].
    assert (K : a * b <> 0) by lra. assert (Pu : dot n u = 0) by (apply (Rmult_eq_reg_l (a * b)); [|exact K]; rewrite <- dot_smul_l, <- Cr, Rmult_0_r; clear; dvec u; dvec w; vunf; ring).
    assert (Pw : dot n w = 0) by (apply (Rmult_eq_reg_l (a * b)); [|exact K]; rewrite <- dot_smul_l, <- Cr, Rmult_0_r; clear; dvec u; dvec w; vunf; ring).
    intros p [<-|[<-|[<-|[<-|[]]]]]; rewrite ?dot_vadd_r, ?Pu, ?Pw; ring.
  - apply rect_triangles.
  - exists p. rewrite E4, E3 || rewrite E4. repeat split; auto. rewrite polygon_area_eq by (simpl; lia).
    assert (V2 : vector_area2 (rect o u w) = smul 2 (cross u w)). { unfold vector_area2, rect, cyc_pairs. cbn [combine app map fold_right fst snd]. clear. dvec o; dvec u; dvec w; vunf; f_equal; ring. }
    rewrite V2, Cr. replace (dot (smul 2 (smul (a * b) n)) n) with (2 * (a * b)); [rewrite Rabs_pos_eq; lra|]. rewrite !dot_smul_l. unfold unit in Un. rewrite Un. ring.
Qed.
End Rect.

Lemma named_ok name pts p : validate_name name = Ok name -> make_polygon pts None None = Ok p -> named_polygon name pts = Ok (name, p).
Proof. intros V M. unfold make_polygon in M. unfold named_polygon. destruct (check_polygon pts) as [[]|]; [|discriminate]. cbn [rbind] in *. rewrite V. cbn [rbind]. rewrite M. auto. Qed.
Lemma norm_le_sum v : norm v <= Rabs (vx v) + Rabs (vy v) + Rabs (vz v).
Proof.
  pose proof (Rabs_pos (vx v)). pose proof (Rabs_pos (vy v)). pose proof (Rabs_pos (vz v)). unfold norm. rewrite <- (sqrt_square (Rabs (vx v) + Rabs (vy v) + Rabs (vz v))) by lra. apply sqrt_le_1_alt. unfold dot.
  pose proof (Rsqr_abs (vx v)) as X. pose proof (Rsqr_abs (vy v)) as Y. pose proof (Rsqr_abs (vz v)) as Z_. unfold Rsqr in *. rewrite X, Y, Z_. nra.
Qed.
Lemma norm_axis (v : vec) k : 0 <= k -> dot v v = k * k -> norm v = k.
Proof. intros K E. unfold norm. rewrite E. apply sqrt_square; auto. Qed.

Section Box.
Context (x y z : R) (mv : vec) (F : box_fits x y z mv).
Notation pt i j k := (box_point i j k x y z mv).
Lemma box_face o u w n a b : unit n -> (forall p, In p (rect o u w) -> exists i j k, (i = 0 \/ i = 1) /\ (j = 0 \/ j = 1) /\ (k = 0 \/ k = 1) /\ p = pt i j k) ->
  (a = x \/ a = y \/ a = z) -> (b = x \/ b = y \/ b = z) -> dot u u = a * a -> dot w w = b * b -> dot u w = 0 -> cross u w = smul (a * b) n ->
  exists p, make_polygon (rect o u w) None None = Ok p /\ p_pts p = rect o u w /\ p_tri p = [(3, 0, 1); (3, 1, 2)]%nat /\ p_vn p = n /\ p_area p = a * b.
Proof.
  destruct F as (m & M & Hx & Hy & Hz & Mx & My & Mz). intros Un C A B Eu Ew P Cr.
  assert (Ra : m <= a <= 5000 * m) by (destruct A as [->|[->| ->]]; auto). assert (Rb : m <= b <= 5000 * m) by (destruct B as [->|[->| ->]]; auto).
  apply (rect_make o u w n a b m); auto; try (apply norm_axis; auto; lra).
  intros p I. destruct (C p I) as (i & j & k & Hi & Hj & Hk & ->). eapply Rle_trans; [apply norm_le_sum|]. unfold box_point. cbn [vx vy vz].
  assert (L : forall i d v, (i = 0 \/ i = 1) -> m <= d <= 5000 * m -> Rabs v <= 8000 * m -> Rabs (i * d + v) <= 13000 * m).
  { intros i0 d v H0 D Bv. apply Rabs_le_inv in Bv. destruct H0 as [->| ->]; apply Rabs_le; lra. }
  pose proof (L i x (vx mv) Hi Hx Mx). pose proof (L j y (vy mv) Hj Hy My). pose proof (L k z (vz mv) Hk Hz Mz). lra.
Qed.

Ltac veq := unfold box_point; repeat (apply f_equal2; [apply vec_ext; unfold vadd; cbn [vx vy vz]; ring|]); reflexivity.
Lemma box_corner pts o u w : pts = rect o u w -> (forall p, In p pts -> exists i j k, (i = 0 \/ i = 1) /\ (j = 0 \/ j = 1) /\ (k = 0 \/ k = 1) /\ p = pt i j k) ->
  forall p, In p (rect o u w) -> exists i j k, (i = 0 \/ i = 1) /\ (j = 0 \/ j = 1) /\ (k = 0 \/ k = 1) /\ p = pt i j k.
Proof. intros <-. auto. Qed.
Lemma box_face' pts o u w n a b : pts = rect o u w -> unit n -> (forall p, In p pts -> exists i j k, (i = 0 \/ i = 1) /\ (j = 0 \/ j = 1) /\ (k = 0 \/ k = 1) /\ p = pt i j k) ->
  (a = x \/ a = y \/ a = z) -> (b = x \/ b = y \/ b = z) -> dot u u = a * a -> dot w w = b * b -> dot u w = 0 -> cross u w = smul (a * b) n ->
  exists p, make_polygon pts None None = Ok p /\ p_pts p = pts /\ p_tri p = [(3, 0, 1); (3, 1, 2)]%nat /\ p_vn p = n /\ p_area p = a * b.
Proof. intros -> . apply box_face. Qed.
Ltac corner := let p := fresh "p" in let I := fresh "I" in intros p I; repeat (destruct I as [<-|I]; [eexists; eexists; eexists; repeat (split; [|]); [| | |reflexivity]; auto|]); destruct I.
Ltac face oo uu ww aa bb := 
  match goal with |- exists p, make_polygon ?l None None = _ /\ _ => apply (box_face' l oo uu ww _ aa bb) end;
  [unfold rect; veq|unfold unit; vunf; ring|corner|auto|auto|vunf; ring|vunf; ring|vunf; ring|vunf; f_equal; ring].
Definition box_outlines : list (list vec) :=
  [[pt 0 0 0; pt 0 1 0; pt 1 1 0; pt 1 0 0]; [pt 0 0 0; pt 1 0 0; pt 1 0 1; pt 0 0 1]; [pt 1 0 0; pt 1 1 0; pt 1 1 1; pt 1 0 1];
   [pt 0 1 0; pt 0 1 1; pt 1 1 1; pt 1 1 0]; [pt 0 0 0; pt 0 0 1; pt 0 1 1; pt 0 1 0]; [pt 0 0 1; pt 1 0 1; pt 1 1 1; pt 0 1 1]].
Lemma face_bottom : exists p, make_polygon [pt 0 0 0; pt 0 1 0; pt 1 1 0; pt 1 0 0] None None = Ok p /\ p_pts p = [pt 0 0 0; pt 0 1 0; pt 1 1 0; pt 1 0 0] /\ p_tri p = [(3, 0, 1); (3, 1, 2)]%nat /\ p_vn p = V 0 0 (-1) /\ p_area p = y * x.
Proof. face (pt 0 0 0) (V 0 y 0) (V x 0 0) y x. Qed.
Lemma face_0 : exists p, make_polygon [pt 0 0 0; pt 1 0 0; pt 1 0 1; pt 0 0 1] None None = Ok p /\ p_pts p = [pt 0 0 0; pt 1 0 0; pt 1 0 1; pt 0 0 1] /\ p_tri p = [(3, 0, 1); (3, 1, 2)]%nat /\ p_vn p = V 0 (-1) 0 /\ p_area p = x * z.
Proof. face (pt 0 0 0) (V x 0 0) (V 0 0 z) x z. Qed.
Lemma face_1 : exists p, make_polygon [pt 1 0 0; pt 1 1 0; pt 1 1 1; pt 1 0 1] None None = Ok p /\ p_pts p = [pt 1 0 0; pt 1 1 0; pt 1 1 1; pt 1 0 1] /\ p_tri p = [(3, 0, 1); (3, 1, 2)]%nat /\ p_vn p = V 1 0 0 /\ p_area p = y * z.
Proof. face (pt 1 0 0) (V 0 y 0) (V 0 0 z) y z. Qed.
Lemma face_2 : exists p, make_polygon [pt 0 1 0; pt 0 1 1; pt 1 1 1; pt 1 1 0] None None = Ok p /\ p_pts p = [pt 0 1 0; pt 0 1 1; pt 1 1 1; pt 1 1 0] /\ p_tri p = [(3, 0, 1); (3, 1, 2)]%nat /\ p_vn p = V 0 1 0 /\ p_area p = z * x.
Proof. face (pt 0 1 0) (V 0 0 z) (V x 0 0) z x. Qed.
Lemma face_3 : exists p, make_polygon [pt 0 0 0; pt 0 0 1; pt 0 1 1; pt 0 1 0] None None = Ok p /\ p_pts p = [pt 0 0 0; pt 0 0 1; pt 0 1 1; pt 0 1 0] /\ p_tri p = [(3, 0, 1); (3, 1, 2)]%nat /\ p_vn p = V (-1) 0 0 /\ p_area p = z * y.
Proof. face (pt 0 0 0) (V 0 0 z) (V 0 y 0) z y. Qed.
Lemma face_top : exists p, make_polygon [pt 0 0 1; pt 1 0 1; pt 1 1 1; pt 0 1 1] None None = Ok p /\ p_pts p = [pt 0 0 1; pt 1 0 1; pt 1 1 1; pt 0 1 1] /\ p_tri p = [(3, 0, 1); (3, 1, 2)]%nat /\ p_vn p = V 0 0 1 /\ p_area p = x * y.
Proof. face (pt 0 0 1) (V x 0 0) (V 0 y 0) x y. Qed.
Lemma box_ok name : validate_name name = Ok name -> exists ws, box x y z mv name = Ok ws /\
  map fst ws = [str_of "floor"; str_of "wall_0"; str_of "wall_1"; str_of "wall_2"; str_of "wall_3"; str_of "ceiling"] /\
  map (fun w => fst (snd w)) ws = [str_of "floor"; str_of "poly_0"; str_of "poly_1"; str_of "poly_2"; str_of "poly_3"; str_of "ceiling"] /\
  outlines ws = box_outlines /\ normals ws = [V 0 0 (-1); V 0 (-1) 0; V 1 0 0; V 0 1 0; V (-1) 0 0; V 0 0 1] /\
  map (fun w => p_tri (snd (snd w))) ws = repeat [(3, 0, 1); (3, 1, 2)]%nat 6 /\ map (fun w => p_area (snd (snd w))) ws = [y * x; x * z; y * z; z * x; z * y; x * y].
Proof.
  intros Hn. destruct face_bottom as (q0 & M0 & A0 & T0 & N0 & R0), face_0 as (q1 & M1 & A1 & T1 & N1 & R1), face_1 as (q2 & M2 & A2 & T2 & N2 & R2),
    face_2 as (q3 & M3 & A3 & T3 & N3 & R3), face_3 as (q4 & M4 & A4 & T4 & N4 & R4), face_top as (q5 & M5 & A5 & T5 & N5 & R5).
  assert (E : box x y z mv name = Ok [(str_of "floor", (str_of "floor", q0)); (str_of "wall_0", (str_of "poly_0", q1)); (str_of "wall_1", (str_of "poly_1", q2)); (str_of "wall_2", (str_of "poly_2", q3)); (str_of "wall_3", (str_of "poly_3", q4)); (str_of "ceiling", (str_of "ceiling", q5))]).
  { unfold box. rewrite (named_ok (str_of "floor") _ _ eq_refl M0), (named_ok (str_of "poly_0") _ _ eq_refl M1), (named_ok (str_of "poly_1") _ _ eq_refl M2), (named_ok (str_of "poly_2") _ _ eq_refl M3), (named_ok (str_of "poly_3") _ _ eq_refl M4), (named_ok (str_of "ceiling") _ _ eq_refl M5). cbn [rbind].
    unfold make_wall, make_solid. rewrite Hn. reflexivity. }
  eexists. split; [exact E|]. unfold outlines, normals. cbn [map fst snd repeat]. rewrite A0, A1, A2, A3, A4, A5, T0, T1, T2, T3, T4, T5, N0, N1, N2, N3, N4, N5, R0, R1, R2, R3, R4, R5. repeat split; reflexivity.
Qed.
Lemma box_bad_name name : validate_name name = Err ValueError -> box x y z mv name = Err ValueError.
Proof.
  intros Hn. destruct face_bottom as (q0 & M0 & _), face_0 as (q1 & M1 & _), face_1 as (q2 & M2 & _), face_2 as (q3 & M3 & _), face_3 as (q4 & M4 & _), face_top as (q5 & M5 & _).
  unfold box. rewrite (named_ok (str_of "floor") _ _ eq_refl M0), (named_ok (str_of "poly_0") _ _ eq_refl M1), (named_ok (str_of "poly_1") _ _ eq_refl M2), (named_ok (str_of "poly_2") _ _ eq_refl M3), (named_ok (str_of "poly_3") _ _ eq_refl M4), (named_ok (str_of "ceiling") _ _ eq_refl M5). cbn [rbind]. unfold make_wall, make_solid. rewrite Hn. reflexivity.
Qed.
Lemma box_closed : closed_surface box_outlines.
Proof.
  unfold closed_surface, closed_edges, box_outlines, cyc_pairs. cbn [map concat app combine fst snd]. generalize (pt 0 0 0) (pt 1 0 0) (pt 1 1 0) (pt 0 1 0) (pt 0 0 1) (pt 1 0 1) (pt 1 1 1) (pt 0 1 1). intros p0 p1 p2 p3 p4 p5 p6 p7. clear F.
  Local Ltac pick := match goal with |- Permutation (?x :: ?l) ?r =>
    let rec go a b := lazymatch b with x :: ?t => (apply (Permutation_cons_app a t x)) | ?h :: ?t => go constr:(app a (cons h nil)) t end in
    let t := type of x in go constr:(@nil t) r end; cbn [app].
  repeat pick. apply Permutation_refl.
Qed.
Lemma box_edges_nodup : NoDup (concat (map cyc_pairs box_outlines)).
Proof.
  destruct F as (m & M & Hx & Hy & Hz & _). unfold box_outlines, cyc_pairs, box_point. cbn [map concat app combine].
  set (dx := vx mv). set (dy := vy mv). set (dz := vz mv). clearbody dx dy dz.
  repeat (constructor; [simpl; intros I; repeat (destruct I as [I|I]; [injection I; intros; lra|]); destruct I|]). constructor.
Qed.
Definition quad_mesh (l : list vec) : list (vec * vec * vec) := match l with [a; b; c; d] => [(d, a, b); (d, b, c)] | _ => [] end.
Lemma quad_oriented a b c d n k : 0 <= k -> cross (vsub a d) (vsub b d) = smul k n -> cross (vsub b d) (vsub c d) = smul k n -> poly_mesh ([a; b; c; d], [(3, 0, 1); (3, 1, 2)]%nat, n) (quad_mesh [a; b; c; d]).
Proof.
  intros K E1 E2. split; [repeat constructor; simpl; auto|]. intros p q r [H|[H|[]]]; injection H as <- <- <-; exists k; auto.
Qed.
Lemma box_volume ws vol : outlines ws = box_outlines -> normals ws = [V 0 0 (-1); V 0 (-1) 0; V 1 0 0; V 0 1 0; V (-1) 0 0; V 0 0 1] -> map (fun w => p_tri (snd (snd w))) ws = repeat [(3, 0, 1); (3, 1, 2)]%nat 6 ->
  solid_volume (all_polys ws) = Ok vol -> Rabs (vol - x * y * z) <= 1 / 1000000.
Proof.
  intros Ho Hn Ht. destruct F as (m & M & Hx & Hy & Hz & _). assert (Qx : 0 <= x) by lra. assert (Qy : 0 <= y) by lra. assert (Qz : 0 <= z) by lra.
  assert (E : all_polys ws = map (fun on => (fst on, [(3, 0, 1); (3, 1, 2)]%nat, snd on)) (combine box_outlines [V 0 0 (-1); V 0 (-1) 0; V 1 0 0; V 0 1 0; V (-1) 0 0; V 0 0 1])).
  { unfold outlines, normals, box_outlines, all_polys in *. destruct ws as [|w0 [|w1 [|w2 [|w3 [|w4 [|w5 [|w6 ws]]]]]]]; try discriminate. cbn [map repeat combine fst snd] in *.
    injection Ho as -> -> -> -> -> ->. injection Hn as -> -> -> -> -> ->. injection Ht as -> -> -> -> -> ->. reflexivity. }
  rewrite E. intros H. set (tss := map quad_mesh box_outlines).
  assert (P : Forall2 poly_mesh (map (fun on => (fst on, [(3, 0, 1); (3, 1, 2)]%nat, snd on)) (combine box_outlines [V 0 0 (-1); V 0 (-1) 0; V 1 0 0; V 0 1 0; V (-1) 0 0; V 0 0 1])) tss).
  { unfold tss, box_outlines. cbn [map combine fst snd]. assert (Pxy : 0 <= x * y) by (apply Rmult_le_pos; auto). assert (Pxz : 0 <= x * z) by (apply Rmult_le_pos; auto). assert (Pyz : 0 <= y * z) by (apply Rmult_le_pos; auto).
    repeat constructor; [eapply (quad_oriented _ _ _ _ _ (x * y))|eapply (quad_oriented _ _ _ _ _ (x * z))|eapply (quad_oriented _ _ _ _ _ (y * z))|eapply (quad_oriented _ _ _ _ _ (x * z))|eapply (quad_oriented _ _ _ _ _ (y * z))|eapply (quad_oriented _ _ _ _ _ (x * y))]; auto; unfold box_point; vunf; f_equal; ring. }
  pose proof (volume_close _ _ _ P H) as C. assert (D : mesh_det (concat tss) = 6 * (x * y * z)) by (unfold tss, box_outlines, quad_mesh, mesh_det, box_point; cbn [map concat app fold_right]; vunf; ring).
  assert (L : length (concat tss) = 12%nat) by reflexivity. rewrite D, L in C. assert (P3 : 0 <= x * y * z) by (apply Rmult_le_pos; [apply Rmult_le_pos|]; auto). rewrite (Rabs_pos_eq (6 * (x * y * z))) in C by lra. replace (INR 12) with 12 in C by (simpl; lra). replace (6 * (x * y * z) / 6) with (x * y * z) in C by field. lra.
Qed.
Lemma box_volume_ok ws : outlines ws = box_outlines -> map (fun w => p_tri (snd (snd w))) ws = repeat [(3, 0, 1); (3, 1, 2)]%nat 6 -> exists vol, solid_volume (all_polys ws) = Ok vol.
Proof.
  intros Ho Ht. apply volume_total. unfold outlines, box_outlines, all_polys in *. destruct ws as [|w0 [|w1 [|w2 [|w3 [|w4 [|w5 [|w6 ws]]]]]]]; try discriminate. cbn [map repeat] in *.
  injection Ho as E0 E1 E2 E3 E4 E5. injection Ht as T0 T1 T2 T3 T4 T5. rewrite E0, E1, E2, E3, E4, E5, T0, T1, T2, T3, T4, T5.
  intros pts tris vn t I. repeat (destruct I as [I|I]; [injection I as <- <- <-; intros [<-|[<-|[]]]; eexists (_, _, _); repeat split; reflexivity|]). destruct I.
Qed.
End Box.

(** Far from the origin the relative tolerance identifies the corners. *)
Section Far.
Context (x y z : R) (mv : vec) (Px : 0 < x) (Py : 0 < y) (Pxy : 1 / 100000000 < x * y) (Far : 100001 * x <= Rabs (vx mv)).
Notation pt i j k := (box_point i j k x y z mv).
Definition fcorner (i : nat) : vec := nth i [pt 0 0 0; pt 0 1 0; pt 1 1 0; pt 1 0 0] vzero.
Definition ft := [(3, 0, 1); (0, 1, 2); (1, 2, 3); (2, 3, 0)]%nat.
Definition bt := [(0, 3, 2); (3, 2, 1); (2, 1, 0); (1, 0, 3)]%nat.
Definition teq (a b : nat * nat * nat) : bool := let '(x, y, z) := a in let '(u, v, w) := b in ((x =? u) && (y =? v) && (z =? w))%nat.
Definition fconvex (a b c : nat) : result bool := if existsb (teq (a, b, c)) ft then Ok true else if existsb (teq (a, b, c)) bt then Ok false else Err OutOfFuel.
Definition finside (q a b c : nat) : result bool := if negb (existsb (Nat.eqb q) [a; b; c]) && existsb (teq (a, b, c)) ft then Ok true else Err OutOfFuel.
Lemma teq_eq a b : teq a b = true <-> a = b.
Proof. destruct a as ((a, a'), a''), b as ((b, b'), b''). unfold teq. rewrite !andb_true_iff, !Nat.eqb_eq. split; [intros ((-> & ->) & ->); auto|intros H; inversion H; auto]. Qed.
Lemma existsb_teq t l : existsb (teq t) l = true -> In t l.
Proof. intros H. apply existsb_exists in H. destruct H as (y0 & I & E). apply teq_eq in E. subst. auto. Qed.
Lemma down_unit : unit (V 0 0 (-1)). Proof. unfold unit. vunf. ring. Qed.
Lemma near_far i j k i' : (i = 0 \/ i = 1) -> (i' = 0 \/ i' = 1) -> points_equal (pt i j k) (pt i' j k) = true.
Proof.
  intros Hi Hi'. unfold points_equal, allclose, box_point. cbn [vx vy vz]. rewrite !andb_true_iff. split; [split|]; try (apply isclose_refl; unfold RTOL, GEOM_ATOL; lra).
  unfold isclose. apply Rleb_true. unfold GEOM_ATOL, RTOL. assert (A : Rabs (i * x + vx mv - (i' * x + vx mv)) <= x) by (apply Rabs_le; destruct Hi as [->| ->], Hi' as [->| ->]; lra).
  assert (B : 100000 * x <= Rabs (i' * x + vx mv)). { destruct Hi' as [->| ->]; [replace (0 * x + vx mv) with (vx mv) by ring; lra|]. unfold Rabs in *. destruct (Rcase_abs (vx mv)), (Rcase_abs (1 * x + vx mv)); lra. }
  lra.
Qed.
Lemma far_convex a b c r : fconvex a b c = Ok r -> ear_convex (V 0 0 (-1)) (fcorner a) (fcorner b) (fcorner c) = Ok r.
Proof.
  unfold fconvex. destruct (existsb (teq (a, b, c)) ft) eqn:E1; [|destruct (existsb (teq (a, b, c)) bt) eqn:E2; [|discriminate]]; intros H; apply Ok_inj in H; subst r.
  - apply existsb_teq in E1. unfold ear_convex. rewrite (corner_convex_plane _ _ _ _ (x * y) down_unit).
    + f_equal. apply Rleb_true. unfold GEOM_ATOL. lra.
    + repeat (destruct E1 as [E1|E1]; [injection E1 as <- <- <-; unfold fcorner, box_point; cbn [nth]; vunf; f_equal; ring|]). destruct E1.
  - apply existsb_teq in E2. unfold ear_convex. rewrite (corner_convex_plane _ _ _ _ (- (x * y)) down_unit).
    + f_equal. apply Rleb_false. unfold GEOM_ATOL. lra.
    + repeat (destruct E2 as [E2|E2]; [injection E2 as <- <- <-; unfold fcorner, box_point; cbn [nth]; vunf; f_equal; ring|]). destruct E2.
Qed.
Lemma close_inside q a b c : is_point_inside_bbox q [a; b; c] (1 / 100) = Ok true -> (allclose q a RTOL GEOM_ATOL = true \/ allclose q b RTOL GEOM_ATOL = true \/ allclose q c RTOL GEOM_ATOL = true) -> ear_inside q a b c = Ok true.
Proof.
  intros B H. unfold ear_inside, is_point_inside_triangle. rewrite B. cbn [rbind negb]. destruct H as [H|[H|H]]; rewrite H, ?orb_true_r; auto.
Qed.
Lemma box_of q l : l <> [] -> (forall c0, In c0 [vx; vy; vz] -> (exists p, In p l /\ c0 p <= c0 q) /\ (exists p, In p l /\ c0 q <= c0 p)) -> is_point_inside_bbox q l (1 / 100) = Ok true.
Proof.
  intros N H. destruct (inside_bbox_spec q l (1 / 100) N) as (b & E & S). rewrite E. f_equal. apply S. intros c0 I. destruct (H c0 I) as ((p & Ip & Lp) & (p' & Ip' & Lp')). split; [exists p|exists p']; split; auto; lra.
Qed.
Lemma far_inside q a b c r : (q < 4)%nat -> finside q a b c = Ok r -> ear_inside (fcorner q) (fcorner a) (fcorner b) (fcorner c) = Ok r.
Proof.
  intros Lq. unfold finside. destruct (negb (existsb (Nat.eqb q) [a; b; c]) && existsb (teq (a, b, c)) ft) eqn:E; [|discriminate]. intros H. apply Ok_inj in H. subst r.
  apply andb_true_iff in E. destruct E as (N & T). apply existsb_teq in T. apply negb_true_iff in N.
  assert (S : forall u v, (u, v) = (2, 1)%nat \/ (u, v) = (3, 0)%nat \/ (u, v) = (0, 3)%nat \/ (u, v) = (1, 2)%nat -> allclose (fcorner u) (fcorner v) RTOL GEOM_ATOL = true).
  { intros u v Huv. repeat (destruct Huv as [Huv|Huv]; [injection Huv as -> ->; unfold fcorner; cbn [nth]; apply near_far; auto|]). injection Huv as -> ->; unfold fcorner; cbn [nth]; apply near_far; auto. }
  assert (B : forall l, l <> [] -> In (fcorner 0) l \/ In (fcorner 1) l -> In (fcorner 2) l \/ In (fcorner 3) l -> In (fcorner 0) l \/ In (fcorner 3) l -> In (fcorner 1) l \/ In (fcorner 2) l -> is_point_inside_bbox (fcorner q) l (1 / 100) = Ok true).
  { intros l Nl I1 I2 I3 I4. apply box_of; auto. assert (V0 : fcorner 0 = V (vx mv) (vy mv) (vz mv)) by (unfold fcorner, box_point; cbn [nth]; f_equal; ring). assert (V1 : fcorner 1 = V (vx mv) (y + vy mv) (vz mv)) by (unfold fcorner, box_point; cbn [nth]; f_equal; ring).
    assert (V2 : fcorner 2 = V (x + vx mv) (y + vy mv) (vz mv)) by (unfold fcorner, box_point; cbn [nth]; f_equal; ring). assert (V3 : fcorner 3 = V (x + vx mv) (vy mv) (vz mv)) by (unfold fcorner, box_point; cbn [nth]; f_equal; ring).
    assert (Vq : vx mv <= vx (fcorner q) <= x + vx mv /\ vy mv <= vy (fcorner q) <= y + vy mv /\ vz (fcorner q) = vz mv). { destruct q as [|[|[|[|q]]]]; [rewrite V0|rewrite V1|rewrite V2|rewrite V3|lia]; cbn [vx vy vz]; lra. }
    rewrite V0, V1, V2, V3 in *. intros c0 [<-|[<-|[<-|[]]]].
    - split; [destruct I1 as [J|J]|destruct I2 as [J|J]]; eexists; (split; [exact J|]); cbn [vx vy vz]; lra.
    - split; [destruct I3 as [J|J]|destruct I4 as [J|J]]; eexists; (split; [exact J|]); cbn [vx vy vz]; lra.
    - split; destruct I1 as [J|J]; eexists; (split; [exact J|]); cbn [vx vy vz]; lra. }
  repeat (destruct T as [T|T]; [injection T as <- <- <-; destruct q as [|[|[|[|q]]]]; try discriminate; try lia; (apply close_inside; [apply B; simpl; auto 6; discriminate|first [left; apply S; auto 6; fail|right; left; apply S; auto 6; fail|right; right; apply S; auto 6]])|]). destruct T.
Qed.
Lemma far_triangulate : triangulate_pts [pt 0 0 0; pt 0 1 0; pt 1 1 0; pt 1 0 0] (V 0 0 (-1)) = Err TriangulationError.
Proof.
  unfold triangulate_pts. replace (isclose (norm (V 0 0 (-1))) 0 RTOL ATOL8) with false.
  2:{ symmetry. rewrite (unit_norm _ down_unit). unfold isclose. apply Rleb_false. unfold RTOL, ATOL8. rewrite Rminus_0_r, Rabs_R0, Rabs_pos_eq; lra. }
  change [pt 0 0 0; pt 0 1 0; pt 1 1 0; pt 1 0 0] with (map fcorner [0; 1; 2; 3]%nat).
  apply (triangulate_lift fcorner (ear_convex (V 0 0 (-1))) ear_inside fconvex finside [0; 1; 2; 3]%nat).
  - intros a b c r _ _ _. apply far_convex.
  - intros q a b c r Iq _ _ _ _. apply far_inside. simpl in Iq. lia.
  - vm_compute. reflexivity.
  - intros a b c. unfold fconvex. destruct (existsb _ _); [discriminate|]. destruct (existsb _ _); discriminate.
  - intros q a b c. unfold finside. destruct (_ && _); discriminate.
Qed.
Lemma far_box name : box x y z mv name = Err TriangulationError.
Proof.
  unfold box, named_polygon. set (pts := [pt 0 0 0; pt 0 1 0; pt 1 1 0; pt 1 0 0]). assert (C : check_polygon pts = Ok tt).
  { unfold check_polygon. rewrite (coplanar_accepted pts GEOM_ATOL); [reflexivity|unfold GEOM_ATOL; lra|]. exists (V 0 0 1), (vz mv). split; [intros E; injection E; lra|]. intros p [<-|[<-|[<-|[<-|[]]]]]; unfold box_point; vunf; ring. }
  rewrite C. cbn [rbind]. change (validate_name (str_of "floor")) with (Ok (str_of "floor")). cbn [rbind]. unfold build_polygon. unfold pts at 1. cbn [first_three last rbind].
  rewrite (normal_parallel _ _ _ (V 0 0 (-1)) (x * y) down_unit Pxy) by (unfold box_point; vunf; f_equal; ring). cbn [rbind]. unfold pts. rewrite far_triangulate. reflexivity.
Qed.
End Far.
