(** Evaluation of polygon construction on points with integer coordinates in
    planes perpendicular to an axis. *)
From Coq Require Import Reals List Bool Arith Lia Lra ZArith Permutation.
From Verif Require Import Prelude VecModel VecProofs GeomModel GeomSpec GeomProofs1 GeomProofs2 GeomProofs3 GeomProofs4 GeomProofs5 TriModel TriSpec TriProofs TriProofs2 TriProofs3 PolyModel PolySpec PolyProofs1.
Import ListNotations.
Local Open Scope R_scope.

Notation z3 := (Z * Z * Z)%type.
Definition zx (p : z3) : Z := fst (fst p).
Definition zy (p : z3) : Z := snd (fst p).
Definition zz (p : z3) : Z := snd p.
Definition zsub (a b : z3) : z3 := (zx a - zx b, zy a - zy b, zz a - zz b)%Z.
Definition zcross (a b : z3) : z3 := (zy a * zz b - zz a * zy b, zz a * zx b - zx a * zz b, zx a * zy b - zy a * zx b)%Z.
Definition zdot (a b : z3) : Z := (zx a * zx b + zy a * zy b + zz a * zz b)%Z.
Definition zscale (k : Z) (a : z3) : z3 := (k * zx a, k * zy a, k * zz a)%Z.
Definition zeqb (a b : z3) : bool := ((zx a =? zx b) && (zy a =? zy b) && (zz a =? zz b))%Z.
Lemma zeqb_eq a b : zeqb a b = true <-> a = b.
Proof. destruct a as ((a, b0), c), b as ((x, y), z). unfold zeqb, zx, zy, zz. cbn [fst snd]. rewrite !andb_true_iff, !Z.eqb_eq. split; [intros ((-> & ->) & ->); auto|intros H; inversion H; auto]. Qed.
Lemma at3_eq p : at3 p = V (IZR (zx p)) (IZR (zy p)) (IZR (zz p)).
Proof. destruct p as ((x, y), z). reflexivity. Qed.
Lemma at3_sub a b : vsub (at3 a) (at3 b) = at3 (zsub a b).
Proof. rewrite !at3_eq. unfold zsub, vsub, zx, zy, zz. cbn [fst snd vx vy vz]. rewrite !minus_IZR. auto. Qed.
Lemma at3_cross a b : cross (at3 a) (at3 b) = at3 (zcross a b).
Proof. rewrite !at3_eq. unfold zcross, cross, zx, zy, zz. cbn [fst snd vx vy vz]. rewrite !minus_IZR, !mult_IZR. auto. Qed.
Lemma at3_dot a b : dot (at3 a) (at3 b) = IZR (zdot a b).
Proof. rewrite !at3_eq. unfold zdot, dot, zx, zy, zz. cbn [fst snd vx vy vz]. rewrite !plus_IZR, !mult_IZR. auto. Qed.
Lemma at3_scale k a : at3 (zscale k a) = smul (IZR k) (at3 a).
Proof. rewrite !at3_eq. unfold zscale, smul, zx, zy, zz. cbn [fst snd vx vy vz]. rewrite !mult_IZR. auto. Qed.
Lemma at3_inj a b : at3 a = at3 b -> a = b.
Proof. destruct a as ((a, b0), c), b as ((x, y), z). unfold at3. intros H. injection H as H1 H2 H3. apply eq_IZR in H1, H2, H3. congruence. Qed.

Definition small3 (p : z3) : bool := ((-20 <=? zx p) && (zx p <=? 20) && (-20 <=? zy p) && (zy p <=? 20) && (-20 <=? zz p) && (zz p <=? 20))%Z.
Lemma zsq_pos (x : Z) : (0 <= x * x)%Z. Proof. nia. Qed.
Lemma zsq_ne (x : Z) : (x <> 0 -> 1 <= x * x)%Z. Proof. intros X. destruct (Z.lt_trichotomy x 0) as [?|[?|?]]; nia. Qed.
Lemma zdot_ne a : a <> (0, 0, 0)%Z -> (1 <= zdot a a)%Z.
Proof.
  destruct a as ((a, b), c). unfold zdot, zx, zy, zz. cbn [fst snd]. intros N. pose proof (zsq_pos a). pose proof (zsq_pos b). pose proof (zsq_pos c).
  destruct (Z.eq_dec a 0) as [->|A]; [|pose proof (zsq_ne a A); lia]. destruct (Z.eq_dec b 0) as [->|B]; [|pose proof (zsq_ne b B); lia]. destruct (Z.eq_dec c 0) as [->|C]; [congruence|pose proof (zsq_ne c C); lia].
Qed.
Lemma z3_dist a b : small3 a = true -> small3 b = true -> a <> b -> 1 <= dist (at3 a) (at3 b) <= 70.
Proof.
  unfold small3. rewrite !andb_true_iff, !Z.leb_le. intros Sa Sb N. unfold dist, norm. rewrite at3_sub, at3_dot.
  assert (B1 : (1 <= zdot (zsub b a) (zsub b a))%Z). { apply zdot_ne. intros E. apply N. destruct a as ((a, a'), a''), b as ((b, b'), b''). unfold zsub, zx, zy, zz in E. cbn [fst snd] in E. injection E as E1 E2 E3. f_equal; [f_equal|]; lia. }
  assert (B2 : (zdot (zsub b a) (zsub b a) <= 4900)%Z). { destruct a as ((a, a'), a''), b as ((b, b'), b''). unfold zdot, zsub, zx, zy, zz in *. cbn [fst snd] in *. nia. }
  apply IZR_le in B1, B2. split; [rewrite <- sqrt_1; apply sqrt_le_1_alt; lra|]. replace 70 with (sqrt 4900) by (replace 4900 with (70 * 70) by lra; apply sqrt_square; lra). apply sqrt_le_1_alt. lra.
Qed.
Lemma z3_norm a : small3 a = true -> norm (at3 a) <= 40.
Proof.
  unfold small3. rewrite !andb_true_iff, !Z.leb_le. intros Sa. unfold norm. rewrite at3_dot. assert (B : (zdot a a <= 1600)%Z). { destruct a as ((a, a'), a''). unfold zdot, zx, zy, zz in *. cbn [fst snd] in *. nia. }
  apply IZR_le in B. replace 40 with (sqrt 1600) by (replace 1600 with (40 * 40) by lra; apply sqrt_square; lra). apply sqrt_le_1_alt. lra.
Qed.
Lemma z3_far v q : small3 v = true -> small3 q = true -> v <> q -> far_from (at3 v) (at3 q).
Proof. intros Sv Sq N. unfold far_from. pose proof (z3_dist v q Sv Sq N). pose proof (z3_norm v Sv). lra. Qed.
Lemma z3_equal p q : small3 p = true -> small3 q = true -> points_equal (at3 p) (at3 q) = zeqb p q.
Proof.
  intros Sp Sq. destruct (zeqb p q) eqn:E; [apply zeqb_eq in E; subst; apply points_equal_refl|]. apply far_not_close. apply z3_far; auto. intros ->. assert (zeqb p p = true) by (apply zeqb_eq; auto). congruence.
Qed.

Section Axis.
Context (u : z3) (Hu : zdot u u = 1%Z).
Lemma axis_unit : unit (at3 u).
Proof. unfold unit. rewrite at3_dot, Hu. auto. Qed.
(** Twice the signed area of a triangle in a plane perpendicular to [u]. *)
Definition zarea (a b c : z3) : Z := zdot (zcross (zsub b a) (zsub c a)) u.
Definition flat (a b c : z3) : bool := zeqb (zcross (zsub b a) (zsub c a)) (zscale (zarea a b c) u).
Lemma z3_cross a b c : flat a b c = true -> cross (vsub (at3 b) (at3 a)) (vsub (at3 c) (at3 a)) = smul (IZR (zarea a b c)) (at3 u).
Proof. unfold flat. intros H. apply zeqb_eq in H. rewrite !at3_sub, at3_cross, H, at3_scale. auto. Qed.
Lemma zcross_shift a b c : zcross (zsub b a) (zsub c b) = zcross (zsub b a) (zsub c a).
Proof. destruct a as ((a, a'), a''), b as ((b, b'), b''), c as ((c, c'), c''). unfold zcross, zsub, zx, zy, zz. cbn [fst snd]. f_equal; [f_equal|]; ring. Qed.

Definition zconvex3 (a b c : z3) : result bool := if flat a b c then Ok (0 <? zarea a b c)%Z else Err OutOfFuel.
Lemma z3_convex a b c r : zconvex3 a b c = Ok r -> ear_convex (at3 u) (at3 a) (at3 b) (at3 c) = Ok r.
Proof.
  unfold zconvex3. destruct (flat a b c) eqn:F; [|discriminate]. intros H. apply Ok_inj in H. subst r. unfold ear_convex. rewrite (corner_convex_plane _ _ _ _ (IZR (zarea a b c)) axis_unit).
  - f_equal. unfold GEOM_ATOL. destruct (Z.ltb_spec 0 (zarea a b c)) as [L|L].
    + apply Rleb_true. assert (1 <= IZR (zarea a b c)) by (apply IZR_le; lia). lra.
    + apply Rleb_false. apply IZR_le in L. lra.
  - rewrite !at3_sub, at3_cross, zcross_shift, <- at3_cross, <- !at3_sub. apply z3_cross; auto.
Qed.
Lemma z3_area a b c : flat a b c = true -> 2 * true_area (at3 a) (at3 b) (at3 c) = IZR (Z.abs (zarea a b c)).
Proof. intros F. unfold true_area. rewrite (z3_cross _ _ _ F), norm_smul, (unit_norm _ axis_unit), abs_IZR. lra. Qed.
Lemma zarea_ne a b q : zarea a b q <> 0%Z -> a <> b /\ a <> q /\ b <> q.
Proof.
  intros H. destruct u as ((x, y), z). repeat split; intros E; subst; apply H; unfold zarea, zdot, zcross, zsub, zx, zy, zz; cbn [fst snd]; ring.
Qed.
Lemma z3_off a b q : small3 a = true -> small3 b = true -> small3 q = true -> flat a b q = true -> zarea a b q <> 0%Z -> off_edge (at3 a) (at3 b) (at3 q).
Proof.
  intros Sa Sb Sq F N. destruct (zarea_ne _ _ _ N) as (N1 & N2 & _). pose proof (z3_dist a b Sa Sb N1) as D1. pose proof (z3_dist a q Sa Sq N2) as D2.
  assert (A : 1 <= IZR (Z.abs (zarea a b q))) by (apply IZR_le; lia). unfold off_edge. rewrite z3_area by auto. repeat split; try lra.
  assert (1 / 10000 * dist (at3 a) (at3 b) * dist (at3 a) (at3 q) <= 4900 / 10000) by nra. lra.
Qed.
Definition out_box (q a b c : z3) : bool :=
  existsb (fun f : z3 -> Z => ((f q <? f a) && (f q <? f b) && (f q <? f c)) || ((f a <? f q) && (f b <? f q) && (f c <? f q)))%Z [zx; zy; zz].
Lemma z3_out q a b c : out_box q a b c = true -> is_point_inside_triangle (at3 q) (at3 a) (at3 b) (at3 c) GEOM_ATOL = Ok false.
Proof.
  unfold out_box. intros H. apply existsb_exists in H. destruct H as (f & I & H).
  assert (L : forall x y : Z, (x < y)%Z -> IZR x < IZR y - 1 / 100). { intros x y XY. assert (Q : (x + 1 <= y)%Z) by lia. apply IZR_le in Q. rewrite plus_IZR in Q. lra. }
  assert (X : exists c0, In c0 [vx; vy; vz] /\ forall p, c0 (at3 p) = IZR (f p)).
  { destruct I as [<-|[<-|[<-|[]]]]; [exists vx|exists vy|exists vz]; (split; [simpl; auto|intros ((x, y), z); reflexivity]). }
  destruct X as (c0 & Ic & Ec). apply (inside_out_of_box _ _ _ _ c0 Ic). rewrite orb_true_iff, !andb_true_iff, !Z.ltb_lt in H. destruct H as [((H1 & H2) & H3)|((H1 & H2) & H3)]; [right|left].
  - intros v [<-|[<-|[<-|[]]]]; rewrite !Ec; apply L; auto.
  - apply L in H1, H2, H3. intros v [<-|[<-|[<-|[]]]]; rewrite !Ec; lra.
Qed.
Definition zinside3 (q a b c : z3) : result bool :=
  if out_box q a b c then Ok false
  else if small3 q && small3 a && small3 b && small3 c && flat a b c && flat a b q && flat b c q && flat c a q && (zdot u q =? zdot u a)%Z
    && negb (zarea a b q =? 0)%Z && negb (zarea b c q =? 0)%Z && negb (zarea c a q =? 0)%Z then
    Ok ((0 <? zarea a b q) && (0 <? zarea b c q) && (0 <? zarea c a q))%Z
  else Err OutOfFuel.
Lemma zarea_sum a b c q : (zarea a b q + zarea b c q + zarea c a q = zarea a b c)%Z.
Proof. destruct a as ((a, a'), a''), b as ((b, b'), b''), c as ((c, c'), c''), q as ((q, q'), q''), u as ((x, y), z). unfold zarea, zdot, zcross, zsub, zx, zy, zz. cbn [fst snd]. ring. Qed.
Lemma z3_inside q a b c r : zconvex3 a b c = Ok true -> zinside3 q a b c = Ok r -> ear_inside (at3 q) (at3 a) (at3 b) (at3 c) = Ok r.
Proof.
  unfold zconvex3, zinside3. intros Cv. destruct (flat a b c) eqn:F; [|discriminate]. assert (T : (0 < zarea a b c)%Z) by (inversion Cv as [Q]; apply Z.ltb_lt; auto). clear Cv.
  destruct (out_box q a b c) eqn:Ob; [intros H; apply Ok_inj in H; subst r; apply z3_out; auto|].
  match goal with |- (if ?x then _ else _) = _ -> _ => destruct x eqn:S; [|discriminate] end.
  rewrite !andb_true_iff, !negb_true_iff, !Z.eqb_neq, Z.eqb_eq in S. destruct S as (((((((((((Sq & Sa) & Sb) & Sc) & _) & F1) & F2) & F3) & Pl) & N1) & N2) & N3). intros H. apply Ok_inj in H. subst r.
  assert (A : 1 / 10000000000000 <= 2 * true_area (at3 a) (at3 b) (at3 c)). { rewrite z3_area by auto. assert (1 <= IZR (Z.abs (zarea a b c))) by (apply IZR_le; lia). lra. }
  assert (O : off_edges (at3 a) (at3 b) (at3 c) (at3 q)) by (split; [|split]; apply z3_off; auto).
  pose proof (zarea_sum a b c q) as Sum.
  assert (P : in_plane_of (at3 a) (at3 b) (at3 c) (at3 q)).
  { unfold in_plane_of. rewrite (z3_cross a b c F). rewrite dot_smul_l, at3_sub, at3_dot. assert (Q : zdot u (zsub q a) = 0%Z). { unfold zdot, zsub, zx, zy, zz in *. cbn [fst snd] in *. lia. } rewrite Q. ring. }
  unfold ear_inside. destruct ((0 <? zarea a b q) && (0 <? zarea b c q) && (0 <? zarea c a q))%Z eqn:E.
  - apply inside_complete; auto. rewrite !andb_true_iff, !Z.ltb_lt in E. destruct E as ((E1 & E2) & E3). apply IZR_lt in E1, E2, E3, T.
    assert (U1 : dot (at3 u) (at3 u) = 1) by apply axis_unit.
    apply inside_signs; auto; rewrite (z3_cross a b c F).
    + rewrite (z3_cross _ _ _ F1). rewrite dot_smul_l, (dot_comm (at3 u)), dot_smul_l, U1. nra.
    + rewrite (z3_cross _ _ _ F2). rewrite dot_smul_l, (dot_comm (at3 u)), dot_smul_l, U1. nra.
    + rewrite (z3_cross _ _ _ F3). rewrite dot_smul_l, (dot_comm (at3 u)), dot_smul_l, U1. nra.
  - destruct (inside_total (at3 a) (at3 b) (at3 c) (at3 q)) as ([|] & R); [exact A| |exact R]. exfalso.
    destruct (zarea_ne _ _ _ N1) as (_ & G1 & G2), (zarea_ne _ _ _ N2) as (_ & _ & G3).
    apply inside_sound in R; auto; try (apply z3_far; auto).
    destruct R as (x & y & z & X & Y & Z_ & S1 & Eq). destruct (inside_crosses _ _ _ _ x y z S1 Eq) as (C1 & C2 & C3).
    assert (G : forall p v w k, flat p v w = true -> cross (vsub (at3 v) (at3 p)) (vsub (at3 w) (at3 p)) = smul k (cross (vsub (at3 b) (at3 a)) (vsub (at3 c) (at3 a))) -> 0 < k -> (0 < zarea p v w)%Z).
    { intros p v w k Fl Q K. rewrite (z3_cross _ _ _ F), (z3_cross _ _ _ Fl) in Q. apply (f_equal (fun v => dot v (at3 u))) in Q. rewrite !dot_smul_l, axis_unit in Q. apply lt_IZR. apply IZR_lt in T. nra. }
    apply G in C1, C2, C3; auto. apply Z.ltb_lt in C1, C2, C3. rewrite C1, C2, C3 in E. discriminate.
Qed.
Lemma z3_vn_zero : isclose (norm (at3 u)) 0 RTOL ATOL8 = false.
Proof. rewrite (unit_norm _ axis_unit). unfold isclose. apply Rleb_false. unfold RTOL, ATOL8. rewrite Rminus_0_r, Rabs_R0, Rabs_pos_eq; lra. Qed.
Lemma z3_triangulate pts r ts : triangulate zconvex3 zinside3 false pts = Ok (r, ts) -> triangulate_pts (map at3 pts) (at3 u) = Ok (map at3 r, ts).
Proof.
  unfold triangulate_pts. rewrite z3_vn_zero. apply (triangulate_lift at3 (ear_convex (at3 u)) ear_inside zconvex3 zinside3 pts).
  - intros a b c b0 _ _ _. apply z3_convex.
  - intros q a b c b0 _ _ _ _. apply z3_inside.
Qed.
End Axis.

(** The normal of the first corner. *)
Definition axes : list z3 := [(1, 0, 0); (-1, 0, 0); (0, 1, 0); (0, -1, 0); (0, 0, 1); (0, 0, -1)]%Z.
Definition znormal (a b c : z3) : option z3 :=
  find (fun u => flat u a b c && (0 <? zarea u a b c)%Z) axes.
Lemma normal_parallel a b c u k : unit u -> 1 / 100000000 < k -> cross (vsub b a) (vsub c a) = smul k u -> normal a b c = Some u.
Proof.
  intros U K E. unfold normal. rewrite E, norm_smul, (unit_norm u U), Rabs_pos_eq, Rmult_1_r by lra. replace (isclose k 0 RTOL ATOL8) with false.
  - f_equal. dvec u. vunf. f_equal; field; lra.
  - symmetry. unfold isclose. apply Rleb_false. unfold RTOL, ATOL8. rewrite Rminus_0_r, Rabs_R0, Rabs_pos_eq; lra.
Qed.
Lemma axes_unit u : In u axes -> zdot u u = 1%Z.
Proof. intros I. repeat (destruct I as [<-|I]; [reflexivity|]). destruct I. Qed.
Lemma z3_normal a b c u : znormal a b c = Some u -> In u axes /\ normal (at3 a) (at3 b) (at3 c) = Some (at3 u).
Proof.
  unfold znormal. intros H. apply find_some in H. destruct H as (I & H). split; auto. apply andb_true_iff in H. destruct H as (F & L). apply Z.ltb_lt in L.
  apply (normal_parallel _ _ _ _ (IZR (zarea u a b c))); [apply axis_unit, axes_unit; auto| |apply z3_cross; auto]. assert (1 <= IZR (zarea u a b c)) by (apply IZR_le; lia). lra.
Qed.

(** make_polygon on integer points. *)
Definition zmake (pts : list z3) : result (list z3 * list tri * z3) :=
  match pts with
  | p0 :: p1 :: _ :: _ =>
      match znormal (last pts p0) p0 p1 with
      | Some u =>
          if forallb (fun p => (zdot u p =? zdot u p0)%Z) pts then
            do r <- triangulate (zconvex3 u) (zinside3 u) false pts; Ok (fst r, snd r, u)
          else Err OutOfFuel
      | None => Err OutOfFuel
      end
  | _ => Err OutOfFuel
  end.
Lemma last_map {A B} (f : A -> B) l d : last (map f l) (f d) = f (last l d).
Proof. induction l as [|x l IH]; auto. destruct l; auto. Qed.
Lemma plane_total pts : (2 <= length pts)%nat -> exists pc, plane_coefficients pts = Ok pc.
Proof. unfold plane_coefficients. destruct pts as [|a [|b r]]; simpl; intros; try lia. eauto. Qed.
Lemma centroid_total pts ts : ts <> [] -> (forall t, In t ts -> exists q, tri_verts pts t q) -> exists c, polygon_centroid pts ts = Ok c.
Proof.
  intros N H. assert (F : exists tss, Forall2 (tri_verts pts) ts tss).
  { clear N. induction ts as [|t ts IH]; [exists []; constructor|]. destruct IH as (tss & F); [intros; apply H; simpl; auto|]. destruct (H t) as (q & Q); [simpl; auto|]. exists (q :: tss). constructor; auto. }
  destruct F as (tss & F). rewrite (centroid_eq pts ts tss); eauto.
Qed.
Lemma tri_in_range pts vn pts' ts : triangulate_pts pts vn = Ok (pts', ts) -> (3 <= length pts)%nat -> forall t, In t ts -> exists q, tri_verts pts' t q.
Proof.
  intros H L. destruct (tri_structure pts vn pts' ts L H) as (Hp & _ & R & _). assert (Ln : length pts' = length pts) by (destruct Hp as [-> | ->]; rewrite ?rev_length; auto).
  intros ((i, j), k) I. destruct (R i j k I) as (_ & _ & _ & Li & Lj & Lk). rewrite <- Ln in Li, Lj, Lk.
  destruct (nth_error pts' i) as [a|] eqn:Ea; [|apply nth_error_None in Ea; lia]. destruct (nth_error pts' j) as [b|] eqn:Eb; [|apply nth_error_None in Eb; lia]. destruct (nth_error pts' k) as [c|] eqn:Ec; [|apply nth_error_None in Ec; lia].
  exists (a, b, c). simpl. auto.
Qed.
(** Any plane polygon whose first corner has a normal is constructed as soon
    as it can be triangulated. *)
Lemma make_ok pts pl p0 p1 n pts' ts : first_three pts = Ok (pl, p0, p1) -> (3 <= length pts)%nat -> coplanar pts -> normal pl p0 p1 = Some n -> triangulate_pts pts n = Ok (pts', ts) ->
  exists p, make_polygon pts None None = Ok p /\ p_pts p = pts' /\ p_tri p = ts /\ p_vn p = n /\ p_area p = polygon_area pts' n.
Proof.
  intros F L C N T. unfold make_polygon, check_polygon, build_polygon. rewrite (coplanar_accepted pts GEOM_ATOL); [|unfold GEOM_ATOL; lra|auto]. cbn [rbind negb]. rewrite (proj2 (Nat.ltb_ge _ _) L). cbn [rbind]. rewrite F. cbn [rbind]. rewrite N. cbn [rbind]. rewrite T. cbn [rbind].
  assert (Ln : length pts' = length pts) by (destruct (tri_structure pts n pts' ts L T) as ([-> | ->] & _); rewrite ?rev_length; auto).
  destruct (centroid_total pts' ts) as (c & Ec); [apply (tri_nonempty pts n pts' ts T L)|apply (tri_in_range pts n pts' ts T L)|]. rewrite Ec. cbn [rbind].
  destruct (plane_total pts') as (pc & Ep); [lia|]. rewrite Ep. cbn [rbind]. eexists. split; [reflexivity|]. auto.
Qed.
Lemma zmake_spec pts r ts u : zmake pts = Ok (r, ts, u) -> In u axes /\ exists p, make_polygon (map at3 pts) None None = Ok p /\ p_pts p = map at3 r /\ p_tri p = ts /\ p_vn p = at3 u.
Proof.
  destruct pts as [|p0 [|p1 [|p2 rest]]]; try discriminate. unfold zmake. destruct (znormal _ p0 p1) as [u'|] eqn:En; [|discriminate].
  destruct (forallb _ _) eqn:Fa; [|discriminate]. destruct (triangulate (zconvex3 u') (zinside3 u') false (p0 :: p1 :: p2 :: rest)) as [(r', ts')|] eqn:T; [|discriminate]. cbn [rbind fst snd]. intros H. apply Ok_inj in H. injection H as <- <- <-.
  apply z3_normal in En. destruct En as (I & En). split; auto. pose proof (axes_unit u' I) as Hu. apply (z3_triangulate u' Hu) in T.
  destruct (make_ok (map at3 (p0 :: p1 :: p2 :: rest)) (at3 (last (p0 :: p1 :: p2 :: rest) p0)) (at3 p0) (at3 p1) (at3 u') (map at3 r') ts') as (p & E & E1 & E2 & E3 & _); auto.
  - rewrite <- last_map. reflexivity.
  - rewrite map_length. simpl. lia.
  - exists (at3 u'), (IZR (zdot u' p0)). split.
    + intros E. pose proof (axis_unit u' Hu) as U. unfold unit in U. rewrite E in U. vunf. lra.
    + intros p Ip. apply in_map_iff in Ip. destruct Ip as (q & <- & Iq). rewrite forallb_forall in Fa. apply Fa in Iq. apply Z.eqb_eq in Iq. rewrite at3_dot, Iq. auto.
  - exists p. auto.
Qed.
