(** Evaluation of the point tests and locations on integer points in planes
    perpendicular to an axis. *)
From Coq Require Import Reals List Bool Arith Lia Lra ZArith Permutation.
From Verif Require Import Prelude VecModel VecProofs GeomModel GeomSpec GeomProofs1 GeomProofs2 GeomProofs3 GeomProofs4 GeomProofs5 TriModel TriSpec TriProofs TriProofs2 TriProofs3 PolyModel PolySpec PolyProofs1 PolyProofs2 SliceModel SliceSpec.
Import ListNotations.
Local Open Scope R_scope.

Definition coords : list (z3 -> Z) := [zx; zy; zz].
Definition zoutbox (q : z3) (l : list z3) : bool :=
  existsb (fun f => forallb (fun p => (f q <? f p)%Z) l || forallb (fun p => (f p <? f q)%Z) l) coords.
Lemma coord_of c : In c [vx; vy; vz] -> exists f, In f coords /\ forall p, c (at3 p) = IZR (f p).
Proof. intros [<-|[<-|[<-|[]]]]; [exists zx|exists zy|exists zz]; (split; [simpl; auto|intros ((x, y), z); reflexivity]). Qed.
Lemma of_coord f : In f coords -> exists c, In c [vx; vy; vz] /\ forall p, c (at3 p) = IZR (f p).
Proof. intros [<-|[<-|[<-|[]]]]; [exists vx|exists vy|exists vz]; (split; [simpl; auto|intros ((x, y), z); reflexivity]). Qed.
Lemma IZR_step x y : (x < y)%Z -> IZR x <= IZR y - 1.
Proof. intros L. assert (Q : (x + 1 <= y)%Z) by lia. apply IZR_le in Q. rewrite plus_IZR in Q. lra. Qed.
Lemma not_all {A} (g : A -> bool) l : forallb g l = false -> exists x, In x l /\ g x = false.
Proof. induction l as [|x l IH]; cbn [forallb]; [discriminate|]. destruct (g x) eqn:E; cbn [andb]; [intros H; destruct (IH H) as (y & ? & ?); exists y; simpl; auto|intros _; exists x; simpl; auto]. Qed.
Lemma z_bbox q l : l <> [] -> is_point_inside_bbox (at3 q) (map at3 l) (1 / 100) = Ok (negb (zoutbox q l)).
Proof.
  intros N. destruct (inside_bbox_spec (at3 q) (map at3 l) (1 / 100)) as (b & E & S); [destruct l; [congruence|discriminate]|]. rewrite E. f_equal. destruct (zoutbox q l) eqn:Z; cbn [negb].
  - apply not_true_is_false. intros Hb. pose proof (proj1 S Hb) as B. unfold zoutbox in Z. apply existsb_exists in Z. destruct Z as (f & If & Z). destruct (of_coord f If) as (c & Ic & Ec). destruct (B c Ic) as ((p & Ip & P1) & (p' & Ip' & P2)). apply in_map_iff in Ip, Ip'. destruct Ip as (r & <- & Ir), Ip' as (r' & <- & Ir'). rewrite !Ec in *.
    apply orb_true_iff in Z. rewrite !forallb_forall in Z. destruct Z as [Z|Z].
    + specialize (Z r Ir). apply Z.ltb_lt, IZR_step in Z. lra.
    + specialize (Z r' Ir'). apply Z.ltb_lt, IZR_step in Z. lra.
  - apply S. intros c Ic. destruct (coord_of c Ic) as (f & If & Ec). assert (Q : forallb (fun p => (f q <? f p)%Z) l = false /\ forallb (fun p => (f p <? f q)%Z) l = false).
    { apply orb_false_iff. destruct (forallb _ _ || forallb _ _) eqn:D; auto. exfalso. assert (X : zoutbox q l = true) by (unfold zoutbox; apply existsb_exists; exists f; auto). congruence. }
    destruct Q as (Q1 & Q2). apply not_all in Q1, Q2. destruct Q1 as (p & Ip & P), Q2 as (p' & Ip' & P'). apply Z.ltb_ge, IZR_le in P, P'. split; [exists (at3 p)|exists (at3 p')]; (split; [apply in_map; auto|rewrite !Ec; lra]).
Qed.
Definition zbetween (q a b : z3) : bool := forallb (fun f => ((Z.min (f a) (f b) <=? f q) && (f q <=? Z.max (f a) (f b)))%Z) coords.
Lemma round8_z z : round8 (IZR z) = IZR z.
Proof. apply (round8_int (z * 100000000)). rewrite mult_IZR. field. Qed.
Lemma Rmax_IZR x y : Rmax (IZR x) (IZR y) = IZR (Z.max x y).
Proof. destruct (Z.le_ge_cases x y) as [L|L]; [rewrite Z.max_r, Rmax_right|rewrite Z.max_l, Rmax_left]; auto; apply IZR_le; lia. Qed.
Lemma Rmin_IZR x y : Rmin (IZR x) (IZR y) = IZR (Z.min x y).
Proof. destruct (Z.le_ge_cases x y) as [L|L]; [rewrite Z.min_l, Rmin_left|rewrite Z.min_r, Rmin_right]; auto; apply IZR_le; lia. Qed.
Lemma z_box q a b : within_edge_box (at3 q) (at3 a) (at3 b) GEOM_ATOL = zbetween q a b.
Proof.
  assert (O : forall x y t, (Rltb (Rmax (round8 (IZR x)) (round8 (IZR y)) + GEOM_ATOL) (round8 (IZR t)) || Rltb (round8 (IZR t)) (Rmin (round8 (IZR x)) (round8 (IZR y)) - GEOM_ATOL)) = negb ((Z.min x y <=? t) && (t <=? Z.max x y))%Z).
  { intros x y t. rewrite !round8_z, Rmax_IZR, Rmin_IZR. destruct (Z.leb_spec (Z.min x y) t) as [L1|L1]; [destruct (Z.leb_spec t (Z.max x y)) as [L2|L2]|]; cbn [andb negb].
    - apply orb_false_iff. apply IZR_le in L1, L2. unfold GEOM_ATOL. split; apply Rltb_false; lra.
    - apply orb_true_iff. left. apply IZR_step in L2. apply Rltb_true. unfold GEOM_ATOL. lra.
    - apply orb_true_iff. right. apply IZR_step in L1. apply Rltb_true. unfold GEOM_ATOL. lra. }
  unfold within_edge_box. rewrite !at3_eq. cbn [vx vy vz]. rewrite !O. unfold zbetween, coords. cbn [forallb]. rewrite !negb_orb, !negb_involutive, andb_true_r, !andb_assoc. auto.
Qed.

Section Plane.
Context (u : z3) (Hu : zdot u u = 1%Z).
Lemma z_col a b q : small3 a = true -> small3 b = true -> small3 q = true -> a <> b -> a <> q -> flat u a b q = true -> zarea u a b q = 0%Z -> are_points_collinear [at3 a; at3 b; at3 q] GEOM_ATOL = Ok true.
Proof.
  intros Sa Sb Sq Nb Nq F Z. pose proof (z3_cross u a b q F) as C. rewrite Z in C. pose proof (z3_dist a b Sa Sb Nb) as D1. pose proof (z3_dist a q Sa Sq Nq) as D2. unfold dist in *. set (v := vsub (at3 b) (at3 a)) in *. set (w := vsub (at3 q) (at3 a)) in *.
  assert (C0 : cross v w = vzero) by (rewrite C; unfold vzero; dvec (at3 u); vunf; f_equal; ring). assert (Nv : norm v <> 0) by lra. pose proof (unit_vdiv v Nv) as U. set (d := vdiv v (norm v)) in *.
  assert (Ev : v = smul (norm v) d) by (unfold d; dvec v; vunf; f_equal; field; auto).
  assert (Q : smul (dot v v) w = smul (dot v w) v).
  { replace (smul (dot v v) w) with (vsub (smul (dot v w) v) (cross v (cross v w))) by (clear; dvec v; dvec w; vunf; f_equal; ring). rewrite C0. clear. dvec v. dvec w. unfold vzero. vunf. f_equal; ring. }
  set (k := dot v w / norm v). assert (Ew : w = smul k d).
  { unfold k, d. rewrite <- norm_sq in Q. clearbody v w. clear - Q Nv. set (n := norm v) in *. set (x := dot v w) in *. clearbody n x. dvec v. dvec w. vunf. injection Q as Q1 Q2 Q3. f_equal; apply (Rmult_eq_reg_l (n * n)); try (intros E; apply Nv; nra); rewrite ?Q1, ?Q2, ?Q3; field; auto. }
  assert (Nk : Rabs k = norm w) by (rewrite Ew, norm_smul, (unit_norm _ U); ring).
  assert (E : [at3 a; at3 b; at3 q] = at3 a :: map (fun k => vadd (at3 a) (smul k d)) [norm v; k]).
  { cbn [map]. rewrite <- Ev, <- Ew. unfold v, w. f_equal. f_equal; [|f_equal]; rewrite !at3_eq; vunf; f_equal; ring. }
  rewrite E. apply collinear_accepted; auto; [unfold GEOM_ATOL; lra|]. intros z [<-|[<-|[]]]; [rewrite Rabs_pos_eq by lra|rewrite Nk]; unfold EPSILON; lra.
Qed.
Fixpoint zedge (q : z3) (es : list (z3 * z3)) : result (option bool) :=
  match es with
  | [] => Ok None
  | (a, b) :: r =>
      if small3 a && small3 b && small3 q && flat u a b q && negb (zeqb a b) && negb (zeqb a q) then
        if (zarea u a b q =? 0)%Z then Ok (Some (zbetween q a b)) else zedge q r
      else Err OutOfFuel
  end.
Definition both (e : z3 * z3) : vec * vec := (at3 (fst e), at3 (snd e)).
Lemma zeqb_ne a b : zeqb a b = false -> a <> b.
Proof. intros E ->. assert (zeqb b b = true) by (apply zeqb_eq; auto). congruence. Qed.
Lemma z_edge q es r : zedge q es = Ok r -> edge_verdict (at3 q) GEOM_ATOL (map both es) = Ok r.
Proof.
  induction es as [|(a, b) es IH]; cbn [zedge map edge_verdict both fst snd]; [auto|]. match goal with |- (if ?c then _ else _) = _ -> _ => destruct c eqn:C; [|discriminate] end.
  rewrite !andb_true_iff, !negb_true_iff in C. destruct C as (((((Sa & Sb) & Sq) & F) & Nb) & Nq). apply zeqb_ne in Nb, Nq. destruct (Z.eqb_spec (zarea u a b q) 0) as [Z|Z].
  - rewrite (z_col a b q) by auto. cbn [rbind]. rewrite z_box. auto.
  - rewrite (off_edge_not_collinear (at3 a) (at3 b) (at3 q)) by (apply (z3_off u Hu); auto). cbn [rbind]. auto.
Qed.
Definition ztri (q a b c : z3) : result bool :=
  if zoutbox q [a; b; c] then Ok false
  else if zeqb q a || zeqb q b || zeqb q c then Ok true
  else if small3 q && small3 a && small3 b && small3 c then
    match zconvex3 u a b c with
    | Ok true =>
        match zedge q [(a, b); (b, c); (c, a)] with
        | Ok (Some r) => Ok r
        | Ok None => zinside3 u q a b c
        | Err e => Err e
        end
    | _ => Err OutOfFuel
    end
  else Err OutOfFuel.
Lemma z_tri q a b c r : ztri q a b c = Ok r -> is_point_inside_triangle (at3 q) (at3 a) (at3 b) (at3 c) GEOM_ATOL = Ok r.
Proof.
  unfold ztri. destruct (zoutbox q [a; b; c]) eqn:O.
  - intros H. apply Ok_inj in H. subst r. unfold is_point_inside_triangle. change [at3 a; at3 b; at3 c] with (map at3 [a; b; c]). rewrite (z_bbox q [a; b; c]) by discriminate. rewrite O. reflexivity.
  - destruct (zeqb q a || zeqb q b || zeqb q c) eqn:E.
    + intros H. apply Ok_inj in H. subst r. apply inside_vertex. rewrite !orb_true_iff, !zeqb_eq in E. simpl. destruct E as [[->| ->]| ->]; auto.
    + destruct (small3 q && small3 a && small3 b && small3 c) eqn:S; [|discriminate]. rewrite !andb_true_iff in S. destruct S as (((Sq & Sa) & Sb) & Sc). destruct (zconvex3 u a b c) as [[|]|] eqn:Cv; try discriminate.
      destruct (zedge q _) as [[v|]|] eqn:Ed; try discriminate; intros H.
      * apply Ok_inj in H. subst v. apply z_edge in Ed. unfold is_point_inside_triangle. change [at3 a; at3 b; at3 c] with (map at3 [a; b; c]). rewrite (z_bbox q [a; b; c]) by discriminate. rewrite O. cbn [negb rbind]. rewrite !orb_false_iff in E. destruct E as ((E1 & E2) & E3).
        change (allclose (at3 q) (at3 a) RTOL GEOM_ATOL) with (points_equal (at3 q) (at3 a)). change (allclose (at3 q) (at3 b) RTOL GEOM_ATOL) with (points_equal (at3 q) (at3 b)). change (allclose (at3 q) (at3 c) RTOL GEOM_ATOL) with (points_equal (at3 q) (at3 c)).
        rewrite !z3_equal, E1, E2, E3 by auto. cbn [orb]. unfold both in Ed. cbn [map fst snd] in Ed. rewrite Ed. reflexivity.
      * apply (z3_inside u Hu q a b c r Cv H).
Qed.
Fixpoint zloop (q : z3) (pts : list z3) (ts : list tri) : result bool :=
  match ts with
  | [] => Ok false
  | (i, j, k) :: r =>
      match nth_error pts i, nth_error pts j, nth_error pts k with
      | Some a, Some b, Some c => do x <- ztri q a b c; if x then Ok true else zloop q pts r
      | _, _, _ => Err OutOfFuel
      end
  end.
Lemma z_loop q pts ts r : zloop q pts ts = Ok r -> inside_loop (at3 q) (map at3 pts) true GEOM_ATOL ts = Ok r.
Proof.
  induction ts as [|((i, j), k) ts IH]; cbn [zloop inside_loop]; auto. unfold tri_pts. rewrite !nth_error_map. destruct (nth_error pts i) as [a|]; [|discriminate]. destruct (nth_error pts j) as [b|]; [|discriminate]. destruct (nth_error pts k) as [c|]; [|discriminate]. cbn [option_map rbind].
  destruct (ztri q a b c) as [x|] eqn:E; [|discriminate]. cbn [rbind]. rewrite (z_tri _ _ _ _ _ E). cbn [rbind]. destruct x; auto.
Qed.
Definition zplane (pts : list z3) : bool := match pts with [] => false | p0 :: _ => forallb (fun p => (zdot u p =? zdot u p0)%Z) pts end.
Lemma z_coplanar pts : zplane pts = true -> coplanar (map at3 pts).
Proof.
  unfold zplane. destruct pts as [|p0 r]; [discriminate|]. intros F. exists (at3 u), (IZR (zdot u p0)). split.
  - intros E. pose proof (axis_unit u Hu) as U. unfold unit in U. rewrite E in U. unfold vzero in U. vunf. lra.
  - intros p Ip. apply in_map_iff in Ip. destruct Ip as (q & <- & Iq). rewrite forallb_forall in F. apply F in Iq. apply Z.eqb_eq in Iq. rewrite at3_dot, Iq. auto.
Qed.
Definition zinside (q : z3) (pts : list z3) (ts : list tri) : result bool :=
  match pts with
  | [] => Err OutOfFuel
  | _ => if zoutbox q pts then Ok false else if zplane (pts ++ [q]) then zloop q pts ts else Err OutOfFuel
  end.
Lemma z_inside q pts ts r : zinside q pts ts = Ok r -> is_point_inside (at3 q) (map at3 pts) ts true GEOM_ATOL = Ok r.
Proof.
  unfold zinside. destruct pts as [|p0 l] eqn:Ep; [discriminate|]. rewrite <- Ep. intros H. unfold is_point_inside. rewrite z_bbox by (rewrite Ep; discriminate). destruct (zoutbox q pts); cbn [negb rbind]; auto. destruct (zplane (pts ++ [q])) eqn:P; [|discriminate].
  replace (map at3 pts ++ [at3 q]) with (map at3 (pts ++ [q])) by (rewrite map_app; auto). rewrite coplanar_accepted; [|unfold GEOM_ATOL; lra|apply z_coplanar; auto]. cbn [rbind negb]. apply z_loop. auto.
Qed.
(** Distance from an edge. *)
Definition zon (q a b : z3) : result bool :=
  if small3 a && small3 b && small3 q && flat u a b q && negb (zeqb a b) then Ok ((zarea u a b q =? 0)%Z && zbetween q a b) else Err OutOfFuel.
Lemma z_dist q a b r : zon q a b = Ok r -> exists d, distance_point_to_edge (at3 q) (at3 a) (at3 b) = Ok d /\ 0 <= d /\ (if r then d <= 0 else 1 / 100 <= d).
Proof.
  unfold zon. match goal with |- (if ?c then _ else _) = _ -> _ => destruct c eqn:C; [|discriminate] end. rewrite !andb_true_iff, !negb_true_iff in C. destruct C as ((((Sa & Sb) & Sq) & F) & Nb). apply zeqb_ne in Nb. intros H. apply Ok_inj in H.
  destruct (dist_edge_min (at3 q) (at3 a) (at3 b)) as (d & E & (s & Os & Ed) & Mn); [intros X; apply Nb; apply at3_inj; auto|]. exists d. split; [exact E|]. subst r.
  pose proof (z3_dist a b Sa Sb Nb) as Dab. pose proof (z3_cross u a b q F) as Cr.
  assert (Dp : 0 <= d) by (rewrite Ed; apply norm_pos). split; [exact Dp|].
  destruct (Z.eqb_spec (zarea u a b q) 0) as [Z|Z]; cbn [andb].
  - destruct (zbetween q a b) eqn:B.
    + assert (On : on_segment (at3 a) (at3 b) (at3 q)).
      { rewrite Z in Cr. set (v := vsub (at3 b) (at3 a)) in *. set (w := vsub (at3 q) (at3 a)) in *. assert (C0 : cross v w = vzero) by (rewrite Cr; unfold vzero; dvec (at3 u); vunf; f_equal; ring).
        assert (Q : smul (dot v v) w = smul (dot v w) v).
        { replace (smul (dot v v) w) with (vsub (smul (dot v w) v) (cross v (cross v w))) by (clear; dvec v; dvec w; vunf; f_equal; ring). rewrite C0. clear. dvec v. dvec w. unfold vzero. vunf. f_equal; ring. }
        assert (Pv : 0 < dot v v). { destruct (Rle_lt_or_eq_dec _ _ (dot_pos v)) as [|E0]; auto. exfalso. unfold dist, norm in Dab. fold v in Dab. rewrite <- E0, sqrt_0 in Dab. lra. }
        set (t := dot v w / dot v v). assert (Ew : w = smul t v).
        { unfold t. clearbody v w. clear - Q Pv. set (n := dot v v) in *. set (x := dot v w) in *. clearbody n x. dvec v. dvec w. vunf. injection Q as Q1 Q2 Q3. f_equal; apply (Rmult_eq_reg_l n); try lra; rewrite ?Q1, ?Q2, ?Q3; field; lra. }
        assert (T : t * (t - 1) <= 0).
        { assert (G : forall f c, In f coords -> (forall p, c (at3 p) = IZR (f p)) -> (c (at3 q) - c (at3 a)) * (c (at3 q) - c (at3 b)) <= 0).
          { intros f c If Ec. unfold zbetween in B. rewrite forallb_forall in B. specialize (B f If). apply andb_true_iff in B. destruct B as (B1 & B2). apply Z.leb_le in B1, B2. rewrite !Ec, <- !minus_IZR, <- mult_IZR. apply IZR_le. destruct (Z.le_ge_cases (f a) (f b)); [rewrite Z.min_l in B1 by lia; rewrite Z.max_r in B2 by lia|rewrite Z.min_r in B1 by lia; rewrite Z.max_l in B2 by lia]; nia. }
          pose proof (G zx vx ltac:(simpl; auto) ltac:(intros ((x, y), z); reflexivity)) as G1. pose proof (G zy vy ltac:(simpl; auto) ltac:(intros ((x, y), z); reflexivity)) as G2. pose proof (G zz vz ltac:(simpl; auto) ltac:(intros ((x, y), z); reflexivity)) as G3.
          assert (S : dot w (vsub w v) <= 0). { unfold w, v. clear - G1 G2 G3. dvec (at3 a). dvec (at3 b). dvec (at3 q). vunf. lra. }
          rewrite Ew in S. replace (dot (smul t v) (vsub (smul t v) v)) with (t * (t - 1) * dot v v) in S by (clear; dvec v; vunf; ring). apply (Rmult_le_reg_r (dot v v)); auto. lra. }
        exists t. split; [nra|]. clear - Ew. unfold v, w, seg_point in *. dvec (at3 a). dvec (at3 b). dvec (at3 q). vunf. injection Ew as E1 E2 E3. f_equal; lra. }
      specialize (Mn _ On). unfold dist in Mn. replace (vsub (at3 q) (at3 q)) with vzero in Mn by (rewrite at3_eq; vunf; unfold vzero; f_equal; ring). rewrite (proj2 (norm_zero vzero) eq_refl) in Mn. exact Mn.
    + unfold zbetween in B. apply not_all in B. destruct B as (f & If & B). destruct (of_coord f If) as (c & Ic & Ec). destruct Os as (t & T & ->).
      assert (Cs : c (seg_point (at3 a) (at3 b) t) = (1 - t) * IZR (f a) + t * IZR (f b)). { rewrite <- !Ec. clear - Ic. unfold seg_point. dvec (at3 a). dvec (at3 b). destruct Ic as [<-|[<-|[<-|[]]]]; vunf; ring. }
      pose proof (coord_le_norm c (vsub (seg_point (at3 a) (at3 b) t) (at3 q)) Ic) as L. rewrite Ed. unfold dist.
      replace (c (vsub (seg_point (at3 a) (at3 b) t) (at3 q))) with (c (seg_point (at3 a) (at3 b) t) - c (at3 q)) in L by (clear - Ic; destruct Ic as [<-|[<-|[<-|[]]]]; reflexivity). rewrite Cs, Ec in L.
      apply andb_false_iff in B. rewrite !Z.leb_gt in B.
      assert (H : 1 <= Rabs ((1 - t) * IZR (f a) + t * IZR (f b) - IZR (f q))); [|lra]. destruct B as [B|B].
      * assert (B1 : (f q < f a)%Z) by lia. assert (B2 : (f q < f b)%Z) by lia. apply IZR_step in B1, B2. rewrite Rabs_pos_eq; nra.
      * assert (B1 : (f a < f q)%Z) by lia. assert (B2 : (f b < f q)%Z) by lia. apply IZR_step in B1, B2. rewrite Rabs_left1; nra.
  - destruct Os as (t & T & ->). set (v := vsub (at3 b) (at3 a)) in *. set (w := vsub (at3 q) (at3 a)) in *.
    assert (X : cross v w = cross v (vsub (at3 q) (seg_point (at3 a) (at3 b) t))) by (unfold v, w, seg_point; clear; dvec (at3 a); dvec (at3 b); dvec (at3 q); vunf; f_equal; ring).
    pose proof (cross_norm_le v (vsub (at3 q) (seg_point (at3 a) (at3 b) t))) as L. rewrite <- X, Cr, norm_smul, (unit_norm _ (axis_unit u Hu)), Rmult_1_r, <- abs_IZR in L. assert (A : 1 <= IZR (Z.abs (zarea u a b q))) by (apply IZR_le; lia).
    assert (Dd : norm (vsub (at3 q) (seg_point (at3 a) (at3 b) t)) = d) by (rewrite Ed; unfold dist; apply norm_dot_eq; clear; dvec (at3 q); dvec (seg_point (at3 a) (at3 b) t); vunf; ring). rewrite Dd in L. unfold dist in Dab. fold v in Dab. nra.
Qed.
Lemma z_on q a b r : zon q a b = Ok r -> (do d <- distance_point_to_edge (at3 q) (at3 a) (at3 b); Ok (isclose d 0 RTOL ATOL8)) = Ok r.
Proof.
  intros H. destruct (z_dist q a b r H) as (d & E & P & D). rewrite E. cbn [rbind]. f_equal. unfold isclose. destruct r; [apply Rleb_true|apply Rleb_false]; unfold RTOL, ATOL8; rewrite Rminus_0_r, Rabs_R0, Rabs_pos_eq; lra.
Qed.
Definition zlocate (pts : list z3) (ts : list tri) (q : z3) : result location :=
  if forallb small3 (q :: pts) then
    do i <- zinside q pts ts;
    if negb i then Ok Exterior
    else match first_index (zeqb q) pts 0 with
      | Some v => Ok (AtVertex v)
      | None => do e <- first_index_m (fun e => zon q (fst e) (snd e)) (cyc_pairs pts) 0; Ok (match e with Some k => AtEdge k | None => Interior end)
      end
  else Err OutOfFuel.
Lemma first_index_map {A B} (f : A -> B) g h l : (forall x, In x l -> g (f x) = h x) -> forall i, first_index g (map f l) i = first_index h l i.
Proof. induction l as [|x l IH]; intros H i; cbn [map first_index]; auto. rewrite H by (simpl; auto). rewrite IH; auto. intros; apply H; simpl; auto. Qed.
Lemma first_index_m_map {A B} (f : A -> B) g h l : (forall x r, h x = Ok r -> g (f x) = Ok r) -> forall i r, first_index_m h l i = Ok r -> first_index_m g (map f l) i = Ok r.
Proof. intros H. induction l as [|x l IH]; intros i r; cbn [map first_index_m]; auto. destruct (h x) as [b|] eqn:E; [|discriminate]. rewrite (H _ _ E). cbn [rbind]. destruct b; auto. Qed.
Lemma cyc_map_both pts : cyc_pairs (map at3 pts) = map both (cyc_pairs pts).
Proof. rewrite cyc_pairs_map. reflexivity. Qed.
Lemma z_locate pts ts q l : zlocate pts ts q = Ok l -> locate_point (cyc_pairs (map at3 pts)) (map at3 pts) ts (at3 q) = Ok l.
Proof.
  unfold zlocate, locate_point. destruct (forallb small3 (q :: pts)) eqn:S; [|discriminate]. destruct (zinside q pts ts) as [i|] eqn:I; [|discriminate]. rewrite (z_inside _ _ _ _ I). cbn [rbind]. destruct i; cbn [negb]; auto.
  cbn [forallb] in S. apply andb_true_iff in S. destruct S as (Sq & Sp). rewrite forallb_forall in Sp. rewrite (first_index_map at3 (points_equal (at3 q)) (zeqb q) pts) by (intros x Ix; apply z3_equal; auto).
  destruct (first_index (zeqb q) pts 0); auto. destruct (first_index_m _ (cyc_pairs pts) 0) as [e|] eqn:E; [|discriminate]. rewrite cyc_map_both. cbn [rbind].
  rewrite (first_index_m_map both _ (fun e => zon q (fst e) (snd e)) (cyc_pairs pts)) with (r := e); auto; [cbn [rbind]; intros <-; destruct e; auto|].
  intros (a, b) r. cbn [fst snd both]. apply z_on.
Qed.
Definition zlocs (pts : list z3) (ts : list tri) (chain : list z3) : result (list location) := mapM (zlocate pts ts) chain.
Lemma z_locs pts ts chain ls : chain <> [] -> zlocs pts ts chain = Ok ls -> locate_points (cyc_pairs (map at3 pts)) (map at3 pts) ts (map at3 chain) = Ok ls.
Proof.
  intros N H. unfold locate_points. destruct (map at3 chain) as [|c r] eqn:E; [destruct chain; [congruence|discriminate]|]. rewrite <- E. clear E N c r. revert ls H. unfold zlocs. induction chain as [|x chain IH]; intros ls; cbn [mapM map]; auto.
  destruct (zlocate pts ts x) as [l|] eqn:L; [|discriminate]. cbn [rbind]. destruct (mapM (zlocate pts ts) chain) as [ls'|] eqn:M; [|discriminate]. cbn [rbind]. intros H. rewrite (z_locate _ _ _ _ L). cbn [rbind]. rewrite (IH _ eq_refl). auto.
Qed.
End Plane.
