(** A way that meets no face of a hall does not leave it. *)
From Coq Require Import Ascii String Reals List ZArith Bool Arith Lia Lra Psatz Permutation Classical.
From Verif Require Import Prelude TreeModel VecModel VecProofs SimModel SimSpec GeomModel GeomSpec GeomProofs1 GeomProofs3 TriModel TriSpec PolyModel PolySpec SolidModel SolidSpec SolidProofs1 CrossSpec InsideSpec InsideProofs1 RoomSpec RoomProofs1 PlanSpec PlanProofs2 PlanProofs3 PlanProofs4
  WindSpec WindProofs1 LoopSpec LoopProofs5 ShellSpec HallSpec HallProofs1 HallProofs2 LocSpec StaySpec StayProofs1.
Import ListNotations.
Local Open Scope R_scope.

Lemma cut_segment p q s m : 0 <= s <= 1 -> on_segment p (seg_point p q s) m -> on_segment p q m.
Proof.
  intros Hs (t & Ht & ->). exists (t * s). split; [split; [apply Rmult_le_pos; lra|rewrite <- (Rmult_1_r 1); apply Rmult_le_compat; lra]|]. unfold seg_point. dvec p; dvec q; vunf; f_equal; ring.
Qed.
Lemma ratio_pos a b : 0 <= a -> 0 < b -> 0 <= a / b.
Proof. intros A B. unfold Rdiv. apply Rmult_le_pos; auto. left. apply Rinv_0_lt_compat; auto. Qed.
Section Hall.
Context (plan : list (R * R)) (h : R) (tr : vec) (phi : R) (name : str) (names : option (list str)) (fn cn rf rc : str) (ws : list wall_t) (t : vec).
Context (H : floor_plan plan h tr phi name names fn cn rf rc = Ok ws) (Mv : move_used tr t).
Notation fl := (corners plan 0 t phi).
Context (Sm : simple_outline fl) (Hh : 0 < h).
Lemma wall_filled e : In e (cyc_pairs fl) -> exists f n d, In (f, n, d) (sides_of ws) /\ forall x y, 0 <= x <= 1 -> 0 <= y <= 1 -> in_mesh f (vadd (vadd (fst e) (smul x (vsub (snd e) (fst e)))) (smul y (V 0 0 h))).
Proof.
  intros Ie. destruct (plan_facts _ _ _ _ _ _ _ _ _ _ _ H) as (wn & t' & fp & cp & walls & vf & vc & W & Mv' & Ew & _ & _ & _ & _ & _ & _ & _ & _ & _ & _ & _ & _ & _ & _ & _ & _ & _ & _ & _ & _ & Fo).
  assert (t' = t) as -> by (destruct Mv as [(A & ->)|(A & ->)], Mv' as [(B & ->)|(B & ->)]; auto; contradiction).
  assert (G : exists w, In w walls /\ make_polygon (wall_pts w) None None = Ok (snd (snd w)) /\ (wall_pts w = wall_over (V 0 0 h) e \/ wall_pts w = rev (wall_over (V 0 0 h) e))).
  { clear -Fo Ie. induction Fo as [|e' w es l (A & B & _) F IH]; [destruct Ie|]. destruct Ie as [->|Ie]; [exists w; simpl; auto|destruct (IH Ie) as (w' & I & X); exists w'; simpl; auto]. }
  destruct G as (w & Iw & Mk & Ho). destruct e as (a, b). cbn [fst snd] in *.
  exists (p_pts (snd (snd w)), p_tri (snd (snd w))), (p_vn (snd (snd w))), (- dot (p_vn (snd (snd w))) (hd vzero (p_pts (snd (snd w))))).
  split; [rewrite Ew; unfold sides_of; apply in_map_iff; exists w; split; auto; apply in_or_app; auto|]. intros x y Hx Hy.
  destruct Ho as [Ho|Ho]; rewrite Ho in Mk; unfold wall_over in Mk; cbn [rev app fst snd] in Mk.
  - assert (Pa : vsub (vadd b (V 0 0 h)) b = vsub (vadd a (V 0 0 h)) a) by (clear; dvec a; dvec b; vunf; f_equal; ring).
    destruct (para_made _ _ _ _ _ Mk Pa) as (Ep & _ & k & K & Cr). destruct (wall_side _ _ _ _ _ Mk Pa) as (Cv & _). rewrite Ep in Cv at 1. rewrite Ep.
    assert (Er : [a; b; vadd b (V 0 0 h); vadd a (V 0 0 h)] = rect a (vsub b a) (V 0 0 h)) by (unfold rect; clear; dvec a; dvec b; vunf; repeat (f_equal; try ring)).
    rewrite Er in *. replace (vsub (vadd a (V 0 0 h)) a) with (V 0 0 h) in Cr by (clear; dvec a; vunf; f_equal; ring).
    exact (rect_filled _ _ _ _ _ _ _ K Cr Cv x y Hx Hy).
  - assert (Pa : vsub b (vadd b (V 0 0 h)) = vsub a (vadd a (V 0 0 h))) by (clear; dvec a; dvec b; vunf; f_equal; ring).
    destruct (para_made _ _ _ _ _ Mk Pa) as (Ep & _ & k & K & Cr). destruct (wall_side _ _ _ _ _ Mk Pa) as (Cv & _). rewrite Ep in Cv at 1. rewrite Ep.
    assert (Er : [vadd a (V 0 0 h); vadd b (V 0 0 h); b; a] = rect (vadd a (V 0 0 h)) (vsub b a) (V 0 0 (- h))) by (unfold rect; clear; dvec a; dvec b; vunf; repeat (f_equal; try ring)).
    rewrite Er in *. replace (vsub (vadd b (V 0 0 h)) (vadd a (V 0 0 h))) with (vsub b a) in Cr by (clear; dvec a; dvec b; vunf; f_equal; ring). replace (vsub a (vadd a (V 0 0 h))) with (V 0 0 (- h)) in Cr by (clear; dvec a; vunf; f_equal; ring).
    replace (vadd (vadd a (smul x (vsub b a))) (smul y (V 0 0 h))) with (vadd (vadd (vadd a (V 0 0 h)) (smul x (vsub b a))) (smul (1 - y) (V 0 0 (- h)))) by (clear; dvec a; dvec b; vunf; f_equal; ring).
    apply (rect_filled _ _ _ _ _ _ _ K Cr Cv x (1 - y) Hx). lra.
Qed.
(** Points between floor and ceiling in no face are not over the outline. *)
Lemma off_walls m : vz t <= vz m <= vz t + h -> (forall f n d, In (f, n, d) (sides_of ws) -> ~ in_mesh f m) -> ~ on_outline fl (foot (vz t) m).
Proof.
  intros Z N ((a, b) & Ie & s & Hs & E). destruct (wall_filled (a, b) Ie) as (f & n & d & I & Fi). cbn [fst snd] in *. apply (N f n d I).
  replace m with (vadd (vadd a (smul s (vsub b a))) (smul ((vz m - vz t) / h) (V 0 0 h))).
  - apply Fi; auto. split; [apply ratio_pos; lra|]. apply (Rmult_le_reg_r h); auto. unfold Rdiv. rewrite Rmult_assoc, Rinv_l by lra. lra.
  - unfold foot, seg_point in E. injection E as E1 E2 E3. revert E1 E2 E3. destruct m as [m1 m2 m3], a as [a1 a2 a3], b as [b1 b2 b3]. vunf. intros E1 E2 E3. f_equal; [lra|lra|]. replace ((m3 - vz t) / h * h) with (m3 - vz t) by (field; lra). lra.
Qed.
Lemma walk p m : (forall y, on_segment p m y -> vz t <= vz y <= vz t + h) -> (forall f n d y, In (f, n, d) (sides_of ws) -> on_segment p m y -> ~ in_mesh f y) ->
  winding ez (V 1 0 0) (foot (vz t) p) fl = winding ez (V 1 0 0) (foot (vz t) m) fl.
Proof.
  intros Z N. apply (winding_move ez (- vz t)); auto using turn_two.
  - unfold unit, ez. vunf. ring.
  - intros v I. unfold on_plane. rewrite dot_ez, (fl_z plan phi t v I). ring.
  - unfold on_plane. rewrite dot_ez. unfold foot. cbn [vz]. ring.
  - unfold on_plane. rewrite dot_ez. unfold foot. cbn [vz]. ring.
  - intros y (s & Hs & ->). replace (seg_point (foot (vz t) p) (foot (vz t) m) s) with (foot (vz t) (seg_point p m s)) by (unfold seg_point, foot; clear; dvec p; dvec m; vunf; f_equal; ring).
    assert (Sg : on_segment p m (seg_point p m s)) by (exists s; auto). apply off_walls; [apply Z; auto|]. intros f n d I. apply (N f n d _ I Sg).
Qed.
Lemma hall_keeps p p' : occupies (AHall plan h t phi) p -> (forall f n d m, In (f, n, d) (sides_of ws) -> on_segment p p' m -> ~ in_mesh f m) -> occupies (AHall plan h t phi) p'.
Proof.
  intros (Zp & Wp) N. cbn [occupies].
  assert (Go : forall s, 0 <= s <= 1 -> vz t <= vz (seg_point p p' s) <= vz t + h -> winding ez (V 1 0 0) (foot (vz t) (seg_point p p' s)) fl <> 0%Z /\ ~ on_outline fl (foot (vz t) (seg_point p p' s))).
  { intros s Hs Zs. assert (Sub : forall y, on_segment p (seg_point p p' s) y -> on_segment p p' y) by (intros y; apply cut_segment; auto). split.
    - rewrite <- (walk p (seg_point p p' s)); auto.
      + intros y (r & Hr & ->). set (m := seg_point p p' s) in *. clearbody m. revert Zp Zs. destruct p as [p1 p2 p3], m as [m1 m2 m3]. unfold seg_point. vunf. clear -Hr. nra.
      + intros f n d y I Sy. apply (N f n d); auto.
    - apply off_walls; auto. intros f n d I. apply (N f n d _ I). exists s; auto. }
  destruct (plan_parts plan h tr phi name names fn cn rf rc ws t H Mv Sm) as (walls & fp & cp & vf & vc & Sf & Sc & _ & Efs & HF & HC & _ & T & ((Cov & _) & _)).
  assert (Zs : forall s, vz (seg_point p p' s) = vz p + s * (vz p' - vz p)) by (intros s; unfold seg_point; clear; dvec p; dvec p'; vunf; ring).
  assert (Lo : vz t < vz p').
  { apply Rnot_le_lt. intros Le. set (s := (vz p - vz t) / (vz p - vz p')).
    assert (Hs : 0 <= s <= 1) by (unfold s; split; [apply ratio_pos; lra|apply (Rmult_le_reg_r (vz p - vz p')); [lra|]; unfold Rdiv; rewrite Rmult_assoc, Rinv_l by lra; lra]).
    assert (Ez : vz (seg_point p p' s) = vz t) by (rewrite Zs; unfold s; field; lra). destruct (Go s Hs) as (W & O); [rewrite Ez; lra|].
    assert (Ef : foot (vz t) (seg_point p p' s) = seg_point p p' s) by (rewrite <- Ez; unfold foot; destruct (seg_point p p' s); reflexivity). rewrite Ef in W, O.
    destruct (Cov (p_pts (snd fp), p_tri (snd fp)) (V 0 0 vf) (- dot (V 0 0 vf) (hd vzero (p_pts (snd fp))))) as (Cv & SmF); [rewrite Efs; apply in_or_app; right; left; reflexivity|].
    apply (N (p_pts (snd fp), p_tri (snd fp)) (V 0 0 vf) (- dot (V 0 0 vf) (hd vzero (p_pts (snd fp)))) (seg_point p p' s)); [rewrite Efs; apply in_or_app; right; left; reflexivity|exists s; auto|].
    apply (level_mesh _ vf _ fl (vz t) _ (V 1 0 0) Cv Sf SmF HF); auto using turn_two. intros v I. apply (fl_z plan phi t v I). }
  assert (Hi : vz p' < vz t + h).
  { apply Rnot_le_lt. intros Le. set (s := (vz t + h - vz p) / (vz p' - vz p)).
    assert (Hs : 0 <= s <= 1) by (unfold s; split; [apply ratio_pos; lra|apply (Rmult_le_reg_r (vz p' - vz p)); [lra|]; unfold Rdiv; rewrite Rmult_assoc, Rinv_l by lra; lra]).
    assert (Ez : vz (seg_point p p' s) = vz t + h) by (rewrite Zs; unfold s; field; lra). destruct (Go s Hs) as (W & O); [rewrite Ez; lra|].
    assert (Ef : up_by h (foot (vz t) (seg_point p p' s)) = seg_point p p' s) by (rewrite foot_up, <- Ez; unfold foot; destruct (seg_point p p' s); reflexivity).
    destruct (Cov (p_pts (snd cp), p_tri (snd cp)) (V 0 0 vc) (- dot (V 0 0 vc) (hd vzero (p_pts (snd cp))))) as (Cv & SmC); [rewrite Efs; apply in_or_app; right; right; left; reflexivity|].
    apply (N (p_pts (snd cp), p_tri (snd cp)) (V 0 0 vc) (- dot (V 0 0 vc) (hd vzero (p_pts (snd cp)))) (seg_point p p' s)); [rewrite Efs; apply in_or_app; right; right; left; reflexivity|exists s; auto|].
    apply (level_mesh _ vc _ (map (up_by h) fl) (vz t + h) _ (V 1 0 0) Cv Sc SmC HC); auto using turn_two.
    - intros v I. apply in_map_iff in I. destruct I as (v0 & <- & I). unfold up_by. vunf. rewrite (fl_z plan phi t v0 I). ring.
    - intros O'. apply O. destruct O' as ((a, b) & I & r & Hr & E). rewrite <- cyc_pairs_map in I. apply in_map_iff in I. destruct I as ((a0, b0) & E0 & I). injection E0 as <- <-. exists (a0, b0). split; auto. exists r. split; auto. cbn [fst snd] in *. rewrite <- Ef in E. set (q := foot (vz t) (seg_point p p' s)) in *. clearbody q. revert E. unfold up_by, seg_point. clear. destruct q as [q1 q2 q3], a0 as [a1 a2 a3], b0 as [b1 b2 b3]. vunf. intros E. injection E as E1 E2 E3. f_equal; lra.
    - rewrite <- Ef, winding_up. exact W. }
  split; [lra|]. destruct (Go 1) as (W & _); [lra|rewrite Zs; lra|]. replace (seg_point p p' 1) with p' in W by (unfold seg_point; clear; dvec p; dvec p'; vunf; f_equal; ring). exact W.
Qed.
End Hall.
