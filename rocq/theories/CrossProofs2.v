(** Crossing and touching polygons: decided cases on integer points. *)
From Coq Require Import Reals List Bool Arith Lia Lra ZArith.
From Verif Require Import Prelude VecModel VecProofs GeomModel GeomSpec GeomProofs1 GeomProofs2 GeomProofs3 GeomProofs4 GeomProofs5 TriModel TriSpec TriProofs TriProofs2 TriProofs3 PolyModel PolySpec PolyProofs1 PolyProofs2 VisModel VisSpec VisProofs SliceModel SliceSpec SliceProofs1 SliceProofs3 SliceProofs4 SliceProofs6 SliceProofs7 SliceProofs8 SliceProofs9 SliceProofs10 StitchModel StitchSpec StitchProofs1 StitchProofs2 StitchProofs3 StitchProofs4 CrossSpec CrossProofs1.
Import ListNotations.
Local Open Scope R_scope.

(** Integer triangles. *)
Definition zgood (u : z3) (pts : list z3) (ts : list tri) : bool :=
  forallb (fun t => let '(i, j, k) := t in match nth_error pts i, nth_error pts j, nth_error pts k with
    | Some a, Some b, Some c => small3 a && small3 b && small3 c && flat u a b c && negb (zarea u a b c =? 0)%Z | _, _, _ => false end) ts.
Lemma z_good u pts ts : zdot u u = 1%Z -> zgood u pts ts = true -> good_mesh (map at3 pts) ts.
Proof.
  intros U H ((i, j), k) I. unfold zgood in H. rewrite forallb_forall in H. specialize (H _ I). cbv beta iota in H.
  destruct (nth_error pts i) as [a|] eqn:Ei; [|discriminate]. destruct (nth_error pts j) as [b|] eqn:Ej; [|discriminate]. destruct (nth_error pts k) as [c|] eqn:Ek; [|discriminate].
  rewrite !andb_true_iff, negb_true_iff, Z.eqb_neq in H. destruct H as ((((A & B) & C) & F) & N). exists (at3 a), (at3 b), (at3 c). split.
  - unfold tri_verts. cbn [fst snd]. rewrite !nth_error_map, Ei, Ej, Ek. auto.
  - rewrite (z3_area u U) by auto. assert (1 <= IZR (Z.abs (zarea u a b c))) by (apply IZR_le; lia). lra.
Qed.
Definition zreal (pts : list z3) : bool := forallb (fun e => negb (zeqb (fst e) (snd e))) (cyc_pairs pts).
Lemma z_real pts : zreal pts = true -> real_edges (map at3 pts).
Proof.
  unfold zreal, real_edges. intros H e I. rewrite cyc_map_both in I. apply in_map_iff in I. destruct I as (x & <- & I). rewrite forallb_forall in H. specialize (H _ I). apply negb_true_iff, zeqb_ne in H.
  unfold both. cbn [fst snd]. intros Q. apply H, at3_inj. auto.
Qed.

(** The points dividing an edge into m parts. *)
Definition zdivs (m : nat) (e : z3 * z3) : option (list z3) :=
  let d := zsub (snd e) (fst e) in let mz := Z.of_nat m in
  let s := (zx d / mz, zy d / mz, zz d / mz)%Z in
  if (1 <=? mz)%Z && zeqb (zscale mz s) d then Some (map (fun k => zadd (fst e) (zscale (Z.of_nat k) s)) (seq 0 (S m))) else None.
Lemma z_divs m e l : zdivs m e = Some l -> forall k, (k <= m)%nat -> exists z, In z l /\ seg_point (fst (both e)) (snd (both e)) (INR k / INR m) = at3 z.
Proof.
  unfold zdivs. destruct e as (a, b). cbn [fst snd]. set (d := zsub b a). set (s := (zx d / Z.of_nat m, zy d / Z.of_nat m, zz d / Z.of_nat m)%Z).
  destruct ((1 <=? Z.of_nat m)%Z && zeqb (zscale (Z.of_nat m) s) d) eqn:E; [|discriminate]. intros H. apply (f_equal (fun o => match o with Some x => x | None => [] end)) in H. cbv beta iota in H. subst l. apply andb_true_iff in E. destruct E as (M & E). apply Z.leb_le in M. apply zeqb_eq in E.
  intros k L. exists (zadd a (zscale (Z.of_nat k) s)). split; [apply (in_map (fun k => zadd a (zscale (Z.of_nat k) s))); apply in_seq; lia|].
  unfold both. cbn [fst snd]. unfold seg_point. rewrite at3_sub. change (zsub b a) with d. rewrite <- E. rewrite <- at3_add, !at3_scale. rewrite <- !INR_IZR_INZ. assert (INR m <> 0) by (apply not_0_INR; lia).
  generalize (at3 s). intros v. dvec v. generalize (at3 a). intros w. dvec w. vunf. f_equal; field; auto.
Qed.
Lemma zseg_on q a b : a <> b -> zseg q a b = true -> on_segment (at3 a) (at3 b) (at3 q).
Proof.
  intros D. unfold zseg. destruct (zeqb q a) eqn:Ea; [apply zeqb_eq in Ea; subst; intros _; exists 0; split; [lra|unfold seg_point; vring]|].
  destruct (zeqb q b) eqn:Eb; [apply zeqb_eq in Eb; subst; intros _; exists 1; split; [lra|unfold seg_point; vring]|]. cbn [orb].
  destruct (zeqb (zcross (zsub q a) (zsub b a)) (0, 0, 0)%Z) eqn:C; [|discriminate]. cbn [negb]. intros H. apply andb_true_iff in H. rewrite !Z.leb_le in H. destruct H as (H1 & H2). apply zeqb_eq in C.
  apply (f_equal at3) in C. rewrite <- at3_cross, <- !at3_sub in C. apply IZR_le in H1, H2. rewrite <- !at3_dot, <- !at3_sub in *.
  set (w := vsub (at3 q) (at3 a)) in *. set (d := vsub (at3 b) (at3 a)) in *.
  assert (P : 0 < dot d d). { assert (Q : d <> vzero) by (unfold d; rewrite at3_sub; intros Q; apply D; change vzero with (at3 (0, 0, 0)%Z) in Q; apply at3_inj in Q; destruct a as ((a, a'), a''), b as ((b, b'), b''); unfold zsub, zx, zy, zz in Q; cbn [fst snd] in Q; injection Q; intros; repeat f_equal; lia).
    destruct (Rle_lt_dec (dot d d) 0) as [L|L]; auto. exfalso. apply Q. dvec d. vunf. unfold vzero. f_equal; nra. }
  exists (dot w d / dot d d). split.
  - split; [apply Rmult_le_pos; [lra|left; apply Rinv_0_lt_compat; lra]|]. apply Rmult_le_reg_r with (dot d d); [lra|]. unfold Rdiv. rewrite Rmult_assoc, Rinv_l by lra. lra.
  - unfold seg_point. fold d.
    assert (E : smul (dot w d) d = smul (dot d d) w).
    { change (at3 (0, 0, 0)%Z) with vzero in C. clearbody w d. clear - C.
      assert (X : smul (dot w d) d = vadd (smul (dot d d) w) (cross d (smul (-1) (cross w d)))) by (clear C; dvec w; dvec d; vunf; f_equal; ring). rewrite X, C. generalize (smul (dot d d) w). intros v. dvec v. dvec d. unfold vzero. vunf. f_equal; ring. }
    assert (W : w = smul (dot w d / dot d d) d).
    { replace (smul (dot w d / dot d d) d) with (smul (/ dot d d) (smul (dot w d) d)) by (generalize (dot w d); intros; clearbody d; dvec d; vunf; f_equal; field; lra). rewrite E. clearbody w. generalize dependent (dot d d). intros k. intros. dvec w. vunf. f_equal; field; lra. }
    rewrite <- W. unfold w. generalize (at3 q), (at3 a). intros. vring.
Qed.

(** Pairs of edges that do not count as crossing. *)
Definition is_no (r : result bool) : bool := match r with Ok false => true | _ => false end.
Lemma is_no_eq r : is_no r = true -> r = Ok false.
Proof. destruct r as [[|]|]; try discriminate. auto. Qed.
Section Apart.
Context (u : z3) (Hu : zdot u u = 1%Z) (v : z3) (Hv : zdot v v = 1%Z) (pts1 : list z3) (ts1 : list tri) (pts2 : list z3) (ts2 : list tri).
Definition zends (e1 e2 : z3 * z3) : bool := zeqb (fst e1) (fst e2) || zeqb (fst e1) (snd e2) || zeqb (snd e1) (fst e2) || zeqb (snd e1) (snd e2).
Definition zmissed (e1 e2 : z3 * z3) : bool :=
  match zdivs 9 e1, zdivs 9 e2 with
  | Some l1, Some l2 => forallb (fun q => is_no (zstrict v q pts2 ts2)) l1 && forallb (fun q => is_no (zstrict u q pts1 ts1)) l2 &&
      existsb (fun q => zseg q (fst e1) (snd e1) && zseg q (fst e2) (snd e2)) l1 && negb (zeqb (fst e1) (snd e1)) && negb (zeqb (fst e2) (snd e2))
  | _, _ => false
  end.
Definition znocross (e1 e2 : z3 * z3) : bool := zends e1 e2 || is_no (zlsi u e1 e2) || zmissed e1 e2.
Lemma z_nocross e1 e2 : znocross e1 e2 = true -> crossing_pair (map at3 pts1) ts1 (map at3 pts2) ts2 (both e1) (both e2) <> Ok true.
Proof.
  unfold znocross. intros H E. apply pair_sound_any in E. destruct E as (q & L & S & C). apply orb_true_iff in H. destruct H as [H|H]; [apply orb_true_iff in H; destruct H as [H|H]|].
  - apply S. unfold share_end, both. cbn [fst snd]. unfold zends in H. rewrite !orb_true_iff in H. destruct H as [[[H|H]|H]|H]; apply zeqb_eq in H; rewrite H; auto.
  - apply is_no_eq in H. apply (z_lsi u Hu) in H. destruct H as (o & Eo & ->). congruence.
  - unfold zmissed in H. destruct (zdivs 9 e1) as [l1|] eqn:D1; [|discriminate]. destruct (zdivs 9 e2) as [l2|] eqn:D2; [|discriminate]. rewrite !andb_true_iff in H. destruct H as ((((F1 & F2) & X) & R1) & R2).
    rewrite forallb_forall in F1, F2. apply existsb_exists in X. destruct X as (z & Iz & X). apply andb_true_iff in X. destruct X as (X1 & X2). apply negb_true_iff, zeqb_ne in R1, R2. apply zseg_on in X1, X2; auto.
    destruct C as [(k & Lk & [C|C])|C].
    + destruct (z_divs _ _ _ D1 k Lk) as (w & Iw & Ew). rewrite Ew in C. specialize (F1 _ Iw). apply is_no_eq, (z_strict v Hv) in F1. unfold strictly_in in C. congruence.
    + destruct (z_divs _ _ _ D2 k Lk) as (w & Iw & Ew). rewrite Ew in C. specialize (F2 _ Iw). apply is_no_eq, (z_strict u Hu) in F2. unfold strictly_in in C. congruence.
    + pose proof L as L'. apply segment_meet_sound in L'. destruct L' as (L' & _). apply intersection_sound in L'. destruct L' as (Z1 & Z2 & NP & _).
      unfold both in *. cbn [fst snd] in *. rewrite (segment_meet_complete _ _ _ _ (at3 z) Z1 Z2 NP X1 X2) in L. injection L as <-. specialize (C (at3 z) (or_introl X1)). unfold dist in C. rewrite (proj2 (norm_zero _)) in C; [lra|vring].
Qed.
Definition zapart : bool := forallb (fun e1 => forallb (fun e2 => znocross e1 e2) (cyc_pairs pts2)) (cyc_pairs pts1).
Lemma z_apart : zgood u pts1 ts1 = true -> zgood v pts2 ts2 = true -> zreal pts1 = true -> zreal pts2 = true -> pts1 <> [] -> pts2 <> [] -> zapart = true ->
  are_polygons_crossing (map at3 pts1) ts1 (map at3 pts2) ts2 = Ok false.
Proof.
  intros G1 G2 R1 R2 N1 N2 H. assert (M1 : map at3 pts1 <> []) by (destruct pts1; [congruence|discriminate]). assert (M2 : map at3 pts2 <> []) by (destruct pts2; [congruence|discriminate]).
  destruct (crossing_total (map at3 pts1) ts1 (map at3 pts2) ts2 M1 M2 (z_good u _ _ Hu G1) (z_good v _ _ Hv G2) (z_real _ R1) (z_real _ R2)) as ([|] & E); auto. exfalso.
  apply crossing_pairs in E. destruct E as (e1 & e2 & I1 & I2 & E). rewrite cyc_map_both in I1, I2. apply in_map_iff in I1, I2. destruct I1 as (f1 & <- & I1), I2 as (f2 & <- & I2).
  unfold zapart in H. rewrite forallb_forall in H. specialize (H _ I1). rewrite forallb_forall in H. specialize (H _ I2). exact (z_nocross _ _ H E).
Qed.
End Apart.

(** Touching on integer points. *)
Definition zwithin (q : z3) (pts : list z3) : bool :=
  forallb (fun c : z3 -> Z => existsb (fun a => (c a <=? c q)%Z) pts && existsb (fun a => (c q <=? c a)%Z) pts) [zx; zy; zz].
Lemma z_within q pts1 pts2 : zwithin q pts1 = true -> zwithin q pts2 = true -> boxes_meet (map at3 pts1) (map at3 pts2).
Proof.
  intros H1 H2. exists (at3 q). intros c Ic.
  assert (X : exists c0 : z3 -> Z, In c0 [zx; zy; zz] /\ forall p, c (at3 p) = IZR (c0 p)).
  { destruct Ic as [<-|[<-|[<-|[]]]]; eexists; (split; [|intros p; rewrite at3_eq; reflexivity]); cbn [In]; auto. }
  destruct X as (c0 & I0 & E0).
  assert (G : forall pts, zwithin q pts = true -> exists a b, In a (map at3 pts) /\ In b (map at3 pts) /\ c a <= c (at3 q) <= c b).
  { intros pts H. unfold zwithin in H. rewrite forallb_forall in H. specialize (H _ I0). apply andb_true_iff in H. destruct H as (A & B). apply existsb_exists in A, B. destruct A as (a & Ia & A), B as (b & Ib & B). apply Z.leb_le, IZR_le in A, B.
    exists (at3 a), (at3 b). split; [apply in_map; auto|]. split; [apply in_map; auto|]. rewrite !E0. auto. }
  split; apply G; auto.
Qed.
Section Touch.
Context (u : z3) (Hu : zdot u u = 1%Z) (pts : list z3) (ts : list tri).
Definition zclear (other : list z3) : bool :=
  forallb (fun e => match zdivs 4 e with Some l => forallb (fun q => is_no (zstrict u q pts ts)) l | None => false end) (cyc_pairs other).
Lemma z_clear other : zclear other = true -> forall w, division_point 4 (map at3 other) w -> ~ strictly_in (map at3 pts) ts w.
Proof.
  unfold zclear. rewrite forallb_forall. intros H w (e & k & I & L & ->) S. rewrite cyc_map_both in I. apply in_map_iff in I. destruct I as (f & <- & I). specialize (H _ I). destruct (zdivs 4 f) as [l|] eqn:D; [|discriminate].
  destruct (z_divs _ _ _ D k L) as (z & Iz & Ez). rewrite Ez in S. rewrite forallb_forall in H. specialize (H _ Iz). apply is_no_eq, (z_strict u Hu) in H. unfold strictly_in in S. congruence.
Qed.
Definition zmeets (other : list z3) : bool := forallb small3 (pts ++ other) && existsb (fun q => existsb (fun e => zseg q (fst e) (snd e)) (cyc_pairs pts)) other.
Lemma z_meets other : zmeets other = true -> meets_outline (map at3 pts) (map at3 other).
Proof.
  unfold zmeets. intros H. apply andb_true_iff in H. destruct H as (S & H). rewrite forallb_forall in S. apply existsb_exists in H. destruct H as (q & Iq & H). apply existsb_exists in H. destruct H as (e & Ie & H).
  exists (at3 q), (both e). split; [apply in_map; auto|]. split; [rewrite cyc_map_both; apply in_map; auto|]. destruct (cyc_members _ _ Ie). unfold both. cbn [fst snd]. rewrite z_seg; auto; apply S, in_app_iff; auto.
Qed.
End Touch.
Lemma z_told l : forallb small3 l = true -> told_apart (map at3 l).
Proof.
  intros S p q I J E. apply in_map_iff in I, J. destruct I as (a & <- & I), J as (b & <- & J). rewrite forallb_forall in S. rewrite (z3_equal a b) in E by auto. apply zeqb_eq in E. congruence.
Qed.
Lemma z_nodup l : NoDup l -> NoDup (map at3 l).
Proof. intros N. apply FinFun.Injective_map_NoDup; auto. intros a b. apply at3_inj. Qed.
Lemma z_touch u v pts1 ts1 pts2 ts2 q : zdot u u = 1%Z -> zdot v v = 1%Z -> pts1 <> [] -> pts2 <> [] -> zgood u pts1 ts1 = true -> zgood v pts2 ts2 = true -> NoDup pts1 -> ~ incl pts1 pts2 ->
  zwithin q pts1 = true -> zwithin q pts2 = true -> forallb small3 (pts1 ++ pts2) = true -> zmeets pts1 pts2 || zmeets pts2 pts1 = true -> zclear u pts1 ts1 pts2 = true -> zclear v pts2 ts2 pts1 = true -> are_polygons_touching (map at3 pts1) ts1 (map at3 pts2) ts2 = Ok true.
Proof.
  intros U V0 N1 N2 G1 G2 D NI B1 B2 S M C1 C2. assert (M1 : map at3 pts1 <> []) by (destruct pts1; [congruence|discriminate]). assert (M2 : map at3 pts2 <> []) by (destruct pts2; [congruence|discriminate]).
  destruct (touching_spec (map at3 pts1) ts1 (map at3 pts2) ts2 M1 M2 (z_good u _ _ U G1) (z_good v _ _ V0 G2)) as (b & -> & B).
  - rewrite <- map_app. apply z_told. auto.
  - apply z_nodup. auto.
  - f_equal. apply B. split; [apply (z_within q); auto|]. split; [|split; [apply orb_true_iff in M; destruct M; [left|right]; apply z_meets; auto|split; [apply (z_clear u U); auto|apply (z_clear v V0); auto]]].
    intros I. apply NI. intros p Ip. specialize (I (at3 p) (in_map _ _ _ Ip)). apply in_map_iff in I. destruct I as (p' & E & I). apply at3_inj in E. congruence.
Qed.
Lemma z_touch_incl u v pts1 ts1 pts2 ts2 : zdot u u = 1%Z -> zdot v v = 1%Z -> pts1 <> [] -> pts2 <> [] -> zgood u pts1 ts1 = true -> zgood v pts2 ts2 = true -> NoDup pts1 -> incl pts1 pts2 -> forallb small3 (pts1 ++ pts2) = true ->
  are_polygons_touching (map at3 pts1) ts1 (map at3 pts2) ts2 = Ok false.
Proof.
  intros U V0 N1 N2 G1 G2 D NI S. assert (M1 : map at3 pts1 <> []) by (destruct pts1; [congruence|discriminate]). assert (M2 : map at3 pts2 <> []) by (destruct pts2; [congruence|discriminate]).
  destruct (touching_spec (map at3 pts1) ts1 (map at3 pts2) ts2 M1 M2 (z_good u _ _ U G1) (z_good v _ _ V0 G2)) as ([|] & -> & B); auto.
  - rewrite <- map_app. apply z_told. auto.
  - apply z_nodup. auto.
  - exfalso. apply (proj1 B eq_refl). intros p Ip. apply in_map_iff in Ip. destruct Ip as (p' & <- & I). apply in_map. auto.
Qed.

(** Two bars that form a plus sign. *)
Definition bar_h : list z3 := [(-9, -1, 0); (9, -1, 0); (9, 1, 0); (-9, 1, 0)]%Z.
Definition bar_v : list z3 := [(-1, -9, 0); (1, -9, 0); (1, 9, 0); (-1, 9, 0)]%Z.
Definition quad_tri : list tri := [(3, 0, 1); (3, 1, 2)]%nat.
Definition up1 : zdot up up = 1%Z := eq_refl.
Lemma bars_made : zmake bar_h = Ok (bar_h, quad_tri, up) /\ zmake bar_v = Ok (bar_v, quad_tri, up).
Proof. split; reflexivity. Qed.
Lemma cross_at a1 b1 a2 b2 t s : 0 < t < 1 -> 0 < s < 1 -> seg_point (at3 a1) (at3 b1) t = seg_point (at3 a2) (at3 b2) s -> zcross (zsub b1 a1) (zsub b2 a2) <> (0, 0, 0)%Z -> edges_cross (both (a1, b1)) (both (a2, b2)).
Proof. intros T S E N. exists t, s. unfold both. cbn [fst snd]. repeat (split; auto). rewrite !at3_sub, at3_cross. change vzero with (at3 (0, 0, 0)%Z). intros X. apply N, at3_inj. auto. Qed.
Lemma plus_missed p q : make_polygon (map at3 bar_h) None None = Ok p -> make_polygon (map at3 bar_v) None None = Ok q ->
  outlines_cross (p_pts p) (p_pts q) /\ are_polygons_crossing (p_pts p) (p_tri p) (p_pts q) (p_tri q) = Ok false.
Proof.
  intros Mp Mq. destruct (made _ _ _ (proj1 bars_made)) as (p' & Mp' & E1 & E2 & _). destruct (made _ _ _ (proj2 bars_made)) as (q' & Mq' & F1 & F2 & _). rewrite Mp in Mp'. apply Ok_inj in Mp'. subst p'. rewrite Mq in Mq'. apply Ok_inj in Mq'. subst q'. rewrite E1, E2, F1, F2. split.
  - exists (both ((-9, -1, 0), (9, -1, 0))%Z), (both ((1, -9, 0), (1, 9, 0))%Z). split; [left; auto|]. split; [right; left; auto|].
    apply (cross_at _ _ _ _ (5 / 9) (4 / 9)); try lra; [|discriminate]. unfold seg_point, at3. vunf. f_equal; lra.
  - apply (z_apart up up1 up up1); try reflexivity; discriminate.
Qed.
(** A bar that ends on the far side of another one. *)
Definition bar_low : list z3 := [(-16, 0, 0); (16, 0, 0); (16, 4, 0); (-16, 4, 0)]%Z.
Definition bar_up : list z3 := [(2, 0, 0); (6, 0, 0); (6, 16, 0); (2, 16, 0)]%Z.
Lemma t_shape p q : make_polygon (map at3 bar_low) None None = Ok p -> make_polygon (map at3 bar_up) None None = Ok q ->
  outlines_cross (p_pts p) (p_pts q) /\ are_polygons_touching (p_pts p) (p_tri p) (p_pts q) (p_tri q) = Ok true /\ are_polygons_touching (p_pts q) (p_tri q) (p_pts p) (p_tri p) = Ok true.
Proof.
  intros Mp Mq. destruct (made bar_low quad_tri up eq_refl) as (p' & Mp' & E1 & E2 & _). destruct (made bar_up quad_tri up eq_refl) as (q' & Mq' & F1 & F2 & _). rewrite Mp in Mp'. apply Ok_inj in Mp'. subst p'. rewrite Mq in Mq'. apply Ok_inj in Mq'. subst q'. rewrite E1, E2, F1, F2. split; [|split].
  - exists (both ((16, 4, 0), (-16, 4, 0))%Z), (both ((6, 0, 0), (6, 16, 0))%Z). split; [right; right; left; auto|]. split; [right; left; auto|].
    apply (cross_at _ _ _ _ (10 / 32) (1 / 4)); try lra; [|discriminate]. unfold seg_point, at3. vunf. f_equal; lra.
  - apply (z_touch up up _ _ _ _ (2, 0, 0)%Z); try reflexivity; try discriminate; [repeat constructor; cbn; intuition discriminate|]. intros I. specialize (I _ (or_introl eq_refl)). cbn in I. intuition discriminate.
  - apply (z_touch up up _ _ _ _ (2, 0, 0)%Z); try reflexivity; try discriminate; [repeat constructor; cbn; intuition discriminate|]. intros I. specialize (I _ (or_intror (or_intror (or_introl eq_refl)))). cbn in I. intuition discriminate.
Qed.

(** A square with a notch and the triangle that fills it. *)
Definition notched : list z3 := [(0, 0, 0); (16, 0, 0); (16, 16, 0); (8, 4, 0); (0, 16, 0)]%Z.
Definition plug : list z3 := [(16, 16, 0); (0, 16, 0); (8, 4, 0)]%Z.
Definition notched_tri : list tri := [(1, 2, 3); (3, 4, 0); (3, 0, 1)]%nat.
Lemma plug_one_way p q : make_polygon (map at3 notched) None None = Ok p -> make_polygon (map at3 plug) None None = Ok q ->
  are_polygons_touching (p_pts p) (p_tri p) (p_pts q) (p_tri q) = Ok true /\ are_polygons_touching (p_pts q) (p_tri q) (p_pts p) (p_tri p) = Ok false.
Proof.
  intros Mp Mq. destruct (made notched notched_tri up eq_refl) as (p' & Mp' & E1 & E2 & _). destruct (made plug [(2, 0, 1)%nat] up eq_refl) as (q' & Mq' & F1 & F2 & _). rewrite Mp in Mp'. apply Ok_inj in Mp'. subst p'. rewrite Mq in Mq'. apply Ok_inj in Mq'. subst q'. rewrite E1, E2, F1, F2. split.
  - apply (z_touch up up _ _ _ _ (16, 16, 0)%Z); try reflexivity; try discriminate; [repeat constructor; cbn; intuition discriminate|]. intros I. specialize (I _ (or_introl eq_refl)). cbn in I. intuition discriminate.
  - apply (z_touch_incl up up); try reflexivity; try discriminate; [repeat constructor; cbn; intuition discriminate|]. intros x [<-|[<-|[<-|[]]]]; cbn; auto 10.
Qed.
(** Squares side by side. *)
Definition square_l : list z3 := [(-8, 0, 0); (0, 0, 0); (0, 8, 0); (-8, 8, 0)]%Z.
Definition square_r : list z3 := [(0, 4, 0); (8, 4, 0); (8, 12, 0); (0, 12, 0)]%Z.
Lemma squares_touch : are_polygons_touching (map at3 square_l) quad_tri (map at3 square_r) quad_tri = Ok true.
Proof.
  apply (z_touch up up _ _ _ _ (0, 4, 0)%Z); try reflexivity; try discriminate; [repeat constructor; cbn; intuition discriminate|]. intros I. specialize (I _ (or_introl eq_refl)). cbn in I. intuition discriminate.
Qed.
(** A square within another one. *)
Definition square_out : list z3 := [(-8, -8, 0); (8, -8, 0); (8, 8, 0); (-8, 8, 0)]%Z.
Definition square_in : list z3 := [(-2, -2, 0); (2, -2, 0); (2, 2, 0); (-2, 2, 0)]%Z.
Lemma nested_not_crossing : are_polygons_crossing (map at3 square_out) quad_tri (map at3 square_in) quad_tri = Ok false.
Proof. apply (z_apart up up1 up up1); try reflexivity; discriminate. Qed.

(** Points that seem to be on an edge are close to it. *)
Lemma seems_near e q : 1 <= dist (fst e) (snd e) <= 100 -> norm (fst e) <= 100 -> norm (snd e) <= 100 -> seems_on e q -> exists w, on_segment (fst e) (snd e) w /\ dist w q <= 1 / 100.
Proof.
  destruct e as (a, b). cbn [fst snd]. intros D Na Nb [H|[H|(t & H1 & H2)]].
  - exists a. split; [exists 0; split; [lra|unfold seg_point; vring]|]. unfold near_point in H. lra.
  - exists b. split; [exists 1; split; [lra|unfold seg_point; vring]|]. unfold near_point in H. lra.
  - set (L := dist a b) in *. set (tol := 1 / 10000000000000) in *.
    assert (T : 0 <= tol / (L * L) <= tol). { assert (1 <= L * L) by nra. split; [apply Rmult_le_pos; [unfold tol; lra|left; apply Rinv_0_lt_compat; lra]|]. apply Rmult_le_reg_r with (L * L); [lra|]. unfold Rdiv. rewrite Rmult_assoc, Rinv_l by lra. unfold tol. nra. }
    assert (S3 : sqrt 3 <= 2). { rewrite <- (sqrt_square 2) by lra. apply sqrt_le_1_alt. lra. }
    assert (H1' : dist (seg_point a b t) q <= tol * 2). { assert (0 <= dist (seg_point a b t) q) by (unfold dist, norm; apply sqrt_pos). pose proof (sqrt_pos 3). unfold tol in *. nra. }
    set (t' := Rmax 0 (Rmin 1 t)). assert (B : 0 <= t' <= 1 /\ Rabs (t' - t) <= tol).
    { unfold t', Rmax, Rmin. destruct (Rle_dec 1 t); destruct (Rle_dec 0 _); split; try lra; unfold Rabs; destruct (Rcase_abs _); lra. }
    exists (seg_point a b t'). split; [exists t'; split; [lra|auto]|].
    assert (Tr : dist (seg_point a b t') q <= dist (seg_point a b t') (seg_point a b t) + dist (seg_point a b t) q).
    { unfold dist. replace (vsub q (seg_point a b t')) with (vadd (vsub (seg_point a b t) (seg_point a b t')) (vsub q (seg_point a b t))) by vring. apply norm_triangle. }
    assert (E : dist (seg_point a b t') (seg_point a b t) = Rabs (t' - t) * L).
    { unfold L, dist. replace (vsub (seg_point a b t) (seg_point a b t')) with (smul (t - t') (vsub b a)) by (unfold seg_point; vring). rewrite norm_smul, Rabs_minus_sym. auto. }
    assert (Rabs (t' - t) * L <= tol * 100) by (apply Rmult_le_compat; try lra; apply Rabs_pos). unfold tol in *. lra.
Qed.
(** Edges whose coordinate c stays on different sides. *)
Lemma seems_apart (c : vec -> R) k e1 e2 : In c [vx; vy; vz] -> 
  (forall e, e = e1 \/ e = e2 -> 1 <= dist (fst e) (snd e) <= 100 /\ norm (fst e) <= 100 /\ norm (snd e) <= 100) ->
  (c (fst e1) <= k /\ c (snd e1) <= k /\ k + 1 <= c (fst e2) /\ k + 1 <= c (snd e2)) \/ (c (fst e2) <= k /\ c (snd e2) <= k /\ k + 1 <= c (fst e1) /\ k + 1 <= c (snd e1)) ->
  forall q, ~ (seems_on e1 q /\ seems_on e2 q).
Proof.
  intros Ic B S q (H1 & H2). destruct (B e1 (or_introl eq_refl)) as (D1 & N1 & M1). destruct (B e2 (or_intror eq_refl)) as (D2 & N2 & M2).
  destruct (seems_near e1 q D1 N1 M1 H1) as (w1 & (t1 & T1 & W1) & X1). destruct (seems_near e2 q D2 N2 M2 H2) as (w2 & (t2 & T2 & W2) & X2).
  assert (Y : forall w, dist w q <= 1 / 100 -> Rabs (c w - c q) <= 1 / 100).
  { intros w H. pose proof (coord_le_norm c (vsub q w) Ic) as Z. unfold dist in H. rewrite Rabs_minus_sym. replace (c q - c w) with (c (vsub q w)); [lra|]. destruct Ic as [<-|[<-|[<-|[]]]]; reflexivity. }
  apply Y in X1, X2. assert (L : forall a b t, c (seg_point a b t) = c a + t * (c b - c a)) by (intros; destruct Ic as [<-|[<-|[<-|[]]]]; unfold seg_point; vunf; ring).
  rewrite W1, W2, !L in *. apply Rabs_le_inv in X1, X2. destruct e1 as (a1, b1), e2 as (a2, b2). cbn [fst snd] in *. destruct S as [S|S]; nra.
Qed.
Definition zlong (e : z3 * z3) : bool := small3 (fst e) && small3 (snd e) && negb (zeqb (fst e) (snd e)).
Lemma z_long e : zlong e = true -> 1 <= dist (fst (both e)) (snd (both e)) <= 100 /\ norm (fst (both e)) <= 100 /\ norm (snd (both e)) <= 100.
Proof.
  unfold zlong. intros H. rewrite !andb_true_iff, negb_true_iff in H. destruct H as ((S1 & S2) & N). apply zeqb_ne in N. unfold both. cbn [fst snd]. unfold dist. rewrite at3_sub.
  assert (G : forall a k, (0 <= k)%Z -> (zdot a a <= k * k)%Z -> norm (at3 a) <= IZR k).
  { intros a k K H. unfold norm. rewrite at3_dot. rewrite <- (sqrt_square (IZR k)) by (apply IZR_le; auto). apply sqrt_le_1_alt. rewrite <- mult_IZR. apply IZR_le. auto. }
  destruct (fst e) as ((a, a'), a''), (snd e) as ((b, b'), b''). unfold small3 in S1, S2. unfold zsub, zdot, zx, zy, zz in *. cbn [fst snd] in *. rewrite !andb_true_iff, !Z.leb_le in S1, S2.
  split; [split|split]; try (apply (G _ 100%Z); [lia|]; unfold zdot, zx, zy, zz; cbn [fst snd]; nia).
  unfold norm. rewrite at3_dot. rewrite <- sqrt_1. apply sqrt_le_1_alt. apply IZR_le. unfold zdot, zx, zy, zz. cbn [fst snd]. assert (X : (a - b <> 0 \/ a' - b' <> 0 \/ a'' - b'' <> 0)%Z). { destruct (Z.eq_dec a b), (Z.eq_dec a' b'), (Z.eq_dec a'' b''); try lia. subst. congruence. }
  assert (Q : forall x : Z, (0 <= x * x)%Z /\ (x <> 0 -> 1 <= x * x)%Z) by (intros x; split; nia). pose proof (Q (b - a)%Z). pose proof (Q (b' - a')%Z). pose proof (Q (b'' - a'')%Z). lia.
Qed.
Definition zaway (e1 e2 : z3 * z3) : bool :=
  zlong e1 && zlong e2 && existsb (fun c : z3 -> Z => (Z.max (c (fst e1)) (c (snd e1)) <? Z.min (c (fst e2)) (c (snd e2)))%Z || (Z.max (c (fst e2)) (c (snd e2)) <? Z.min (c (fst e1)) (c (snd e1)))%Z) [zx; zy; zz].
Lemma z_away e1 e2 : zaway e1 e2 = true -> forall q, ~ (seems_on (both e1) q /\ seems_on (both e2) q).
Proof.
  unfold zaway. intros H. rewrite !andb_true_iff in H. destruct H as ((L1 & L2) & H). apply existsb_exists in H. destruct H as (c0 & I & H).
  assert (X : exists c : vec -> R, In c [vx; vy; vz] /\ forall p, c (at3 p) = IZR (c0 p)).
  { destruct I as [<-|[<-|[<-|[]]]]; [exists vx|exists vy|exists vz]; (split; [|intros p; rewrite at3_eq; reflexivity]); cbn [In]; auto. }
  destruct X as (c & Ic & Ec). apply orb_true_iff in H. rewrite !Z.ltb_lt in H.
  apply (seems_apart c (IZR (if (Z.max (c0 (fst e1)) (c0 (snd e1)) <? Z.min (c0 (fst e2)) (c0 (snd e2)))%Z then Z.max (c0 (fst e1)) (c0 (snd e1)) else Z.max (c0 (fst e2)) (c0 (snd e2)))) _ _ Ic).
  - intros e [-> | ->]; apply z_long; auto.
  - unfold both. cbn [fst snd]. rewrite !Ec. rewrite <- !(plus_IZR _ 1). destruct (Z.ltb_spec (Z.max (c0 (fst e1)) (c0 (snd e1))) (Z.min (c0 (fst e2)) (c0 (snd e2)))); [left|right]; repeat split; apply IZR_le; lia.
Qed.
Lemma zends_share e1 e2 : zends e1 e2 = true -> share_end (both e1) (both e2).
Proof. unfold zends, share_end, both. cbn [fst snd]. rewrite !orb_true_iff. intros [[[H|H]|H]|H]; apply zeqb_eq in H; rewrite H; auto. Qed.
Lemma z_pairs_away pts1 pts2 : forallb (fun e1 => forallb (fun e2 => zends e1 e2 || zaway e1 e2) (cyc_pairs pts2)) (cyc_pairs pts1) = true ->
  forall e1 e2, In e1 (cyc_pairs (map at3 pts1)) -> In e2 (cyc_pairs (map at3 pts2)) -> share_end e1 e2 \/ forall q, ~ (seems_on e1 q /\ seems_on e2 q).
Proof.
  intros H e1 e2 I1 I2. rewrite cyc_map_both in I1, I2. apply in_map_iff in I1, I2. destruct I1 as (f1 & <- & I1), I2 as (f2 & <- & I2). rewrite forallb_forall in H. specialize (H _ I1). rewrite forallb_forall in H. specialize (H _ I2).
  apply orb_true_iff in H. destruct H as [H|H]; [left; apply zends_share; auto|right; apply z_away; auto].
Qed.
Lemma plus_ex : exists p q, make_polygon (map at3 bar_h) None None = Ok p /\ make_polygon (map at3 bar_v) None None = Ok q /\
  outlines_cross (p_pts p) (p_pts q) /\ are_polygons_crossing (p_pts p) (p_tri p) (p_pts q) (p_tri q) = Ok false.
Proof. destruct (made _ _ _ (proj1 bars_made)) as (p & Mp & _). destruct (made _ _ _ (proj2 bars_made)) as (q & Mq & _). exists p, q. split; auto. split; auto. apply plus_missed; auto. Qed.
Lemma plug_ex : exists p q, make_polygon (map at3 notched) None None = Ok p /\ make_polygon (map at3 plug) None None = Ok q /\
  are_polygons_touching (p_pts p) (p_tri p) (p_pts q) (p_tri q) = Ok true /\ are_polygons_touching (p_pts q) (p_tri q) (p_pts p) (p_tri p) = Ok false.
Proof. destruct (made notched notched_tri up eq_refl) as (p & Mp & _). destruct (made plug [(2, 0, 1)%nat] up eq_refl) as (q & Mq & _). exists p, q. split; auto. split; auto. apply plug_one_way; auto. Qed.
Lemma t_ex : exists p q, make_polygon (map at3 bar_low) None None = Ok p /\ make_polygon (map at3 bar_up) None None = Ok q /\
  outlines_cross (p_pts p) (p_pts q) /\ are_polygons_touching (p_pts p) (p_tri p) (p_pts q) (p_tri q) = Ok true /\ are_polygons_touching (p_pts q) (p_tri q) (p_pts p) (p_tri p) = Ok true.
Proof. destruct (made bar_low quad_tri up eq_refl) as (p & Mp & _). destruct (made bar_up quad_tri up eq_refl) as (q & Mq & _). exists p, q. split; auto. split; auto. apply t_shape; auto. Qed.
(** Squares that overlap: the corner of one is inside the other. *)
Definition cross_h : list z3 := [(-6, -4, 0); (6, -4, 0); (6, 4, 0); (-6, 4, 0)]%Z.
Definition cross_v : list z3 := [(-3, -2, 0); (3, -2, 0); (3, 7, 0); (-3, 7, 0)]%Z.
Lemma wide_cross : are_polygons_crossing (map at3 cross_h) quad_tri (map at3 cross_v) quad_tri = Ok true.
Proof. apply (z_crossing up up1 up up1). reflexivity. Qed.
Lemma stacked_not_coplanar : are_points_coplanar ([V 0 0 0; V 1 0 0; V 0 1 0] ++ [V 0 0 1; V 1 0 1; V 0 1 1]) GEOM_ATOL = Ok false.
Proof.
  destruct (coplanar_total ([V 0 0 0; V 1 0 0; V 0 1 0] ++ [V 0 0 1; V 1 0 1; V 0 1 1]) GEOM_ATOL) as ([|] & E); auto. exfalso.
  cbn [app] in E. apply (coplanar_sound _ _ (V 0 0 0)) in E; [|reflexivity|cbn; lia]. destruct E as [E|[E|(n & U & E)]].
  - cbn [are_points_collinear map chain_close] in E. apply Ok_inj in E. apply andb_true_iff in E. destruct E as (E & _).
    assert (D : forall v, dot v v = 1 -> dir_from (V 0 0 0) v = v).
    { intros v Dv. unfold dir_from. replace (vsub v (V 0 0 0)) with v by (dvec v; vunf; f_equal; ring). unfold norm. rewrite Dv, sqrt_1. rewrite (proj2 (Rltb_true _ _)) by (unfold EPSILON; lra). dvec v. unfold vdiv, smul. cbn [vx vy vz]. f_equal; field. }
    rewrite !D in E by (vunf; ring). unfold allclose, isclose, vopp, smul, RTOL, GEOM_ATOL in E. cbn [vx vy vz] in E. apply orb_true_iff in E. rewrite !andb_true_iff, !Rleb_true in E.
    destruct E as [((E & _) & _)|((E & _) & _)].
    + replace (Rabs (0 - 1)) with 1 in E by (rewrite Rabs_left; lra). rewrite Rabs_R1 in E. lra.
    + match type of E with Rabs ?a <= _ + _ * Rabs ?b => replace a with 1 in E by ring; replace b with (- (1)) in E by ring end. rewrite Rabs_Ropp, Rabs_R1 in E. lra.
  - specialize (E 0%nat _ _ _ eq_refl eq_refl eq_refl). unfold true_area in E. replace (cross _ _) with (V 0 0 1) in E by (vunf; f_equal; ring). unfold norm in E. replace (dot _ _) with 1 in E by (vunf; ring). rewrite sqrt_1 in E. lra.
  - pose proof (E _ (or_intror (or_introl eq_refl))) as E1. pose proof (E _ (or_intror (or_intror (or_introl eq_refl)))) as E2. pose proof (E _ (or_intror (or_intror (or_intror (or_introl eq_refl))))) as E3. clear E. unfold GEOM_ATOL in *. dvec n. unfold unit in U. vunf.
    assert (X1 : Rabs x < 1 / 10000000000000) by (replace x with (x * (1 - 0) + y * (0 - 0) + z * (0 - 0)) by ring; auto).
    assert (X2 : Rabs y < 1 / 10000000000000) by (replace y with (x * (0 - 0) + y * (1 - 0) + z * (0 - 0)) by ring; auto).
    assert (X3 : Rabs z < 1 / 10000000000000) by (replace z with (x * (0 - 0) + y * (0 - 0) + z * (1 - 0)) by ring; auto).
    apply Rabs_def2 in X1, X2, X3. nra.
Qed.
