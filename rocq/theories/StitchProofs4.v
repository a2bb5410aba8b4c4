(** Whole runs of stitching. *)
From Coq Require Import Ascii String Reals List Bool Arith Lia Lra ZArith.
From Verif Require Import Prelude VecModel VecProofs GeomModel GeomSpec GeomProofs1 GeomProofs2 GeomProofs3 GeomProofs4 GeomProofs5 TriModel TriSpec TriProofs TriProofs2 TriProofs3 PolyModel PolySpec PolyProofs1 PolyProofs2 VisModel VisSpec VisProofs SliceModel SliceSpec SliceProofs1 SliceProofs3 SliceProofs4 SliceProofs6 SliceProofs7 SliceProofs8 SliceProofs9 SliceProofs10 StitchModel StitchSpec StitchProofs1 StitchProofs2 StitchProofs3.
Import ListNotations.
Local Open Scope R_scope.

Definition down : z3 := (0, 0, -1)%Z.
Lemma down1 : zdot down down = 1%Z. Proof. reflexivity. Qed.
Definition touching_tri : list z3 := [(4, 2, 0); (2, 2, 0); (3, 0, 0)]%Z.
Definition side_square : list z3 := [(2, 4, 0); (2, 2, 0); (-2, 2, 0); (-2, 4, 0)]%Z.
Definition is_made (pts : list z3) (ts : list tri) (vn : z3) (p : polygon) : Prop := make_polygon (map at3 pts) None None = Ok p /\ p_pts p = map at3 pts /\ p_tri p = ts /\ p_vn p = at3 vn.
Lemma made pts ts vn : zmake pts = Ok (pts, ts, vn) -> exists p, is_made pts ts vn p.
Proof. intros H. destruct (zmake_spec _ _ _ _ H) as (_ & p & M & E1 & E2 & E3). exists p. repeat split; auto. Qed.
Definition one_poly (wn : str) (p : npoly) : solid := [(wn, [p])].
Lemma unique_one wn p : unique_names (one_poly wn p).
Proof. split; [repeat constructor; intros []|]. intros w [<-|[]]. repeat constructor. intros []. Qed.
Lemma z_adjacent v p q pts1 pts2 b1 b2 b3 : zdot v v = 1%Z -> p_pts p = map at3 pts1 -> p_pts q = map at3 pts2 -> zcrossing up v pts1 (p_tri p) pts2 (p_tri q) = Ok b1 -> zcontains up false pts1 (p_tri p) pts2 = Ok b2 -> zcontains v false pts2 (p_tri q) pts1 = Ok b3 -> adjacent p q = Ok (b1 || (b2 || b3)).
Proof.
  intros U E1 E2 C B1 B2. unfold adjacent. rewrite E1, E2, (z_crossing up up1 v U _ _ _ _ _ C). cbn [rbind]. rewrite (z_contains up up1 false p q pts1 pts2 b2), (z_contains v U false q p pts2 pts1 b3); auto. cbn [rbind]. destruct b2; auto.
Qed.
(** Two polygons that cross, one within the other with its boundary. *)
Lemma both_within v rid s1 s2 p1 p2 pts1 pts2 : zdot v v = 1%Z -> p_pts (snd p1) = map at3 pts1 -> p_pts (snd p2) = map at3 pts2 ->
  zcontains up false pts1 (p_tri (snd p1)) pts2 = Ok false -> zcontains v false pts2 (p_tri (snd p2)) pts1 = Ok false -> zcontains up true pts1 (p_tri (snd p1)) pts2 = Ok true -> zcontains v true pts2 (p_tri (snd p2)) pts1 = Ok false ->
  slice_both rid s1 p1 s2 p2 = let r := slice_one_and_replace rid s1 p1 (p_pts (snd p2)) in ((fst r, s2), match snd r with Ok _ => Ok tt | Err e => Err e end).
Proof.
  intros U E1 E2 C1 C2 C3 C4. unfold slice_both. rewrite (z_contains up up1 false _ _ pts1 pts2 false), (z_contains v U false _ _ pts2 pts1 false) by auto. change with_boundary with (if true then with_boundary else GEOM_ATOL). rewrite (z_contains up up1 true _ _ pts1 pts2 true), (z_contains v U true _ _ pts2 pts1 false) by auto. cbn [rbind orb]. unfold ignore. reflexivity.
Qed.

(** A triangle that touches an edge of the square with one corner. *)
Lemma touch_slice rid n p : is_square p -> slice_one rid (n, p) (map at3 touching_tri) = Ok None.
Proof.
  intros (_ & Ep & Et & En). unfold slice_one. cbn [fst snd]. rewrite Ep, (z_added up up1 sq6 touching_tri sq6 touching_tri eq_refl). cbn [rbind snd]. rewrite (z_remove up up1 p sq6 touching_tri touching_tri) by (rewrite ?Et; auto). cbn [rbind]. rewrite map_length. cbn [length touching_tri Nat.ltb Nat.leb]. change [(4, 2, 0)%Z; (2, 2, 0)%Z; (3, 0, 0)%Z] with touching_tri.
  unfold slice_polygon. rewrite Ep, <- map_app. rewrite (coplanar_accepted (map at3 (sq6 ++ touching_tri)) GEOM_ATOL); [|unfold GEOM_ATOL; lra|apply (z_coplanar up up1); reflexivity]. cbn [rbind negb]. rewrite (z_added up up1 sq6 touching_tri sq6 touching_tri eq_refl). cbn [rbind snd]. rewrite Et.
  assert (L : locate_points (cyc_pairs (map at3 sq6)) (map at3 sq6) sq6_tri (map at3 touching_tri) = Ok [Interior; Interior; AtEdge 0]) by (apply (z_locs up up1); [discriminate|reflexivity]).
  destruct (removed_spec (map at3 touching_tri) (map at3 sq6) sq6_tri _ ltac:(discriminate) L) as (out & E & [(zs & kept & R & I & _)|(_ & Eo)]).
  - exfalso. apply I. destruct R as (a & b & E1 & E2). cbn [map touching_tri combine] in E1. set (x := at3 (4, 2, 0)%Z) in *. set (y := at3 (2, 2, 0)%Z) in *. set (z := at3 (3, 0, 0)%Z) in *. destruct a as [|a1 [|a2 [|a3 [|a4 a]]]]; cbn [app] in E1; try discriminate; try (injection E1; intros); subst; unfold interior_end; cbn; eexists; eexists; (split; [reflexivity|]); cbn; auto.
  - rewrite E, Eo. reflexivity.
Qed.
Lemma touch_runs rid w1 n1 p1 w2 n2 p2 : is_square p1 -> is_made touching_tri [(2, 0, 1)]%nat up p2 ->
  let s1 := one_poly w1 (n1, p1) in let s2 := one_poly w2 (n2, p2) in next_adjacent s1 s2 = Ok (Some ((n1, p1), (n2, p2))) /\ slice_both rid s1 (n1, p1) s2 (n2, p2) = ((s1, s2), Ok tt) /\ never_returns rid s1 s2.
Proof.
  intros S (_ & Ep2 & Et2 & _). pose proof S as (_ & Ep & Et & _). cbn zeta.
  assert (A : next_adjacent (one_poly w1 (n1, p1)) (one_poly w2 (n2, p2)) = Ok (Some ((n1, p1), (n2, p2)))).
  { unfold next_adjacent. cbn [one_poly polys walls_and_polys map concat app snd fst first_adjacent]. rewrite (z_adjacent up p1 p2 sq6 touching_tri true false false) by (rewrite ?Et, ?Et2; auto). reflexivity. }
  assert (B : slice_both rid (one_poly w1 (n1, p1)) (n1, p1) (one_poly w2 (n2, p2)) (n2, p2) = ((one_poly w1 (n1, p1), one_poly w2 (n2, p2)), Ok tt)).
  { rewrite (both_within up rid _ _ (n1, p1) (n2, p2) sq6 touching_tri) by (cbn [snd]; rewrite ?Et, ?Et2; auto). unfold slice_one_and_replace. cbn [snd]. rewrite Ep2, touch_slice by auto. reflexivity. }
  split; auto. split; auto. intros n. rewrite (stitch_stuck _ _ _ _ _ A B). auto.
Qed.

(** A square across the closing edge of the outline. *)
Lemma side_slice rid n p : is_square p -> slice_one rid (n, p) (map at3 side_square) = Err TriangulationError.
Proof.
  intros (_ & Ep & Et & En). pose (ch := [(2, 4, 0); (2, 2, 0); (0, 2, 0); (0, 4, 0)]%Z). unfold slice_one. cbn [fst snd]. rewrite Ep, (z_added up up1 sq6 side_square [(0, 0, 0); (6, 0, 0); (6, 6, 0); (0, 6, 0); (0, 2, 0); (0, 4, 0)]%Z [(2, 4, 0); (2, 2, 0); (0, 2, 0); (-2, 2, 0); (-2, 4, 0); (0, 4, 0)]%Z eq_refl). cbn [rbind snd].
  rewrite (z_remove up up1 p sq6 _ ch) by (rewrite ?Et; auto). cbn [rbind]. rewrite map_length. cbn [length ch Nat.ltb Nat.leb].
  destruct (notch_arrays side_notch 3 (or_intror (conj eq_refl eq_refl))) as (Lc & Rm & Ga).
  assert (Rc : remove_redundant_points (map at3 ch) (map at3 sq6) sq6_tri = Ok (map at3 side_notch)).
  { rewrite <- Rm. unfold remove_redundant_points. rewrite polygon_edges_eq by discriminate. cbn [rbind map length ch side_notch Nat.add]. change [at3 (2, 4, 0)%Z; at3 (2, 2, 0)%Z; at3 (0, 2, 0)%Z; at3 (0, 4, 0)%Z] with (map at3 ch). change [at3 (0, 4, 0)%Z; at3 (2, 4, 0)%Z; at3 (2, 2, 0)%Z; at3 (0, 2, 0)%Z] with (map at3 side_notch).
    cbn [remove_redundant_from]. rewrite (z_locs up up1 sq6 sq6_tri ch [Interior; Interior; AtEdge 3; AtEdge 3]); [|discriminate|reflexivity]. cbn [rbind ends_interior is_interior orb]. change (roll_forward (map at3 ch)) with (map at3 side_notch). rewrite Lc. cbn [rbind ends_interior is_interior orb last]. reflexivity. }
  rewrite <- Et in Rc, Ga. rewrite (z_slice up up1 p sq6 ch sq6 ch (map at3 side_notch) _ _ _ _ _ _ _ _ Ep En eq_refl eq_refl Rc ltac:(cbn; lia) Ga).
  destruct (z_make_vn up up1 side_notch (rev side_notch) [(3, 0, 1); (3, 1, 2)]%nat) as (p1 & M1 & _); [reflexivity|]. unfold make_polygons. rewrite M1. cbn [rbind].
  change (put_after 0 (map at3 side_notch) (map at3 sq6)) with (map at3 [(0, 0, 0); (0, 4, 0); (2, 4, 0); (2, 2, 0); (0, 2, 0); (6, 0, 0); (6, 6, 0); (0, 6, 0)]%Z). rewrite (z_make_fails up up1); [reflexivity|reflexivity|reflexivity].
Qed.
Lemma side_runs rid k w1 n1 p1 w2 n2 p2 : is_square p1 -> is_made side_square [(3, 0, 1); (3, 1, 2)]%nat down p2 ->
  let s1 := one_poly w1 (n1, p1) in let s2 := one_poly w2 (n2, p2) in stitch rid (S k) s1 s2 = ((s1, s2), Err TriangulationError).
Proof.
  intros S (_ & Ep2 & Et2 & _). pose proof S as (_ & Ep & Et & _). cbn zeta. cbn [stitch]. unfold next_adjacent. cbn [one_poly polys walls_and_polys map concat app snd fst first_adjacent]. rewrite (z_adjacent down p1 p2 sq6 side_square true false false) by (rewrite ?Et, ?Et2; auto). cbn [rbind orb].
  unfold slice_both. cbn [snd]. rewrite (z_contains up up1 false _ _ sq6 side_square false), (z_contains down down1 false _ _ side_square sq6 false) by (rewrite ?Et, ?Et2; auto). change with_boundary with (if true then with_boundary else GEOM_ATOL). rewrite (z_contains up up1 true _ _ sq6 side_square false), (z_contains down down1 true _ _ side_square sq6 false) by (rewrite ?Et, ?Et2; auto). cbn [rbind orb].
  unfold slice_one_and_replace at 1. rewrite Ep2, side_slice by auto. reflexivity.
Qed.

(** The lower half of the square, from below. *)
Lemma half_slice rid n p : is_square p -> exists a b, slice_one rid (n, p) (map at3 lower) = Ok (Some ((n ++ str_of "-main", a), (n ++ str_of "-sup", b))) /\
  p_pts a = map at3 (rev lower) /\ p_tri a = [(4, 0, 1); (1, 2, 3); (1, 3, 4)]%nat /\ p_pts b = map at3 upper /\ p_tri b = [(4, 0, 1); (4, 1, 2); (4, 2, 3)]%nat.
Proof.
  intros (_ & Ep & Et & En). unfold slice_one. cbn [fst snd]. rewrite Ep, (z_added up up1 sq6 lower sq6 lower eq_refl). cbn [rbind snd]. rewrite (z_remove up up1 p sq6 lower lower) by (rewrite ?Et; auto). cbn [rbind]. rewrite map_length. cbn [length lower Nat.ltb Nat.leb]. change [(0, 3, 0)%Z; (3, 3, 0)%Z; (6, 3, 0)%Z; (6, 0, 0)%Z; (0, 0, 0)%Z] with lower.
  assert (Rm : remove_redundant_points (map at3 lower) (map at3 sq6) (p_tri p) = Ok (map at3 across_kept)).
  { rewrite Et. apply (first_run (map at3 sq6) sq6_tri [] (at3 (0, 3, 0)%Z) [at3 (3, 3, 0)%Z] (at3 (6, 3, 0)%Z) (map at3 [(6, 0, 0); (0, 0, 0)]%Z) [] (AtEdge 3) [Interior] (AtEdge 1) [AtVertex 1; AtVertex 0]); try reflexivity; try discriminate.
    apply (z_locs up up1 sq6 sq6_tri lower); [discriminate|reflexivity]. }
  rewrite (z_slice up up1 p sq6 lower sq6 lower (map at3 across_kept) (map at3 lower) (map at3 upper) _ _ _ _ _ _ Ep En eq_refl eq_refl Rm ltac:(cbn; lia) ltac:(rewrite Et; exact across_arrays)).
  destruct (z_make_vn up up1 lower (rev lower) [(4, 0, 1); (1, 2, 3); (1, 3, 4)]%nat) as (a & M1 & E1 & T1 & V1 & _); [reflexivity|].
  destruct (z_make_vn up up1 upper upper [(4, 0, 1); (4, 1, 2); (4, 2, 3)]%nat) as (b & M2 & E2 & T2 & V2 & _); [reflexivity|].
  exists a, b. split; [|auto]. unfold make_polygons. rewrite M1, M2. cbn [rbind assign_names fst snd or_random]. rewrite !Prelude.eqb_refl. cbn [rbind andb]. unfold face_like. cbn [snd]. rewrite En, V1, V2, allclose_refl by (unfold RTOL, ATOL8; lra). reflexivity.
Qed.
Lemma half_runs rid w1 n1 p1 w2 n2 p2 : is_square p1 -> is_made lower [(4, 0, 1); (4, 1, 2); (4, 2, 3)]%nat down p2 -> exists a b,
  stitch rid 2 (one_poly w1 (n1, p1)) (one_poly w2 (n2, p2)) = (([(w1, [(n1 ++ str_of "-main", a); (n1 ++ str_of "-sup", b)])], one_poly w2 (n2, p2)), Ok tt) /\
  p_pts a = map at3 (rev lower) /\ p_pts b = map at3 upper.
Proof.
  intros S (_ & Ep2 & Et2 & _). pose proof S as (_ & Ep & Et & _). destruct (half_slice rid n1 p1 S) as (a & b & Sl & Ea & Ta & Eb & Tb). exists a, b. split; auto. cbn [stitch]. unfold next_adjacent. cbn [one_poly polys walls_and_polys map concat app snd fst first_adjacent].
  rewrite (z_adjacent down p1 p2 sq6 lower true false false) by (rewrite ?Et, ?Et2; auto). cbn [rbind orb]. rewrite (both_within down rid _ _ (n1, p1) (n2, p2) sq6 lower) by (cbn [snd]; rewrite ?Et, ?Et2; auto). unfold slice_one_and_replace. cbn [snd]. rewrite Ep2, Sl. cbn [fst].
  assert (Ne : forall t, t <> [] -> n1 ++ t <> n1) by (intros t T X; apply T; apply (app_inv_head n1); rewrite app_nil_r; auto).
  assert (Nm : n1 ++ str_of "-sup" <> n1 ++ str_of "-main") by (intros X; apply app_inv_head in X; discriminate).
  rewrite (replace_eq _ _ _ (unique_one w1 (n1, p1))). cbn [replace_walls one_poly map fst]. rewrite (proj2 (memb_true n1 [n1]) (or_introl eq_refl)). unfold wall_replace, dkeys. cbn [map fst]. rewrite (proj2 (memb_true n1 [n1]) (or_introl eq_refl)). cbn [ddel]. destruct (eq_dec n1 n1) as [_|]; [|congruence]. unfold add_polys, dkeys. cbn [map fst app]. rewrite (proj2 (memb_false (n1 ++ str_of "-main") [])) by (intros []). cbn [map fst app]. rewrite (proj2 (memb_false (n1 ++ str_of "-sup") [n1 ++ str_of "-main"])) by (intros [X|[]]; auto). cbn [map fst snd app concat first_adjacent polys walls_and_polys one_poly].
  rewrite (z_adjacent down a p2 (rev lower) lower false false false) by (rewrite ?Ta, ?Et2; auto). cbn [rbind orb snd]. rewrite (z_adjacent down b p2 upper lower false false false) by (rewrite ?Tb, ?Et2; auto). reflexivity.
Qed.
(** A name that is taken. *)
Lemma taken_runs rid wn n p1 p2 : is_square p1 -> slice_one_and_replace rid [(wn, [(n, p1); (n ++ str_of "-main", p2)])] (n, p1) (map at3 lower) = ([(wn, [(n ++ str_of "-main", p2)])], Err GeometryError).
Proof.
  intros S. assert (Nm : n <> n ++ str_of "-main") by (intros X; apply (f_equal (@length ascii)) in X; rewrite app_length in X; cbn in X; lia). destruct (half_slice rid n p1 S) as (a & b & Sl & _).
  destruct (lost rid wn [(n, p1); (n ++ str_of "-main", p2)] (n, p1) (map at3 lower) (n ++ str_of "-main", a) (n ++ str_of "-sup", b)) as (Ls & _); [cbn [map fst]; constructor; [intros [X|[]]; congruence|constructor; [intros []|constructor]]|left; auto|exact Sl|].
  etransitivity; [apply Ls; cbn; auto|]. cbn [ddel fst snd]. match goal with |- context [if ?c then _ else _] => destruct c as [_|] end; [reflexivity|congruence].
Qed.
Lemma touching_never : exists p1 p2, make_polygon (map at3 sq6) None None = Ok p1 /\ make_polygon (map at3 touching_tri) None None = Ok p2 /\
  forall rid w1 n1 w2 n2, never_returns rid (one_poly w1 (n1, p1)) (one_poly w2 (n2, p2)).
Proof.
  destruct square_exists as (p1 & S). destruct (made touching_tri [(2, 0, 1)]%nat up eq_refl) as (p2 & M). exists p1, p2. split; [apply S|]. split; [apply M|]. intros. apply (touch_runs rid w1 n1 p1 w2 n2 p2 S M).
Qed.
Lemma side_uncaught : exists p1 p2, make_polygon (map at3 sq6) None None = Ok p1 /\ make_polygon (map at3 side_square) None None = Ok p2 /\
  forall rid k w1 n1 w2 n2, snd (stitch rid (S k) (one_poly w1 (n1, p1)) (one_poly w2 (n2, p2))) = Err TriangulationError.
Proof.
  destruct square_exists as (p1 & S). destruct (made side_square [(3, 0, 1); (3, 1, 2)]%nat down eq_refl) as (p2 & M). exists p1, p2. split; [apply S|]. split; [apply M|]. intros. rewrite (side_runs rid k w1 n1 p1 w2 n2 p2 S M). auto.
Qed.
Lemma half_stitched : exists p1 p2 a b, make_polygon (map at3 sq6) None None = Ok p1 /\ make_polygon (map at3 lower) None None = Ok p2 /\ p_pts a = map at3 (rev lower) /\ p_pts b = map at3 upper /\
  stitch [] 2 (one_poly (str_of "w") (str_of "p", p1)) (one_poly (str_of "v") (str_of "q", p2)) = (([(str_of "w", [(str_of "p-main", a); (str_of "p-sup", b)])], one_poly (str_of "v") (str_of "q", p2)), Ok tt).
Proof.
  destruct square_exists as (p1 & S). destruct (made lower [(4, 0, 1); (4, 1, 2); (4, 2, 3)]%nat down eq_refl) as (p2 & M). destruct (half_runs [] (str_of "w") (str_of "p") p1 (str_of "v") (str_of "q") p2 S M) as (a & b & R & E1 & E2). exists p1, p2, a, b. split; [apply S|]. split; [apply M|]. auto.
Qed.
Lemma half_lost : exists p1, make_polygon (map at3 sq6) None None = Ok p1 /\
  forall p2, slice_one_and_replace [] [(str_of "w", [(str_of "p", p1); (str_of "p-main", p2)])] (str_of "p", p1) (map at3 lower) = ([(str_of "w", [(str_of "p-main", p2)])], Err GeometryError).
Proof. destruct square_exists as (p1 & S). exists p1. split; [apply S|]. intros p2. exact (taken_runs [] (str_of "w") (str_of "p") p1 p2 S). Qed.
(** A replacement in the words of the specification. *)
Lemma ddel_filter {V} (w : dict str V) old : NoDup (map fst w) -> ddel w old = filter (fun p => negb (eqb old (fst p))) w.
Proof.
  induction w as [|(k, v) w IH]; auto. cbn [map fst ddel filter]. intros N. apply NoDup_cons_iff in N. destruct N as (I & N). destruct (eq_dec old k) as [->|E].
  - rewrite Prelude.eqb_refl. cbn [negb]. clear IH. induction w as [|(k', v') w IH]; auto. cbn [filter fst]. cbn [map fst] in I, N. apply NoDup_cons_iff in N. destruct N as (I' & N). rewrite Prelude.eqb_neq by (intros ->; apply I; left; auto). cbn [negb]. f_equal. apply IH; auto. intros X. apply I. right. auto.
  - rewrite Prelude.eqb_neq by auto. cbn [negb]. f_equal. apply IH. auto.
Qed.
Lemma replaced s old news s' : unique_names s -> replace_polygon s old news = (s', Ok tt) ->
  s' = map (fun w => if existsb (eqb old) (map fst (snd w)) then (fst w, filter (fun p => negb (eqb old (fst p))) (snd w) ++ news) else w) s.
Proof.
  intros U H. rewrite (replace_ok s old news s' U H). apply map_ext_in. intros w Iw. unfold swap_in. destruct U as (_ & U). rewrite <- ddel_filter by auto. reflexivity.
Qed.
