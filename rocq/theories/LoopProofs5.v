(** Polygons whose outline does not meet itself. *)
From Coq Require Import Reals List ZArith Bool Arith Lia Lra Permutation.
From Verif Require Import Prelude VecModel VecProofs GeomModel GeomSpec GeomProofs1 GeomProofs3 TriModel TriSpec PolyModel PolySpec CrossSpec InsideSpec PlanSpec RoomSpec RoomProofs1 WindSpec WindProofs1 WindProofs2 WindProofs5 LoopSpec LoopProofs1 LoopProofs2 LoopProofs3 LoopProofs4.
Import ListNotations.
Local Open Scope R_scope.

Lemma simple_two n d pts : unit n -> (forall p, In p pts -> on_plane n d p) -> simple_outline pts -> exists v, (v = 0 \/ v = -1)%Z /\
  (forall a b t u, In (a, b) (cyc_pairs pts) -> 0 < t < 1 -> (dot u a < dot u b -> winding n u (seg_point a b t) pts = v) /\ (dot u b < dot u a -> winding n u (seg_point a b t) pts = (v + 1)%Z)) /\
  forall q u, on_plane n d q -> ~ on_outline pts q -> cross u n <> vzero -> winding n u q pts = v \/ winding n u q pts = (v + 1)%Z.
Proof.
  intros U P S. destruct (perp_exists n U) as (f & Uf & Pf). destruct (simple_values (map (flat2 n f) pts) (flat_simple n f d U Uf Pf pts P S)) as (v & V & E & O). exists v. split; auto. split.
  - intros a b t u I T. destruct (cyc_pts pts _ I) as (Ia & Ib). cbn [fst snd] in *. rewrite (flat_wind n f d U Uf Pf u (seg_point a b t) pts P (seg_on n d a b t (P a Ia) (P b Ib))), flat_seg.
    destruct (E (flat2 n f a) (flat2 n f b) (at2 (flat2 n f a) (flat2 n f b) t) (dir2 n f u)) as (E1 & E2); [apply flat_edges; eauto|exists t; auto|]. pose proof (flat_ht n f d U Uf Pf u a b (P a Ia) (P b Ib)). split; intros L; [apply E1|apply E2]; lra.
  - intros q u Q Of N. rewrite (flat_wind n f d U Uf Pf u q pts P Q). apply O; [apply (flat_off n f d U Uf Pf); auto|]. apply (dir_nonzero n f U Uf Pf u N).
Qed.
Lemma winding_move n d pts q q' u u' : unit n -> (forall p, In p pts -> on_plane n d p) -> on_plane n d q -> on_plane n d q' -> cross u n <> vzero -> cross u' n <> vzero ->
  (forall m, on_segment q q' m -> ~ on_outline pts m) -> winding n u q pts = winding n u' q' pts.
Proof.
  intros U P Q Q' N N' H. destruct (perp_exists n U) as (f & Uf & Pf). rewrite (flat_wind n f d U Uf Pf u q pts P Q), (flat_wind n f d U Uf Pf u' q' pts P Q'). apply wind_move; [apply (dir_nonzero n f U Uf Pf u N)|apply (dir_nonzero n f U Uf Pf u' N')|].
  intros m (t & T & ->). rewrite <- flat_seg. apply (flat_off n f d U Uf Pf); auto; [apply (seg_on n d); auto|]. apply H. exists t. auto.
Qed.
Lemma edge_rise n d a b : unit n -> on_plane n d a -> on_plane n d b -> a <> b -> dot (vsub b a) a < dot (vsub b a) b /\ cross (vsub b a) n <> vzero.
Proof.
  intros U A B N. assert (Nz : vsub b a <> vzero) by (intros E; apply N; dvec a; dvec b; revert E; vunf; unfold vzero; intros E; injection E as E1 E2 E3; f_equal; lra).
  pose proof (dot_self_pos _ Nz) as Po. assert (Pe : dot (vsub b a) n = 0) by (unfold on_plane in *; replace (dot (vsub b a) n) with (dot n b - dot n a) by (clear; dvec n; dvec a; dvec b; vunf; ring); lra). split.
  - assert (E : dot (vsub b a) (vsub b a) = dot (vsub b a) b - dot (vsub b a) a) by (clear; dvec a; dvec b; vunf; ring). lra.
  - intros E. assert (L : dot (cross (vsub b a) n) (cross (vsub b a) n) = dot (vsub b a) (vsub b a) * dot n n - dot (vsub b a) n * dot (vsub b a) n) by (generalize (vsub b a); intros w; clear; dvec w; dvec n; vunf; ring).
    rewrite E, Pe, (U : dot n n = 1) in L. assert (Z : dot vzero vzero = 0) by (unfold vzero; vunf; ring). lra.
Qed.
Lemma simple_edge3 n d pts a b : unit n -> (forall p, In p pts -> on_plane n d p) -> simple_outline pts -> In (a, b) (cyc_pairs pts) -> a <> b.
Proof.
  intros U P S I E. subst b. destruct (perp_exists n U) as (f & Uf & Pf). apply (simple_edge _ (flat2 n f a) (flat2 n f a) (flat_simple n f d U Uf Pf pts P S)); auto. apply flat_edges. eauto.
Qed.

Section Covered.
Context (f : face) (n : vec) (d : R) (C : covers f n d) (Sm : simple_outline (fst f)).
Lemma cov_unit : unit n /\ forall p, In p (fst f) -> on_plane n d p.
Proof. destruct C as (U & P & _). auto. Qed.
Lemma cov_value a b t u : In (a, b) (cyc_pairs (fst f)) -> 0 < t < 1 -> dot u a < dot u b -> winding n u (seg_point a b t) (fst f) = 0%Z.
Proof.
  destruct cov_unit as (U & P). destruct (simple_two n d (fst f) U P Sm) as (v & V & E & _). intros I T L. rewrite (proj1 (E a b t u I T) L). destruct (cyc_pts _ _ I) as (Ia & Ib). cbn [fst snd] in *.
  destruct (edge_rise n d a b U (P a Ia) (P b Ib) (simple_edge3 n d _ a b U P Sm I)) as (R & N). pose proof (proj1 (E a b t _ I T) R) as W. pose proof (proj1 (winding_mesh f n d _ _ C (seg_on n d a b t (P a Ia) (P b Ib)) N)) as W0. lia.
Qed.
Lemma cov_two q u : on_plane n d q -> ~ on_outline (fst f) q -> cross u n <> vzero -> winding n u q (fst f) = 0%Z \/ winding n u q (fst f) = 1%Z.
Proof.
  destruct cov_unit as (U & P). destruct (simple_two n d (fst f) U P Sm) as (v & V & E & O). intros Q Of N. destruct (O q u Q Of N) as [W|W]; auto.
  - pose proof (proj1 (winding_mesh f n d u q C Q N)). lia.
  - pose proof (proj1 (winding_mesh f n d u q C Q N)). lia.
Qed.
Lemma bary_on a b c x y z : x + y + z = 1 -> on_plane n d a -> on_plane n d b -> on_plane n d c -> on_plane n d (bary a b c x y z).
Proof. unfold on_plane. intros S A B Ce. replace (dot n (bary a b c x y z)) with (x * dot n a + y * dot n b + z * dot n c) by (unfold bary; clear; dvec n; dvec a; dvec b; dvec c; vunf; ring). replace (dot n a) with (- d) by lra. replace (dot n b) with (- d) by lra. replace (dot n c) with (- d) by lra. replace z with (1 - x - y) by lra. ring. Qed.
(** A triangle is open. *)
Lemma open_edges es x y t : (forall a b, In (a, b) es -> 0 < left_of n a b (seg_point x y t)) -> 0 <= t <= 1 -> exists s, 0 < s < 1 /\ forall a b, In (a, b) es -> 0 < left_of n a b (seg_point x y s).
Proof.
  intros S T. pose (w := smul (1 / 2 - t) (vsub y x)). destruct (left_higher n (seg_point x y t) w es S) as (e & He & Hs).
  pose (e' := Rmin e (1 / 2)). assert (E1 : 0 < e') by (apply Rmin_glb_lt; lra). assert (E2 : e' <= e) by apply Rmin_l. assert (E3 : e' <= 1 / 2) by apply Rmin_r.
  exists (t + e' * (1 / 2 - t)). assert (Ts : 0 < t + e' * (1 / 2 - t) < 1) by nra. split; auto. intros a' b' I. pose proof (S a' b' I) as L1. pose proof (Hs a' b' I) as L2.
  assert (Lin : forall k, left_of n a' b' (vadd (seg_point x y t) (smul k w)) = left_of n a' b' (seg_point x y t) + k * dot n (cross (vsub b' a') w)) by (intros k; unfold left_of; generalize (seg_point x y t) w; intros z w'; clear; dvec n; dvec a'; dvec b'; dvec z; dvec w'; vunf; ring).
  replace (seg_point x y (t + e' * (1 / 2 - t))) with (vadd (seg_point x y t) (smul e' w)) by (unfold seg_point, w; clear; dvec x; dvec y; vunf; f_equal; ring). rewrite Lin in *. destruct (Rle_lt_dec 0 (dot n (cross (vsub b' a') w))); nra.
Qed.
Lemma open_seg a b c q x y t : on_plane n d a -> on_plane n d b -> on_plane n d c -> on_plane n d x -> on_plane n d y -> 0 < side n a b c -> 0 <= t <= 1 -> q = seg_point x y t -> strictly_inside a b c q ->
  exists s, 0 < s < 1 /\ strictly_inside a b c (seg_point x y s).
Proof.
  intros A B Ce X Y K T -> S. destruct cov_unit as (U & P).
  apply (strictly_sides n d a b c _ U A B Ce (seg_on n d x y t X Y) K) in S. destruct S as (S1 & S2 & S3).
  destruct (open_edges [(a, b); (b, c); (c, a)] x y t) as (s & Ts & Hs); auto; [intros a' b' [E|[E|[E|[]]]]; injection E as <- <-; rewrite left_side; auto|].
  exists s. split; auto. apply (strictly_sides n d a b c _ U A B Ce (seg_on n d x y _ X Y) K). rewrite <- !left_side. split; [|split]; apply Hs; cbn [In]; auto.
Qed.
(** No triangle reaches across the outline. *)
Lemma outline_not_inside t a b c q : In t (snd f) -> tri_verts (fst f) t (a, b, c) -> strictly_inside a b c q -> ~ on_outline (fst f) q.
Proof.
  intros It Vt S ((x, y) & I & s & Ts & E). cbn [fst snd] in E. destruct cov_unit as (U & P). destruct (cyc_pts _ _ I) as (Ix & Iy). cbn [fst snd] in *. destruct (covers_tri f n d t a b c C It Vt) as (_ & A & B & Ce & K).
  destruct (open_seg a b c q x y s A B Ce (P x Ix) (P y Iy) K Ts E S) as (s' & Ts' & S').
  destruct (edge_rise n d x y U (P x Ix) (P y Iy) (simple_edge3 n d _ x y U P Sm I)) as (R & N).
  pose proof (proj2 (proj2 (winding_mesh f n d _ _ C (seg_on n d x y s' (P x Ix) (P y Iy)) N)) t a b c It Vt S') as W. rewrite (cov_value x y s' _ I Ts' R) in W. lia.
Qed.
Lemma inside_on t a b c q : In t (snd f) -> tri_verts (fst f) t (a, b, c) -> in_triangle a b c q -> on_plane n d q.
Proof. intros It Vt (x & y & z & _ & _ & _ & E & ->). destruct (covers_tri f n d t a b c C It Vt) as (_ & A & B & Ce & _). apply bary_on; auto. Qed.
Lemma strictly_in a b c q : strictly_inside a b c q -> in_triangle a b c q.
Proof. intros (x & y & z & X & Y & Z & E & Q). exists x, y, z. repeat split; auto; lra. Qed.
Lemma some_dir : exists u, cross u n <> vzero.
Proof.
  destruct cov_unit as (U & P). pose proof Sm as Sm'. destruct Sm as (_ & L & _). destruct (fst f) as [|x [|y r]]; try (cbn in L; lia). exists (vsub y x). apply (edge_rise n d x y U (P x (or_introl eq_refl)) (P y (or_intror (or_introl eq_refl)))). apply (simple_edge3 n d (x :: y :: r) x y U P Sm'). cbn [cyc_pairs combine app]. left. auto.
Qed.
Lemma no_overlap i j t t' a b c a' b' c' q : nth_error (snd f) i = Some t -> tri_verts (fst f) t (a, b, c) -> strictly_inside a b c q -> nth_error (snd f) j = Some t' -> tri_verts (fst f) t' (a', b', c') -> strictly_inside a' b' c' q -> i = j.
Proof.
  intros Ei Vi Si Ej Vj Sj. destruct some_dir as (u & N). pose proof (inside_on t a b c q (nth_error_In _ _ Ei) Vi (strictly_in _ _ _ _ Si)) as Q. destruct (Nat.eq_dec i j) as [E|E]; auto. exfalso.
  pose proof (winding_overlap f n d u q i j t t' a b c a' b' c' C Q N E Ei Vi Si Ej Vj Sj). destruct (cov_two q u Q (outline_not_inside t a b c q (nth_error_In _ _ Ei) Vi Si) N); lia.
Qed.
(** Near every point there is one around which the outline winds at most once. *)
Lemma few es q : on_plane n d q -> (forall a b, In (a, b) es -> 0 < left_of n a b q) -> exists z u, on_plane n d z /\ cross u n <> vzero /\ (forall a b, In (a, b) es -> 0 < left_of n a b z) /\ (winding n u z (fst f) <= 1)%Z.
Proof.
  intros Q H. destruct (Classical_Prop.classic (on_outline (fst f) q)) as [((x, y) & I & t & T & E)|O].
  - cbn [fst snd] in E. subst q. destruct cov_unit as (U & P). destruct (cyc_pts _ _ I) as (Ix & Iy). cbn [fst snd] in *. destruct (open_edges es x y t H T) as (s & Ts & Hs). destruct (edge_rise n d x y U (P x Ix) (P y Iy) (simple_edge3 n d _ x y U P Sm I)) as (R & N).
    exists (seg_point x y s), (vsub y x). split; [apply seg_on; auto|]. split; auto. split; auto. rewrite (cov_value x y s _ I Ts R). lia.
  - destruct some_dir as (u & N). exists q, u. split; auto. split; auto. split; auto. destruct (cov_two q u Q O N); lia.
Qed.
(** The triangles are what the outline winds around. *)
Lemma region q u : on_plane n d q -> ~ on_outline (fst f) q -> cross u n <> vzero -> (in_mesh f q <-> winding n u q (fst f) = 1%Z).
Proof.
  intros Q O N. split.
  - intros (t & a & b & c & It & Vt & x & y & z & X & Y & Z & E & Eq). destruct cov_unit as (U & P). destruct (covers_tri f n d t a b c C It Vt) as (_ & A & B & Ce & K). pose (g := bary a b c (1 / 3) (1 / 3) (1 / 3)).
    assert (Ig : strictly_inside a b c g) by (exists (1 / 3), (1 / 3), (1 / 3); repeat split; lra). assert (Qg : on_plane n d g) by (apply bary_on; auto; lra).
    assert (W : winding n u q (fst f) = winding n u g (fst f)).
    { apply (winding_move n d); auto. intros m (s & Ts & ->). destruct (Req_dec s 0) as [->|Ns]; [replace (seg_point q g 0) with q; [auto|]|].
      - generalize g. intros g'. unfold seg_point. clear. dvec q; dvec g'; vunf; f_equal; ring.
      - apply (outline_not_inside t a b c); auto. exists ((1 - s) * x + s * (1 / 3)), ((1 - s) * y + s * (1 / 3)), ((1 - s) * z + s * (1 / 3)). repeat split; try nra. subst q. unfold g, seg_point, bary. clear. dvec a; dvec b; dvec c. vunf. f_equal; ring. }
    rewrite W. pose proof (proj2 (proj2 (winding_mesh f n d u g C Qg N)) t a b c It Vt Ig) as W1. destruct (cov_two g u Qg (outline_not_inside t a b c g It Vt Ig) N); lia.
  - intros W. apply (proj1 (proj2 (winding_mesh f n d u q C Q N))). lia.
Qed.
Lemma region_all q u : on_plane n d q -> cross u n <> vzero -> (in_mesh f q <-> on_outline (fst f) q \/ winding n u q (fst f) = 1%Z).
Proof.
  intros Q N. split.
  - intros I. destruct (Classical_Prop.classic (on_outline (fst f) q)) as [O|O]; auto. right. apply region; auto.
  - intros [O|W]; [apply (outline_in_mesh f n d q (covers_tiled f n d C) O)|]. apply (proj1 (proj2 (winding_mesh f n d u q C Q N))). lia.
Qed.
End Covered.
