(** Polygons the code makes of outlines that do not meet themselves; their slices. *)
From Coq Require Import Reals List ZArith Bool Arith Lia Lra Permutation.
From Verif Require Import Prelude VecModel VecProofs GeomModel GeomSpec GeomProofs1 GeomProofs3 TriModel TriSpec TriProofs2 PolyModel PolySpec CrossSpec InsideSpec PlanSpec RoomSpec RoomProofs1 SliceModel SliceSpec
  WindSpec WindProofs1 WindProofs2 WindProofs4 WindProofs5 LoopSpec LoopProofs4 LoopProofs5.
Import ListNotations.
Local Open Scope R_scope.

(** ** The same loop *)
Lemma simple_same pts pts' : Permutation pts pts' -> (Permutation (cyc_pairs pts') (cyc_pairs pts) \/ Permutation (cyc_pairs pts') (map swap (cyc_pairs pts))) -> simple_outline pts -> simple_outline pts'.
Proof.
  intros Pm D (Nd & L & H). split; [eapply Permutation_NoDup; eauto|]. split; [rewrite <- (Permutation_length Pm); auto|]. intros a b a' b' m I I' N S1 S2. destruct D as [D|D].
  - apply (H a b a' b'); auto; eapply Permutation_in; eauto.
  - apply (Permutation_in _ D), in_map_iff in I. apply (Permutation_in _ D), in_map_iff in I'. destruct I as ((b0, a0) & E & I), I' as ((b0', a0') & E' & I'). unfold swap in E, E'. cbn in E, E'. injection E as <- <-. injection E' as <- <-.
    assert (Sw : forall p q r, on_segment p q r -> on_segment q p r) by (intros p q r (t & T & ->); exists (1 - t); split; [lra|]; unfold seg_point; dvec p; dvec q; vunf; f_equal; ring).
    destruct (H b0 a0 b0' a0' m I I'); auto. congruence.
Qed.
Lemma simple_rotation pts pts' : rotation_of pts pts' -> simple_outline pts -> simple_outline pts'.
Proof. intros R. apply simple_same; [destruct R as (a & b & -> & ->); apply Permutation_app_comm|left; apply Permutation_sym, cyc_pairs_rotation; auto]. Qed.
Lemma simple_rev pts : simple_outline pts -> simple_outline (rev pts).
Proof. apply simple_same; [apply Permutation_rev|right; apply cyc_pairs_rev]. Qed.
Lemma outline_perm pts pts' q : Permutation (cyc_pairs pts) (cyc_pairs pts') -> on_outline pts q -> on_outline pts' q.
Proof. intros P (e & I & S). exists e. split; auto. eapply Permutation_in; eauto. Qed.

(** ** Polygons the code makes *)
Section Made.
Context (pts : list vec) (p : polygon) (n : vec) (c : R) (M : make_polygon pts None None = Ok p) (U : unit n) (P : in_plane n c pts) (Sm : simple_outline pts).
Lemma made_simple : simple_outline (p_pts p).
Proof. destruct (made_covers pts p n c M U P) as (m & d & _ & _ & _ & _ & _ & [E|E]); rewrite E; auto using simple_rev. Qed.
Lemma made_frame : exists m d, covers (p_pts p, p_tri p) m d /\ (forall q, on_plane m d q <-> dot n q = c) /\ (forall u, cross u n <> vzero <-> cross u m <> vzero) /\ (forall q, on_outline (p_pts p) q <-> on_outline pts q) /\
  (forall q u, dot n q = c -> ~ on_outline pts q -> winding m u q (p_pts p) = winding n u q pts \/ winding m u q (p_pts p) = (- winding n u q pts)%Z).
Proof.
  destruct (made_covers pts p n c M U P) as (m & d & D & Em & C & G & Ne & R). exists m, d. split; auto. split; [|split; [|split]].
  - intros q. unfold on_plane. destruct D as [(-> & ->)|(-> & ->)]; [lra|replace (dot (vopp n) q) with (- dot n q) by (clear; dvec n; dvec q; vunf; ring); lra].
  - intros u. destruct D as [(-> & _)|(-> & _)]; [tauto|]. assert (E : cross u (vopp n) = vopp (cross u n)) by (clear; dvec u; dvec n; vunf; f_equal; ring). rewrite E. generalize (cross u n). intros w. clear. dvec w. vunf. unfold vzero. split; intros N E; apply N; injection E as E1 E2 E3; f_equal; lra.
  - intros q. destruct R as [R|R]; rewrite R; [tauto|]. split; [intros O; rewrite <- (rev_involutive pts); apply outline_rev; auto|apply outline_rev].
  - intros q u Q O. assert (Pn : forall p, In p pts -> on_plane n (- c) p) by (intros x I; unfold on_plane; rewrite (P x I); ring). assert (Qn : on_plane n (- c) q) by (unfold on_plane; lra).
    pose proof (winding_opp n (- c) u q pts U Pn Qn O) as W. destruct R as [R|R]; rewrite R, ?winding_rev; destruct D as [(-> & _)|(-> & _)]; rewrite ?W; auto; left; lia.
Qed.
Lemma made_mesh_plane q : in_mesh (p_pts p, p_tri p) q -> dot n q = c.
Proof. destruct made_frame as (m & d & C & Pl & _). intros (t & x & y & z & It & Vt & I). apply Pl. eapply (inside_on (p_pts p, p_tri p)); eauto. Qed.
Lemma made_region q u : dot n q = c -> cross u n <> vzero -> (in_mesh (p_pts p, p_tri p) q <-> on_outline pts q \/ winding n u q pts <> 0%Z).
Proof.
  intros Q N. destruct made_frame as (m & d & C & Pl & Cr & Ou & W). apply Pl in Q as Qm. apply Cr in N as Nm. rewrite (region_all (p_pts p, p_tri p) m d C made_simple q u Qm Nm). cbn [fst]. rewrite Ou.
  destruct (Classical_Prop.classic (on_outline pts q)) as [O|O]; [tauto|]. assert (O' : ~ on_outline (p_pts p) q) by (rewrite Ou; auto). pose proof (cov_two (p_pts p, p_tri p) m d C made_simple q u Qm O' Nm) as T. cbn [fst] in T. destruct (W q u Q O) as [E|E]; split; intros [X|X]; try contradiction; right; lia.
Qed.
Lemma made_few q u : dot n q = c -> ~ on_outline pts q -> cross u n <> vzero -> (Z.abs (winding n u q pts) <= 1)%Z.
Proof.
  intros Q O N. destruct made_frame as (m & d & C & Pl & Cr & Ou & W). apply Pl in Q as Qm. apply Cr in N as Nm. assert (O' : ~ on_outline (p_pts p) q) by (rewrite Ou; auto). pose proof (cov_two (p_pts p, p_tri p) m d C made_simple q u Qm O' Nm) as T. cbn [fst] in T. destruct (W q u Q O); lia.
Qed.
End Made.
(** Two polygons with the same outline. *)
Lemma made_same pts pts' p p' n c q : make_polygon pts None None = Ok p -> make_polygon pts' None None = Ok p' -> unit n -> in_plane n c pts -> simple_outline pts -> rotation_of pts pts' \/ reverse_loop pts pts' ->
  in_mesh (p_pts p, p_tri p) q -> in_mesh (p_pts p', p_tri p') q.
Proof.
  intros M M' U P S R I. pose proof (made_mesh_plane pts p n c M U P q I) as Q.
  assert (Pp : Permutation pts pts') by (destruct R as [(a & b & -> & ->)|(a & b & E & ->)]; [apply Permutation_app_comm|]; apply (Permutation_trans (Permutation_rev pts)); rewrite E; apply Permutation_app_comm).
  assert (P' : in_plane n c pts') by (intros x Ix; apply P; eapply Permutation_in; [apply Permutation_sym, Pp|auto]).
  assert (S' : simple_outline pts') by (destruct R as [R|R]; [eapply simple_rotation; eauto|eapply simple_rotation; [exact R|]; apply simple_rev; auto]).
  destruct (made_frame pts p n c M U P) as (m & d & C & _ & Cr & _). destruct (some_dir (p_pts p, p_tri p) m d C (made_simple pts p n c M U P S)) as (u & N). apply Cr in N.
  apply (made_region pts p n c M U P S q u Q N) in I. apply (made_region pts' p' n c M' U P' S' q u Q N).
  destruct R as [R|R]; [rewrite (winding_rot n u q _ _ R)|rewrite (winding_rot n u q _ _ R), winding_rev]; (destruct I as [I|I]; [left|right; lia]); (eapply outline_perm; [apply cyc_pairs_rotation, R|]); auto using outline_rev.
Qed.

(** ** Closeness *)
Lemma mesh_far f n d q : covers f n d -> on_plane n d q -> ~ in_mesh f q ->
  exists es, (forall a b, In (a, b) es -> 0 < left_of n a b q) /\ forall z, on_plane n d z -> (forall a b, In (a, b) es -> 0 < left_of n a b z) -> ~ in_mesh f z.
Proof.
  intros C Q I. assert (H : forall ts, (forall t, In t ts -> In t (snd f)) -> exists es, (forall a b, In (a, b) es -> 0 < left_of n a b q) /\
    forall z, on_plane n d z -> (forall a b, In (a, b) es -> 0 < left_of n a b z) -> forall t a b c, In t ts -> tri_verts (fst f) t (a, b, c) -> ~ in_triangle a b c z).
  { induction ts as [|t ts IH]; intros Hs; [exists []; split; [intros a b []|intros z _ _ t a b c []]|]. destruct IH as (es & H1 & H2); [intros; apply Hs; right; auto|].
    destruct (sound_verts f n d C t (Hs t (or_introl eq_refl))) as (a & b & c & Vt). destruct (covers_tri f n d t a b c C (Hs t (or_introl eq_refl)) Vt) as (U & A & B & Ce & K).
    assert (Nt : ~ in_triangle a b c q) by (intros X; apply I; exists t, a, b, c; split; [apply Hs; left; auto|auto]).
    assert (E : exists x y, left_of n x y q < 0 /\ forall z, on_plane n d z -> left_of n x y z < 0 -> ~ in_triangle a b c z).
    { rewrite (in_triangle_sides n d) in Nt by auto. destruct (Rlt_dec (side n a b q) 0) as [L|L]; [exists a, b|destruct (Rlt_dec (side n b c q) 0) as [L'|L']; [exists b, c|destruct (Rlt_dec (side n c a q) 0) as [L2|L2]; [exists c, a|exfalso; apply Nt; lra]]]; (split; [rewrite left_side; auto|]; intros z Z Lz; rewrite (in_triangle_sides n d) by auto; rewrite left_side in Lz; lra). }
    destruct E as (x & y & L & Hz). exists ((y, x) :: es). split.
    - intros a' b' [X|X]; [injection X as <- <-; rewrite left_swap; lra|auto].
    - intros z Z Hl t' a' b' c' [<-|It] Vt'.
      + assert (E3 : (a', b', c') = (a, b, c)) by (destruct t as ((i, j), k), Vt as (V1 & V2 & V3), Vt' as (W1 & W2 & W3); congruence). injection E3 as -> -> ->. apply Hz; auto. specialize (Hl y x (or_introl eq_refl)). rewrite left_swap in Hl. lra.
      + apply (H2 z Z (fun a0 b0 I0 => Hl a0 b0 (or_intror I0)) t' a' b' c' It Vt'). }
  destruct (H (snd f) (fun t It => It)) as (es & H1 & H2). exists es. split; auto. intros z Z Hl (t & a & b & c & It & Vt & T). apply (H2 z Z Hl t a b c It Vt T).
Qed.
Lemma left_near n q z es : (forall a b, In (a, b) es -> 0 < left_of n a b q) -> exists s, 0 < s <= 1 /\ forall a b, In (a, b) es -> 0 < left_of n a b (seg_point q z s).
Proof.
  intros S. pose (w := vsub z q). destruct (left_higher n q w es S) as (e & He & Hs). pose (e' := Rmin e 1). assert (E1 : 0 < e') by (apply Rmin_glb_lt; lra). assert (E2 : e' <= e) by apply Rmin_l. assert (E3 : e' <= 1) by apply Rmin_r.
  exists e'. split; [lra|]. intros a b I. pose proof (S a b I) as L1. pose proof (Hs a b I) as L2.
  assert (Lin : forall k, left_of n a b (vadd q (smul k w)) = left_of n a b q + k * dot n (cross (vsub b a) w)) by (intros k; unfold left_of; generalize w; intros w'; clear; dvec n; dvec a; dvec b; dvec q; dvec w'; vunf; ring).
  unfold seg_point. fold w. rewrite Lin in *. destruct (Rle_lt_dec 0 (dot n (cross (vsub b a) w))); nra.
Qed.
Definition middle (a b c : vec) : vec := bary a b c (1 / 3) (1 / 3) (1 / 3).
Lemma towards_middle a b c q s : in_triangle a b c q -> 0 < s <= 1 -> strictly_inside a b c (seg_point q (middle a b c) s).
Proof.
  intros (x & y & z & X & Y & Z & E & ->) S. exists ((1 - s) * x + s * (1 / 3)), ((1 - s) * y + s * (1 / 3)), ((1 - s) * z + s * (1 / 3)). repeat split; try nra. unfold middle, seg_point, bary. clear. dvec a; dvec b; dvec c. vunf. f_equal; ring.
Qed.

Lemma dir_exists n : unit n -> exists u, cross u n <> vzero.
Proof.
  intros U. destruct (perp_exists n U) as (g & Ug & Pg). exists g. intros E. assert (L : dot (cross g n) (cross g n) = dot g g * dot n n - dot g n * dot g n) by (clear; dvec g; dvec n; vunf; ring).
  unfold unit in *. rewrite E, Ug, U, Pg in L. assert (Z : dot vzero vzero = 0) by (unfold vzero; vunf; ring). lra.
Qed.
(** ** An outline divided into two *)
Section Divided.
Context (f fa fb : face) (n : vec) (d : R) (C : covers f n d) (Ca : covers fa n d) (Cb : covers fb n d).
Context (W : forall u q, winding n u q (fst f) = (winding n u q (fst fa) + winding n u q (fst fb))%Z).
Lemma tri_edges_inside g t a b c z : covers g n d -> In t (snd g) -> tri_verts (fst g) t (a, b, c) -> on_plane n d z -> (strictly_inside a b c z <-> forall x y, In (x, y) [(a, b); (b, c); (c, a)] -> 0 < left_of n x y z).
Proof.
  intros Cg It Vt Z. destruct (covers_tri g n d t a b c Cg It Vt) as (U & A & B & Ce & K). rewrite (strictly_sides n d a b c z U A B Ce Z K), <- !left_side. split.
  - intros (S1 & S2 & S3) x y [E|[E|[E|[]]]]; injection E as <- <-; auto.
  - intros H. split; [|split]; apply H; cbn [In]; auto.
Qed.
Lemma part_pos g u q t a b c : covers g n d -> cross u n <> vzero -> on_plane n d q -> In t (snd g) -> tri_verts (fst g) t (a, b, c) -> strictly_inside a b c q -> (0 < winding n u q (fst g))%Z.
Proof. intros Cg N Q It Vt S. exact (proj2 (proj2 (winding_mesh g n d u q Cg Q N)) t a b c It Vt S). Qed.
Lemma part_nonneg g u q : covers g n d -> cross u n <> vzero -> on_plane n d q -> (0 <= winding n u q (fst g))%Z.
Proof. intros Cg N Q. exact (proj1 (winding_mesh g n d u q Cg Q N)). Qed.
Lemma middle_on g t a b c : covers g n d -> In t (snd g) -> tri_verts (fst g) t (a, b, c) -> on_plane n d (middle a b c).
Proof. intros Cg It Vt. destruct (covers_tri g n d t a b c Cg It Vt) as (_ & A & B & Ce & _). apply bary_on; auto. lra. Qed.
Lemma part_in q : in_mesh fa q \/ in_mesh fb q -> in_mesh f q.
Proof.
  assert (H : forall g, g = fa \/ g = fb -> in_mesh g q -> in_mesh f q); [|intros [I|I]; [apply (H fa)|apply (H fb)]; auto]. intros g G I. assert (Cg : covers g n d) by (destruct G as [->| ->]; auto). destruct I as (t & a & b & c & It & Vt & T).
  assert (Q : on_plane n d q) by (eapply (inside_on g n d Cg); eauto). destruct (Classical_Prop.classic (in_mesh f q)) as [I|I]; auto. exfalso. destruct (mesh_far f n d q C Q I) as (es & H1 & H2). destruct (left_near n q (middle a b c) es H1) as (s & S & H3).
  pose proof (towards_middle a b c q s T S) as Si. assert (Z : on_plane n d (seg_point q (middle a b c) s)) by (apply seg_on; auto; apply (middle_on g t a b c Cg It Vt)). apply (H2 _ Z H3). destruct (dir_exists n (proj1 C)) as (u & N).
  apply (proj1 (proj2 (winding_mesh f n d u _ C Z N))). rewrite W. pose proof (part_pos g u _ t a b c Cg N Z It Vt Si). pose proof (part_nonneg fa u _ Ca N Z). pose proof (part_nonneg fb u _ Cb N Z). destruct G as [->| ->]; lia.
Qed.
Lemma whole_in q : in_mesh f q -> in_mesh fa q \/ in_mesh fb q.
Proof.
  intros (t & a & b & c & It & Vt & T). assert (Q : on_plane n d q) by (eapply (inside_on f n d C); eauto). destruct (Classical_Prop.classic (in_mesh fa q)) as [Ia|Ia]; auto. destruct (Classical_Prop.classic (in_mesh fb q)) as [Ib|Ib]; auto. exfalso.
  destruct (mesh_far fa n d q Ca Q Ia) as (ea & A1 & A2). destruct (mesh_far fb n d q Cb Q Ib) as (eb & B1 & B2). destruct (left_near n q (middle a b c) (ea ++ eb)) as (s & S & H3); [intros x y I; apply in_app_iff in I; destruct I; auto|].
  pose proof (towards_middle a b c q s T S) as Si. assert (Z : on_plane n d (seg_point q (middle a b c) s)) by (apply seg_on; auto; apply (middle_on f t a b c C It Vt)). destruct (dir_exists n (proj1 C)) as (u & N).
  pose proof (part_pos f u _ t a b c C N Z It Vt Si) as Po. rewrite W in Po. pose proof (part_nonneg fa u _ Ca N Z). pose proof (part_nonneg fb u _ Cb N Z).
  destruct (Z.eq_dec (winding n u (seg_point q (middle a b c) s) (fst fa)) 0) as [E|E].
  - apply (B2 _ Z); [intros x y I; apply H3, in_app_iff; auto|]. apply (proj1 (proj2 (winding_mesh fb n d u _ Cb Z N))). lia.
  - apply (A2 _ Z); [intros x y I; apply H3, in_app_iff; auto|]. apply (proj1 (proj2 (winding_mesh fa n d u _ Ca Z N))). lia.
Qed.
Context (Sm : simple_outline (fst f)).
Lemma parts_apart t a b c t' a' b' c' q : In t (snd fa) -> tri_verts (fst fa) t (a, b, c) -> strictly_inside a b c q -> In t' (snd fb) -> tri_verts (fst fb) t' (a', b', c') -> strictly_inside a' b' c' q -> False.
Proof.
  intros It Vt S It' Vt' S'. assert (Q : on_plane n d q) by (eapply (inside_on fa n d Ca); eauto; apply strictly_in; auto).
  destruct (few f n d C Sm ([(a, b); (b, c); (c, a)] ++ [(a', b'); (b', c'); (c', a')]) q Q) as (z & u & Z & N & H & L).
  { intros x y I. apply in_app_iff in I. destruct I as [I|I]; [exact (proj1 (tri_edges_inside fa t a b c q Ca It Vt Q) S x y I)|exact (proj1 (tri_edges_inside fb t' a' b' c' q Cb It' Vt' Q) S' x y I)]. }
  assert (S1 : strictly_inside a b c z) by (apply (tri_edges_inside fa t a b c z Ca It Vt Z); intros x y I; apply H, in_app_iff; auto).
  assert (S2 : strictly_inside a' b' c' z) by (apply (tri_edges_inside fb t' a' b' c' z Cb It' Vt' Z); intros x y I; apply H, in_app_iff; auto).
  pose proof (part_pos fa u z t a b c Ca N Z It Vt S1). pose proof (part_pos fb u z t' a' b' c' Cb N Z It' Vt' S2). rewrite W in L. lia.
Qed.
Lemma part_apart g i j t t' a b c a' b' c' q : g = fa \/ g = fb -> nth_error (snd g) i = Some t -> tri_verts (fst g) t (a, b, c) -> strictly_inside a b c q -> nth_error (snd g) j = Some t' -> tri_verts (fst g) t' (a', b', c') -> strictly_inside a' b' c' q -> i = j.
Proof.
  intros G Ei Vt S Ej Vt' S'. assert (Cg : covers g n d) by (destruct G as [->| ->]; auto). pose proof (nth_error_In _ _ Ei) as It. pose proof (nth_error_In _ _ Ej) as It'. assert (Q : on_plane n d q) by (eapply (inside_on g n d Cg); eauto; apply strictly_in; auto).
  destruct (few f n d C Sm ([(a, b); (b, c); (c, a)] ++ [(a', b'); (b', c'); (c', a')]) q Q) as (z & u & Z & N & H & L).
  { intros x y I. apply in_app_iff in I. destruct I as [I|I]; [exact (proj1 (tri_edges_inside g t a b c q Cg It Vt Q) S x y I)|exact (proj1 (tri_edges_inside g t' a' b' c' q Cg It' Vt' Q) S' x y I)]. }
  assert (S1 : strictly_inside a b c z) by (apply (tri_edges_inside g t a b c z Cg It Vt Z); intros x y I; apply H, in_app_iff; auto).
  assert (S2 : strictly_inside a' b' c' z) by (apply (tri_edges_inside g t' a' b' c' z Cg It' Vt' Z); intros x y I; apply H, in_app_iff; auto).
  destruct (Nat.eq_dec i j) as [E|E]; auto. exfalso. pose proof (winding_overlap g n d u z i j t t' a b c a' b' c' Cg Z N E Ei Vt S1 Ej Vt' S2) as L2. rewrite W in L. pose proof (part_nonneg fa u z Ca N Z). pose proof (part_nonneg fb u z Cb N Z). destruct G as [->| ->]; lia.
Qed.
End Divided.
Lemma loop_sym (pts pts' : list vec) : rotation_of pts pts' \/ reverse_loop pts pts' -> rotation_of pts' pts \/ reverse_loop pts' pts.
Proof.
  intros [(a & b & -> & ->)|(a & b & E & ->)]; [left; exists b, a; auto|right]. exists (rev a), (rev b). split; [apply rev_app_distr|]. rewrite <- (rev_involutive pts), E. apply rev_app_distr.
Qed.
Lemma made_same_iff pts pts' p p' n c q : make_polygon pts None None = Ok p -> make_polygon pts' None None = Ok p' -> unit n -> in_plane n c pts -> simple_outline pts -> rotation_of pts pts' \/ reverse_loop pts pts' ->
  in_mesh (p_pts p, p_tri p) q <-> in_mesh (p_pts p', p_tri p') q.
Proof.
  intros M M' U P S R. split; [exact (made_same pts pts' p p' n c q M M' U P S R)|].
  assert (Pp : Permutation pts pts') by (destruct R as [(a & b & -> & ->)|(a & b & E & ->)]; [apply Permutation_app_comm|]; apply (Permutation_trans (Permutation_rev pts)); rewrite E; apply Permutation_app_comm).
  assert (P' : in_plane n c pts') by (intros x Ix; apply P; eapply Permutation_in; [apply Permutation_sym, Pp|auto]).
  assert (S' : simple_outline pts') by (destruct R as [R|R]; [eapply simple_rotation; eauto|eapply simple_rotation; [exact R|]; apply simple_rev; auto]).
  exact (made_same pts' pts p' p n c q M' M U P' S' (loop_sym _ _ R)).
Qed.
