(** What the code accepts and the winding number of the outline. *)
From Coq Require Import Reals List ZArith Bool Arith Lia Lra Permutation.
From Verif Require Import Prelude VecModel VecProofs VoxModel GeomModel GeomSpec GeomProofs1 GeomProofs2 GeomProofs3 GeomProofs4 GeomProofs5 TriModel TriSpec TriProofs TriProofs2 PolyModel PolySpec PolyProofs1 PolyProofs2 PlanSpec PlanProofs1 CrossSpec CrossProofs1 InsideSpec InsideProofs1 AdjSpec AdjProofs1 RoomSpec RoomProofs1 RoomProofs2 WindSpec WindProofs1.
Import ListNotations.
Local Open Scope R_scope.

Lemma hits_two l i j : nth_error l i = Some true -> nth_error l j = Some true -> i <> j -> (2 <= hits l)%nat.
Proof.
  revert i j. induction l as [|x l IH]; intros [|i] [|j] Hi Hj N; cbn in Hi, Hj; try discriminate; try congruence.
  - injection Hi as ->. unfold hits. cbn [filter length]. assert (H : hits l <> 0%nat) by (rewrite hits_zero; intros H; apply H; eapply nth_error_In; eauto). unfold hits in H. lia.
  - injection Hj as ->. unfold hits. cbn [filter length]. assert (H : hits l <> 0%nat) by (rewrite hits_zero; intros H; apply H; eapply nth_error_In; eauto). unfold hits in H. lia.
  - specialize (IH i j Hi Hj ltac:(congruence)). unfold hits in *. cbn [filter]. destruct x; cbn [length]; lia.
Qed.
Lemma told_at P f bs i t a b c : told P f bs -> nth_error (snd f) i = Some t -> tri_verts (fst f) t (a, b, c) -> P a b c -> nth_error bs i = Some true.
Proof.
  unfold told. intros F. revert i. induction F as [|t' x ts bs (a' & b' & c' & V & E) F IH]; intros [|i] I T H; cbn in I; try discriminate; [|apply (IH i); auto].
  injection I as ->. cbn. f_equal. apply E. destruct t as ((i, j), k). destruct T as (T1 & T2 & T3), V as (V1 & V2 & V3). assert (a' = a) by congruence. assert (b' = b) by congruence. assert (c' = c) by congruence. subst. auto.
Qed.
(** Triangles that share an inner point are wound around twice. *)
Lemma winding_overlap f n d u q i j t t' a b c a' b' c' : covers f n d -> on_plane n d q -> cross u n <> vzero -> i <> j ->
  nth_error (snd f) i = Some t -> tri_verts (fst f) t (a, b, c) -> strictly_inside a b c q ->
  nth_error (snd f) j = Some t' -> tri_verts (fst f) t' (a', b', c') -> strictly_inside a' b' c' q -> (2 <= winding n u q (fst f))%Z.
Proof.
  intros C Q N Ne I V S I' V' S'. destruct (told_open f n d q C Q) as (os & O). destruct (told_closed f n d q C Q) as (cs & Cs). destruct (winding_count f n d u q os cs C Q N O Cs) as (L & _).
  pose proof (hits_two os i j (told_at _ f os i t a b c O I V S) (told_at _ f os j t' a' b' c' O I' V' S') Ne). lia.
Qed.
(** Off the edges of the triangles the count is exact. *)
Lemma winding_exact f n d u q os : covers f n d -> on_plane n d q -> cross u n <> vzero -> told (fun a b c => strictly_inside a b c q) f os ->
  (forall t a b c, In t (snd f) -> tri_verts (fst f) t (a, b, c) -> in_triangle a b c q -> strictly_inside a b c q) -> winding n u q (fst f) = Z.of_nat (hits os).
Proof.
  intros C Q N O H. assert (Cs : told (fun a b c => in_triangle a b c q) f os).
  { revert O H. unfold told. induction 1 as [|t x ts bs (a & b & c & V & E) F IH]; intros H; constructor.
    - exists a, b, c. split; auto. rewrite E. split; [|apply (H t); auto; left; auto]. intros (x1 & y1 & z1 & X & Y & Z & Es & Eq). exists x1, y1, z1. repeat (split; [lra|]). auto.
    - apply IH. intros t' a' b' c' I. apply H. right. auto. }
  destruct (winding_count f n d u q os os C Q N O Cs). lia.
Qed.
Lemma off_edge_left n d v w q : unit n -> on_plane n d v -> on_plane n d w -> on_plane n d q -> off_edge v w q -> side n v w q <> 0.
Proof.
  intros U Pv Pw Q (_ & _ & _ & O4) Z. destruct (perp_cross n (vsub w v) (vsub q v) U) as (k & X); [unfold on_plane in *; vunf; lra|unfold on_plane in *; vunf; lra|]. unfold side in Z. rewrite X in Z. replace (dot n (smul k n)) with (k * dot n n) in Z by (dvec n; vunf; ring). rewrite U in Z. unfold true_area in O4. rewrite X in O4. assert (k = 0) by lra. subst k.
  replace (smul 0 n) with vzero in O4 by (dvec n; vunf; unfold vzero; f_equal; ring). unfold norm, dot, vzero in O4. cbn [vx vy vz] in O4. replace (0 * 0 + 0 * 0 + 0 * 0) with 0 in O4 by ring. rewrite sqrt_0 in O4. lra.
Qed.
Lemma clear_strict f n d q t a b c : covers f n d -> on_plane n d q -> clear_edges f q -> In t (snd f) -> tri_verts (fst f) t (a, b, c) -> in_triangle a b c q -> strictly_inside a b c q.
Proof.
  intros C Q Cl I V T. destruct (covers_tri f n d t a b c C I V) as (U & A & B & C' & K). destruct (Cl t a b c I V) as ((O1 & O2 & O3) & _).
  apply (in_triangle_sides n d) in T; auto. apply (strictly_sides n d); auto.
  pose proof (off_edge_left n d a b q U A B Q O1). pose proof (off_edge_left n d b c q U B C' Q O2). pose proof (off_edge_left n d c a q U C' A Q O3). lra.
Qed.
(** The code's answer. *)
Lemma inside_winding f n d u q atol : covers f n d -> good_mesh (fst f) (snd f) -> fst f <> [] -> on_plane n d q -> cross u n <> vzero -> clear_edges f q -> 0 < atol ->
  is_point_inside q (fst f) (snd f) true atol = Ok (negb (winding n u q (fst f) =? 0)%Z).
Proof.
  intros C G Ne Q N Cl A. assert (Fl : flat f n d) by (destruct C as (U & P & _); repeat (split; auto)). destruct (winding_mesh f n d u q C Q N) as (W0 & W1 & W2).
  destruct (Z.eqb_spec (winding n u q (fst f)) 0) as [E|E]; cbn [negb].
  - apply (flat_rejected f n d); auto. right. intros t a b c I V. right. destruct (Cl t a b c I V) as (O & F1 & F2 & F3). repeat (split; auto). intros S. specialize (W2 t a b c I V S). lia.
  - apply (flat_accepted f n d); auto. left. destruct W1 as (t & a & b & c & I & V & T); [lia|]. exists t, a, b, c. split; auto. split; auto. split; [eapply clear_strict; eauto|apply (Cl t a b c I V)].
Qed.

(** Polygons made by the code. *)
Lemma made_covers pts p n c : make_polygon pts None None = Ok p -> unit n -> in_plane n c pts ->
  exists m d, (m = n /\ d = - c \/ m = vopp n /\ d = c) /\ m = p_vn p /\ covers (p_pts p, p_tri p) m d /\ good_mesh (p_pts p) (p_tri p) /\ p_pts p <> [] /\ (p_pts p = pts \/ p_pts p = rev pts).
Proof.
  intros M U P. destruct (made_orient n c pts p U P M) as (Hn & _). destruct (made_triangles pts p M) as (L & T). destruct (made_proper pts p M) as (L3 & G & Re).
  pose proof (tri_structure _ _ _ _ L T) as (Rv & _). assert (P' : in_plane n c (p_pts p)) by (intros q I; apply P; destruct Rv as [E|E]; rewrite E in I; auto; apply in_rev; auto).
  assert (Ln : length (p_pts p) = length pts) by (destruct Rv as [->| ->]; rewrite ?rev_length; auto).
  assert (D : exists d, p_vn p = n /\ d = - c \/ p_vn p = vopp n /\ d = c) by (destruct Hn as [E|E]; [exists (- c)|exists c]; auto). destruct D as (d & D). exists (p_vn p), d. split; auto. split; auto.
  assert (Uv : unit (p_vn p)) by (unfold unit in *; destruct Hn as [->| ->]; [auto|dvec n; vunf; unfold dot in U; cbn [vx vy vz] in U; lra]).
  split; [|split; [exact G|split; [intros E; rewrite E in Ln; cbn in Ln; lia|exact Rv]]].
  split; [exact Uv|]. split; [|split].
  - intros q I. cbn [fst] in I. unfold on_plane. pose proof (P' q I) as E1. destruct D as [(-> & ->)|(-> & ->)]; [lra|]. replace (dot (vopp n) q) with (- dot n q) by (clear; dvec n; dvec q; vunf; ring). lra.
  - intros t It. cbn [fst snd] in *. destruct (G t It) as (u & v & w & Tv & _). exists u, v, w. split; auto. destruct (tri_positive _ _ _ _ T L t It) as (Pos & _). destruct t as ((i, j), k). destruct Tv as (T1 & T2 & T3).
    unfold tri_vec, corner in Pos. rewrite (nth_error_nth _ _ vzero T1), (nth_error_nth _ _ vzero T2), (nth_error_nth _ _ vzero T3) in Pos. rewrite dot_comm. exact Pos.
  - cbn [fst snd]. rewrite Ln. destruct (tri_boundary _ _ _ _ L T) as (_ & ds & _ & Pm). eauto.
Qed.

(** Seen from the other side of the plane. *)
Definition rises (u q : vec) (e : vec * vec) : Z :=
  if Rle_dec (dot u (fst e)) (dot u q) then if Rlt_dec (dot u q) (dot u (snd e)) then 1%Z else 0%Z
  else if Rle_dec (dot u (snd e)) (dot u q) then (-1)%Z else 0%Z.
Definition high (u q x : vec) : Z := if Rle_dec (dot u x) (dot u q) then 0%Z else 1%Z.
Lemma rises_high u q e : rises u q e = (high u q (snd e) - high u q (fst e))%Z.
Proof. unfold rises, high. repeat match goal with |- context [Rle_dec ?a ?b] => destruct (Rle_dec a b) | |- context [Rlt_dec ?a ?b] => destruct (Rlt_dec a b) end; try reflexivity; exfalso; lra. Qed.
Lemma open_rises u q l x y : zsum (map (rises u q) (open_pairs (x :: l ++ [y]))) = (high u q y - high u q x)%Z.
Proof.
  revert x. induction l as [|z l IH]; intros x; [unfold zsum; cbn [app open_pairs combine map fold_right]; rewrite rises_high; cbn [fst snd]; lia|].
  change (open_pairs (x :: (z :: l) ++ [y])) with ((x, z) :: open_pairs (z :: l ++ [y])). specialize (IH z). unfold zsum in *. cbn [map fold_right]. rewrite IH, rises_high. cbn [fst snd]. lia.
Qed.
Lemma loop_rises u q l : zsum (map (rises u q) (cyc_pairs l)) = 0%Z.
Proof. destruct l as [|x l]; auto. rewrite cyc_open. cbn [app]. rewrite open_rises. lia. Qed.
Lemma turn_opp n u q e : left_of n (fst e) (snd e) q <> 0 \/ rises u q e = 0%Z -> (edge_turn (vopp n) u q e + edge_turn n u q e = rises u q e)%Z.
Proof. unfold rises. turn; rewrite ?left_opp in *; intros [H|H]; try reflexivity; try discriminate; exfalso; lra. Qed.
Lemma on_line_segment n d u a b q : unit n -> on_plane n d a -> on_plane n d b -> on_plane n d q -> rises u q (a, b) <> 0%Z -> left_of n a b q = 0 -> on_segment a b q.
Proof.
  intros U A B Q N S. assert (Hs : dot u a <= dot u q < dot u b \/ dot u b <= dot u q < dot u a).
  { unfold rises in N. cbn [fst snd] in N. destruct (Rle_dec (dot u a) (dot u q)); [destruct (Rlt_dec (dot u q) (dot u b)); [left; auto|congruence]|]. destruct (Rle_dec (dot u b) (dot u q)); [right; lra|congruence]. }
  set (h := dot u b - dot u a). assert (Hh : h <> 0) by (unfold h; lra). set (t := (dot u q - dot u a) / h). assert (Et : t * h = dot u q - dot u a) by (unfold t; field; auto).
  exists t. split; [unfold h in *; destruct Hs; split; nra|]. 
  destruct (perp_cross n (vsub b a) (vsub q a) U) as (k & X); [unfold on_plane in *; vunf; lra|unfold on_plane in *; vunf; lra|].
  unfold left_of in S. rewrite X in S. replace (dot n (smul k n)) with (k * dot n n) in S by (clear; dvec n; vunf; ring). rewrite U in S. assert (k = 0) by lra. subst k.
  assert (Z : cross (vsub b a) (vsub q a) = vzero) by (rewrite X; clear; dvec n; vunf; unfold vzero; f_equal; ring).
  (* h (q - a) = (u.(q-a)) (b - a) because b - a and q - a are parallel *)
  assert (I : vsub (smul (dot u (vsub b a)) (vsub q a)) (smul (dot u (vsub q a)) (vsub b a)) = cross u (cross (vsub q a) (vsub b a))) by (clear; dvec u; dvec a; dvec b; dvec q; vunf; f_equal; ring).
  replace (cross (vsub q a) (vsub b a)) with (vopp (cross (vsub b a) (vsub q a))) in I by (clear; dvec a; dvec b; dvec q; vunf; f_equal; ring). rewrite Z in I.
  replace (dot u (vsub b a)) with h in I by (unfold h; clear; dvec u; dvec a; dvec b; vunf; ring). replace (dot u (vsub q a)) with (t * h) in I by (rewrite Et; clear; dvec u; dvec a; dvec q; vunf; ring).
  clear - I Hh. unfold seg_point. clearbody t h. dvec u; dvec a; dvec b; dvec q. revert I. vunf. unfold vzero. cbn [vx vy vz]. intros I. injection I as I1 I2 I3. f_equal; nra.
Qed.
Lemma winding_opp n d u q pts : unit n -> (forall p, In p pts -> on_plane n d p) -> on_plane n d q -> ~ on_outline pts q -> winding (vopp n) u q pts = (- winding n u q pts)%Z.
Proof.
  intros U P Q O. pose proof (loop_rises u q pts) as Z. unfold winding. assert (E : forall e, In e (cyc_pairs pts) -> (edge_turn (vopp n) u q e + edge_turn n u q e = rises u q e)%Z).
  { intros (a, b) I. apply turn_opp. destruct (Z.eq_dec (rises u q (a, b)) 0) as [R|R]; auto. left. intros S. apply O. exists (a, b). split; auto. destruct (cyc_at pts a b I) as (i & _ & Ia & Ib). apply nth_error_In in Ia, Ib. apply (on_line_segment n d u); auto. }
  revert Z E. generalize (cyc_pairs pts). intros l. assert (G : (forall e, In e l -> (edge_turn (vopp n) u q e + edge_turn n u q e)%Z = rises u q e) -> (zsum (map (edge_turn (vopp n) u q) l) + zsum (map (edge_turn n u q) l) = zsum (map (rises u q) l))%Z).
  { induction l as [|e l IH]; intros H; auto. unfold zsum in *. cbn [map fold_right]. rewrite <- (H e) by (left; auto). rewrite <- IH by (intros; apply H; right; auto). lia. }
  intros Z E. specialize (G E). lia.
Qed.

Lemma segment_left n a b q : on_segment a b q -> left_of n a b q = 0.
Proof. intros (t & _ & ->). unfold left_of, seg_point. dvec n; dvec a; dvec b. vunf. ring. Qed.
Lemma clear_off_outline f n d q : covers f n d -> on_plane n d q -> clear_edges f q -> ~ on_outline (fst f) q.
Proof.
  intros C Q Cl ((a, b) & I & S). cbn [fst snd] in S. pose proof C as (U & P & T & ds & Pm).
  assert (E : cyc_pairs (fst f) = map (pair_at (fst f)) (cyc_pairs (seq 0 (length (fst f))))) by (unfold pair_at; rewrite (cyc_pairs_map (corner (fst f))), TriProofs2.corners; auto). rewrite E in I. apply in_map_iff in I. destruct I as ((i, j) & Ei & I).
  assert (It : In (i, j) (tri_edges (snd f))) by (apply (Permutation_in _ (Permutation_sym Pm)), in_app_iff; auto). unfold tri_edges in It. apply in_flat_map in It. destruct It as (((x, y), z) & It & Ie).
  destruct (T _ It) as (va & vb & vc & V & K). destruct (covers_tri f n d _ va vb vc C It V) as (_ & A & B & C' & _). destruct (Cl _ va vb vc It V) as ((O1 & O2 & O3) & _). apply (segment_left n) in S.
  destruct V as (V1 & V2 & V3). unfold pair_at, corner in Ei. cbn [fst snd] in Ei.
  destruct Ie as [Ie|[Ie|[Ie|[]]]]; injection Ie as <- <-; rewrite ?(nth_error_nth _ _ vzero V1), ?(nth_error_nth _ _ vzero V2), ?(nth_error_nth _ _ vzero V3) in Ei; injection Ei as <- <-.
  - apply (off_edge_left n d va vb q U A B Q O1 S).
  - apply (off_edge_left n d vb vc q U B C' Q O2 S).
  - apply (off_edge_left n d vc va q U C' A Q O3 S).
Qed.
Lemma outline_rev pts q : on_outline pts q -> on_outline (rev pts) q.
Proof.
  intros ((a, b) & I & t & T & E). exists (b, a). split; [apply (Permutation_in _ (Permutation_sym (cyc_pairs_rev pts))), in_map_iff; exists (a, b); auto|]. exists (1 - t). split; [lra|]. cbn [fst snd] in *. rewrite E. unfold seg_point. dvec a; dvec b. vunf. f_equal; ring.
Qed.
Lemma inside_made pts p n c u q atol : make_polygon pts None None = Ok p -> unit n -> in_plane n c pts -> dot n q = c -> cross u n <> vzero -> clear_edges (p_pts p, p_tri p) q -> 0 < atol ->
  is_point_inside q (p_pts p) (p_tri p) true atol = Ok (negb (winding n u q pts =? 0)%Z).
Proof.
  intros M U P Q N Cl A. destruct (made_covers pts p n c M U P) as (m & d & D & Em & C & G & Ne & R).
  assert (Qd : on_plane m d q) by (unfold on_plane; destruct D as [(-> & ->)|(-> & ->)]; [lra|replace (dot (vopp n) q) with (- dot n q) by (clear; dvec n; dvec q; vunf; ring); lra]).
  assert (Nm : cross u m <> vzero) by (destruct D as [(-> & _)|(-> & _)]; auto; intros E; apply N; clear - E; dvec u; dvec n; revert E; vunf; unfold vzero; intros E; injection E as E1 E2 E3; f_equal; lra).
  pose proof (inside_winding (p_pts p, p_tri p) m d u q atol C G Ne Qd Nm Cl A) as H. cbn [fst snd] in H. rewrite H. pose proof (clear_off_outline _ m d q C Qd Cl) as O. cbn [fst] in O.
  assert (E : winding m u q (p_pts p) = winding n u q pts \/ winding m u q (p_pts p) = (- winding n u q pts)%Z).
  { assert (Pn : forall p, In p pts -> on_plane n (- c) p) by (intros x I; unfold on_plane; rewrite (P x I); ring). assert (Qn : on_plane n (- c) q) by (unfold on_plane; lra).
    assert (Or : ~ on_outline pts q) by (destruct R as [R|R]; rewrite R in O; auto; intros X; apply O, outline_rev; auto).
    pose proof (winding_opp n (- c) u q pts U Pn Qn Or) as W. destruct R as [R|R]; rewrite R, ?winding_rev; destruct D as [(-> & _)|(-> & _)]; rewrite ?W; auto; left; lia. }
  f_equal. f_equal. destruct E as [-> | ->]; auto. destruct (winding n u q pts); reflexivity.
Qed.
