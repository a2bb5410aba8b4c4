(** The two parts of a sliced polygon and the winding numbers of its points. *)
From Coq Require Import Reals List ZArith Bool Arith Lia Lra Permutation.
From Verif Require Import Prelude VecModel VecProofs GeomModel GeomSpec GeomProofs1 GeomProofs2 GeomProofs3 GeomProofs4 TriModel TriSpec TriProofs TriProofs2 PolyModel PolySpec PolyProofs1 PolyProofs2 SliceModel SliceSpec SliceProofs1 SliceProofs2 SliceProofs3 SliceProofs4 SliceProofs5 SliceProofs6 CrossSpec InsideSpec RoomSpec RoomProofs1 PlanSpec WindSpec WindProofs1 WindProofs2 WindProofs3.
Import ListNotations.
Local Open Scope R_scope.

Lemma triangulated_covers pts vn pts' ts c : triangulate_pts pts vn = Ok (pts', ts) -> (3 <= length pts)%nat -> unit vn -> in_plane vn c pts ->
  covers (pts', ts) vn (- c) /\ good_mesh pts' ts /\ pts' <> [].
Proof.
  intros T L U P. pose proof (tri_structure _ _ _ _ L T) as (Rv & _). assert (Ln : length pts' = length pts) by (destruct Rv as [->| ->]; rewrite ?rev_length; auto).
  assert (V : forall t, In t ts -> exists a b c, tri_verts pts' t (a, b, c) /\ 0 < dot vn (cross (vsub b a) (vsub c a)) /\ 1 / 10000000000000 <= 2 * true_area a b c).
  { intros t It. destruct (tri_positive _ _ _ _ T L t It) as (Pos & _ & A). destruct (tri_in_range _ _ _ _ T L t It) as (((a, b), x) & Tv). exists a, b, x. split; auto. destruct t as ((i, j), k). destruct Tv as (T1 & T2 & T3).
    unfold tri_vec, corner in A, Pos. rewrite (nth_error_nth _ _ vzero T1), (nth_error_nth _ _ vzero T2), (nth_error_nth _ _ vzero T3) in A, Pos. rewrite dot_comm. split; auto. unfold true_area. lra. }
  split; [|split; [|intros ->; cbn in Ln; lia]].
  - split; auto. split; [|split].
    + intros q I. cbn [fst] in I. unfold on_plane. rewrite (P q); [ring|]. destruct Rv as [->| ->]; auto. apply in_rev; auto.
    + intros t I. destruct (V t I) as (a & b & x & Tv & Pos & _). exists a, b, x. auto.
    + cbn [fst snd]. rewrite Ln. destruct (tri_boundary _ _ _ _ L T) as (_ & ds & _ & Pm). eauto.
  - intros t I. destruct (V t I) as (a & b & x & Tv & _ & A). exists a, b, x. auto.
Qed.
Lemma with_ends_in l1 x l2 y pts z : forall i, In z (with_ends i l1 x l2 y pts) -> In z pts \/ z = x \/ z = y.
Proof.
  induction pts as [|p r IH]; intros i; cbn [with_ends In]; [tauto|]. rewrite !in_app_iff. intros [H|[H|[H|H]]].
  - unfold end_at_vertex in H. destruct l1; destruct l2; repeat match type of H with context [if ?e then _ else _] => destruct e end; subst; auto.
  - unfold end_at_edge in H. destruct l1; cbn in H; try tauto. destruct (i =? i0)%nat; cbn in H; intuition.
  - unfold end_at_edge in H. destruct l2; cbn in H; try tauto. destruct (i =? i0)%nat; cbn in H; intuition.
  - apply IH in H. tauto.
Qed.
Lemma cut_points outline chain p1 p2 z : cut outline chain p1 p2 -> In z p1 \/ In z p2 -> In z outline \/ In z chain.
Proof.
  intros (x & A & y & B & M & (s & t & -> & Ro) & -> & -> & ->) H. assert (E : forall z, In z (x :: A ++ y :: B) -> In z (s ++ t)) by (intros w I; rewrite Ro in I; apply in_app_iff in I; apply in_app_iff; tauto).
  assert (E' : z = x \/ In z A \/ z = y \/ In z B -> In z (s ++ t)) by (intros G; apply E; cbn [In]; rewrite in_app_iff; cbn [In]; intuition).
  revert H. cbn [In]. rewrite !in_app_iff. cbn [In]. rewrite <- in_rev. intuition.
Qed.
Lemma reverse_points l l' z : reverse_loop l l' -> In z l' -> In z l.
Proof. intros (s & t & E & ->) I. apply in_rev. rewrite E. apply in_app_iff in I. apply in_app_iff. tauto. Qed.
Lemma parts_points pts chain x l0 y l1 q1 q2 z : In x chain -> In y chain -> parts_of pts chain x l0 y l1 q1 q2 -> In z q1 \/ In z q2 -> In z pts \/ In z chain.
Proof.
  intros Ix Iy P H. assert (G : forall l0 l1 x y ch p1 p2, (In x pts \/ In x chain) -> In y chain -> (forall w, In w ch -> In w pts \/ In w chain) -> cut (with_ends 0 l0 x l1 y pts) ch p1 p2 -> In z p1 \/ In z p2 -> In z pts \/ In z chain).
  { intros k0 k1 x0 y0 ch p1 p2 X Y S C I. destruct (cut_points _ _ _ _ _ C I) as [K|K]; auto. apply with_ends_in in K. destruct K as [K|[->| ->]]; auto. }
  assert (R : forall w, In w (rev chain) -> In w pts \/ In w chain) by (intros w I; right; apply in_rev; auto).
  unfold parts_of in P. destruct l0 as [| |i|i], l1 as [| |j|j];
  first [destruct P as (v & p2 & Ev & C & Rv); apply nth_error_In in Ev; eapply (G _ _ v y (v :: tl chain)); [left; auto|auto| |exact C|destruct H as [H|H]; [left|right]; eauto using reverse_points]; intros w [<-|I]; auto; right; destruct chain; [destruct I|right; auto]
        |destruct P as (p1 & C & Rv); eapply G; [right; exact Ix|exact Iy| |exact C|destruct H as [H|H]; [left|right]; eauto using reverse_points]; auto].
Qed.
Section Sliced.
Context (p : polygon) (chain : list vec) (pt1 pt2 : option vec) (n1 n2 : option str) (r1 r2 : str) (a b : str * polygon).
Context (H : slice_polygon p chain pt1 n1 pt2 n2 r1 r2 = Ok (a, b)) (T : told_apart (p_pts p)) (N : NoDup (p_pts p)).
Context (o : list vec * list vec) (x : vec) (M : list vec) (y : vec) (l0 : location) (L : list location) (l1 : location).
Context (Eo : add_intersection_points (p_pts p) chain = Ok o) (Er : remove_redundant_points (snd o) (p_pts p) (p_tri p) = Ok (x :: M ++ [y])).
Context (El : locate_points (cyc_pairs (p_pts p)) (p_pts p) (p_tri p) (x :: M ++ [y]) = Ok (l0 :: L ++ [l1])).
Context (X0 : exact_end (p_pts p) l0 x) (X1 : exact_end (p_pts p) l1 y) (Ne : l0 <> l1) (B : forallb (fun l => negb (boundary l)) L = true).
Lemma sliced_parts : exists q1 q2 p1 p2, parts_of (p_pts p) (x :: M ++ [y]) x l0 y l1 q1 q2 /\ make_polygon q1 None (Some (p_vn p)) = Ok p1 /\ make_polygon q2 None (Some (p_vn p)) = Ok p2 /\ (snd a = p1 /\ snd b = p2 \/ snd a = p2 /\ snd b = p1).
Proof.
  destruct (slice_parts _ _ _ _ _ _ _ _ _ _ H) as (o' & ch & q1 & q2 & Ho & Hc & Hg & Hm). rewrite Eo in Ho. apply Ok_inj in Ho. subst o'. rewrite Er in Hc. apply Ok_inj in Hc. subst ch.
  assert (K : forall l z, exact_end (p_pts p) l z -> known_end (p_pts p) l z).
  { intros l z. destruct l as [| |i|i]; cbn; auto.
    - intros E. split; [apply nth_error_Some; congruence|]. intros j q Eq. split; [|intros ->; assert (q = z) by congruence; subst; apply points_equal_refl]. intros P. assert (q = z) by (apply T; [apply nth_error_In in Eq; auto|apply nth_error_In in E; auto|auto]). subst q. rewrite NoDup_nth_error in N. apply N; [apply nth_error_Some; congruence|congruence].
    - intros (c & d & E & _). rewrite <- cyc_pairs_length. apply nth_error_Some. congruence. }
  destruct (parts_spec (p_pts p) (p_tri p) x M y l0 L l1 T N El (K _ _ X0) (K _ _ X1) Ne B) as (q1' & q2' & Eg & Pa). rewrite Eg in Hg. apply Ok_inj in Hg. injection Hg as -> ->.
  destruct (make_polygons_parts _ _ _ _ _ _ _ _ _ _ _ Hm) as (p1 & p2 & M1 & M2 & _ & _ & D). exists q1, q2, p1, p2. auto.
Qed.

Context (S0 : 0 < signed_area2 (p_pts p) (p_vn p)).
Lemma part_oriented q1 p1 u q : make_polygon q1 None (Some (p_vn p)) = Ok p1 ->
  0 < signed_area2 q1 (p_vn p) /\ winding (p_vn p) u q (p_pts p1) = winding (p_vn p) u q q1 \/ signed_area2 q1 (p_vn p) < 0 /\ winding (p_vn p) u q (p_pts p1) = (- winding (p_vn p) u q q1)%Z.
Proof.
  intros M1. apply make_with_vn in M1. destruct M1 as (_ & [E|E] & _ & Sg & _); rewrite E in *; [left; auto|right]. rewrite winding_rev. split; auto. unfold signed_area2 in *. rewrite vector_area2_rev in Sg. revert Sg. generalize (vector_area2 q1). intros v. generalize (p_vn p). intros w. dvec v; dvec w. vunf. lra.
Qed.
Lemma sliced_winding :
  (p_area (snd a) + p_area (snd b) = polygon_area (p_pts p) (p_vn p) ->
     forall u q, winding (p_vn p) u q (p_pts p) = (winding (p_vn p) u q (p_pts (snd a)) + winding (p_vn p) u q (p_pts (snd b)))%Z) /\
  (p_area (snd a) + p_area (snd b) <> polygon_area (p_pts p) (p_vn p) ->
     (forall u q, winding (p_vn p) u q (p_pts p) = (winding (p_vn p) u q (p_pts (snd a)) - winding (p_vn p) u q (p_pts (snd b)))%Z) \/
     (forall u q, winding (p_vn p) u q (p_pts p) = (winding (p_vn p) u q (p_pts (snd b)) - winding (p_vn p) u q (p_pts (snd a)))%Z)).
Proof.
  destruct sliced_parts as (q1 & q2 & p1 & p2 & Pa & M1 & M2 & D). destruct (parts_areas _ _ _ _ _ _ _ _ (p_vn p) Ne X0 X1 Pa) as (_ & Q). pose proof (parts_area _ _ _ _ _ _ _ _ Ne X0 X1 Pa) as A. pose proof (fun u q => parts_winding (p_vn p) u q _ _ _ _ _ _ _ _ Ne X0 X1 Pa) as W.
  pose proof (make_with_vn _ _ _ M1) as (_ & _ & A1 & _). pose proof (make_with_vn _ _ _ M2) as (_ & _ & A2 & _). assert (Ab : p_area (snd a) + p_area (snd b) = polygon_area q1 (p_vn p) + polygon_area q2 (p_vn p)) by (destruct D as [(-> & ->)|(-> & ->)]; lra). rewrite Ab, Q.
  assert (Sb : forall v w, dot (vsub v w) (p_vn p) = dot v (p_vn p) - dot w (p_vn p)) by (intros v w; generalize (p_vn p); intros z; dvec v; dvec w; dvec z; vunf; ring).
  assert (Sg : (signed_area2 q1 (p_vn p) - signed_area2 q2 (p_vn p) = signed_area2 (p_pts p) (p_vn p) /\ (forall u q, (winding (p_vn p) u q q1 - winding (p_vn p) u q q2 = winding (p_vn p) u q (p_pts p))%Z)) \/
               (signed_area2 q2 (p_vn p) - signed_area2 q1 (p_vn p) = signed_area2 (p_pts p) (p_vn p) /\ (forall u q, (winding (p_vn p) u q q2 - winding (p_vn p) u q q1 = winding (p_vn p) u q (p_pts p))%Z))).
  { unfold signed_area2. rewrite <- A. destruct l0, l1; try (right; split; [rewrite Sb; auto|auto]; fail); left; (split; [rewrite Sb; auto|auto]). }
  clear W A Q. assert (O1 := fun u q => part_oriented q1 p1 u q M1). assert (O2 := fun u q => part_oriented q2 p2 u q M2).
  revert Sg O1 O2. generalize (signed_area2 q1 (p_vn p)) (signed_area2 q2 (p_vn p)). intros s1 s2 Sg O1 O2.
  split.
  - intros Hs u q. specialize (O1 u q). specialize (O2 u q). assert (W : winding (p_vn p) u q (p_pts p) = (winding (p_vn p) u q (p_pts p1) + winding (p_vn p) u q (p_pts p2))%Z).
    { destruct Sg as [(Sg & W)|(Sg & W)]; rewrite <- (W u q); destruct O1 as [(O1 & ->)|(O1 & ->)], O2 as [(O2 & ->)|(O2 & ->)]; try lia; exfalso; nra. }
    destruct D as [(-> & ->)|(-> & ->)]; lia.
  - intros Hs. assert (Hp : 0 < s1 /\ 0 < s2 \/ s1 < 0 /\ s2 < 0) by (destruct (O1 vzero vzero) as [(P1 & _)|(P1 & _)], (O2 vzero vzero) as [(P2 & _)|(P2 & _)]; auto; exfalso; apply Hs; nra).
    assert (W : (forall u q, winding (p_vn p) u q (p_pts p) = (winding (p_vn p) u q (p_pts p1) - winding (p_vn p) u q (p_pts p2))%Z) \/ (forall u q, winding (p_vn p) u q (p_pts p) = (winding (p_vn p) u q (p_pts p2) - winding (p_vn p) u q (p_pts p1))%Z)).
    { destruct Sg as [(Sg & W)|(Sg & W)], Hp as [(P1 & P2)|(P1 & P2)]; [left|right|right|left]; intros u q; rewrite <- (W u q); specialize (O1 u q); specialize (O2 u q); destruct O1 as [(O1 & ->)|(O1 & ->)], O2 as [(O2 & ->)|(O2 & ->)]; try lia; exfalso; lra. }
    destruct D as [(-> & ->)|(-> & ->)]; tauto.
Qed.
Lemma part_covers q1 p1 c : make_polygon q1 None (Some (p_vn p)) = Ok p1 -> unit (p_vn p) -> in_plane (p_vn p) c q1 -> covers (p_pts p1, p_tri p1) (p_vn p) (- c) /\ good_mesh (p_pts p1) (p_tri p1) /\ p_pts p1 <> [].
Proof.
  intros M1 U P. assert (L3 : (3 <= length q1)%nat).
  { revert M1. unfold make_polygon, check_polygon. destruct (are_points_coplanar q1 GEOM_ATOL) as [[|]|]; try discriminate. cbn [rbind negb]. destruct (length q1 <? 3)%nat eqn:L3; [discriminate|]. apply Nat.ltb_ge in L3. auto. }
  apply make_with_vn in M1. destruct M1 as (_ & _ & _ & _ & Tr). apply (triangulated_covers q1); auto.
Qed.
Lemma sliced_covers c : unit (p_vn p) -> in_plane (p_vn p) c (p_pts p) -> in_plane (p_vn p) c (x :: M ++ [y]) -> forall np, np = a \/ np = b ->
  covers (p_pts (snd np), p_tri (snd np)) (p_vn p) (- c) /\ good_mesh (p_pts (snd np)) (p_tri (snd np)) /\ p_pts (snd np) <> [].
Proof.
  intros U P1 P2. destruct sliced_parts as (q1 & q2 & p1 & p2 & Pa & M1 & M2 & D).
  assert (I : forall z, In z q1 \/ In z q2 -> dot (p_vn p) z = c). { assert (Ix : In x (x :: M ++ [y])) by (left; auto). assert (Iy : In y (x :: M ++ [y])) by (right; apply in_app_iff; right; left; auto). intros z Iz. destruct (parts_points _ _ _ _ _ _ _ _ z Ix Iy Pa Iz); auto. }
  assert (C1 := part_covers q1 p1 c M1 U (fun z Iz => I z (or_introl Iz))). assert (C2 := part_covers q2 p2 c M2 U (fun z Iz => I z (or_intror Iz))).
  intros np E. destruct D as [(E1 & E2)|(E1 & E2)], E as [->| ->]; rewrite ?E1, ?E2; auto.
Qed.
(** The code's answers for the polygon and its parts. *)
Lemma sliced_inside c q atol u : unit (p_vn p) -> in_plane (p_vn p) c (p_pts p) -> in_plane (p_vn p) c (x :: M ++ [y]) -> covers (p_pts p, p_tri p) (p_vn p) (- c) -> good_mesh (p_pts p) (p_tri p) ->
  p_area (snd a) + p_area (snd b) = polygon_area (p_pts p) (p_vn p) -> dot (p_vn p) q = c -> cross u (p_vn p) <> vzero ->
  clear_edges (p_pts p, p_tri p) q -> clear_edges (p_pts (snd a), p_tri (snd a)) q -> clear_edges (p_pts (snd b), p_tri (snd b)) q -> 0 < atol ->
  exists ia ib, is_point_inside q (p_pts (snd a)) (p_tri (snd a)) true atol = Ok ia /\ is_point_inside q (p_pts (snd b)) (p_tri (snd b)) true atol = Ok ib /\
    is_point_inside q (p_pts p) (p_tri p) true atol = Ok (ia || ib) /\ ((winding (p_vn p) u q (p_pts p) <= 1)%Z -> ia && ib = false).
Proof.
  intros U P1 P2 C G Ar Q Nu Cl Ca Cb At. destruct (sliced_covers c U P1 P2 a (or_introl eq_refl)) as (C1 & G1 & E1). destruct (sliced_covers c U P1 P2 b (or_intror eq_refl)) as (C2 & G2 & E2).
  assert (Qd : on_plane (p_vn p) (- c) q) by (unfold on_plane; lra). assert (E0 : p_pts p <> []) by (intros E; rewrite E in S0; unfold signed_area2, vector_area2, vzero, dot in S0; cbn in S0; lra).
  pose proof (inside_winding _ _ _ u q atol C G E0 Qd Nu Cl At) as I0. pose proof (inside_winding _ _ _ u q atol C1 G1 E1 Qd Nu Ca At) as I1. pose proof (inside_winding _ _ _ u q atol C2 G2 E2 Qd Nu Cb At) as I2. cbn [fst snd] in *.
  destruct (winding_mesh _ _ _ u q C1 Qd Nu) as (W1 & _). destruct (winding_mesh _ _ _ u q C2 Qd Nu) as (W2 & _). cbn [fst] in W1, W2. eexists _, _. split; [exact I1|]. split; [exact I2|]. rewrite I0. pose proof (proj1 sliced_winding Ar u q) as W. rewrite W.
  split; [f_equal|intros Le]; destruct (Z.eqb_spec (winding (p_vn p) u q (p_pts (snd a))) 0), (Z.eqb_spec (winding (p_vn p) u q (p_pts (snd b))) 0); cbn [negb orb andb]; auto; try lia; destruct (Z.eqb_spec (winding (p_vn p) u q (p_pts (snd a)) + winding (p_vn p) u q (p_pts (snd b))) 0); auto; lia.
Qed.
End Sliced.
