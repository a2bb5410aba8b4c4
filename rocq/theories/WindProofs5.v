(** Strictly convex outlines wind once around the points left of all edges. *)
From Coq Require Import Reals List ZArith Bool Arith Lia Lra Permutation.
From Verif Require Import Prelude VecModel VecProofs GeomModel GeomSpec GeomProofs1 GeomProofs2 GeomProofs3 GeomProofs4 TriModel TriSpec TriProofs2 PolyModel PolySpec PolyProofs1 CrossSpec InsideSpec InsideProofs1 RoomSpec RoomProofs1 WindSpec WindProofs1 WindProofs2.
Import ListNotations.
Local Open Scope R_scope.

Lemma covers_tiled f n d : covers f n d -> tiled f n d.
Proof.
  intros (U & P & T & ds & Pm). split; auto. split; auto. split; auto. split.
  - intros i j I. apply (Permutation_in _ Pm) in I. apply in_app_iff in I. destruct I as [I|I]; [auto|right].
    apply (Permutation_in _ (Permutation_sym Pm)), in_app_iff. right. unfold both_ways in *. apply in_flat_map in I. destruct I as ((u, v) & Id & I). apply in_flat_map. exists (u, v). split; auto. cbn [fst snd] in *. destruct I as [I|[I|[]]]; injection I as <- <-; [right; left|left]; auto.
  - intros e I. apply (Permutation_in _ (Permutation_sym Pm)), in_app_iff. auto.
Qed.
Lemma convex_weak n pts a b c : strictly_convex n pts -> In (a, b) (cyc_pairs pts) -> In c pts -> 0 <= left_of n a b c.
Proof.
  intros S E I. destruct (vec_eq_dec c a) as [->|Na]; [right; unfold left_of; dvec n; dvec a; dvec b; vunf; ring|]. destruct (vec_eq_dec c b) as [->|Nb]; [right; unfold left_of; dvec n; dvec a; dvec b; vunf; ring|]. left. apply S; auto.
Qed.
Lemma left_bary n a b v1 v2 v3 x y z : x + y + z = 1 -> left_of n a b (bary v1 v2 v3 x y z) = x * left_of n a b v1 + y * left_of n a b v2 + z * left_of n a b v3.
Proof. intros E. replace x with (1 - y - z) by lra. unfold left_of, bary. dvec n; dvec a; dvec b; dvec v1; dvec v2; dvec v3. vunf. ring. Qed.
Lemma mesh_left f n d a b q : covers f n d -> strictly_convex n (fst f) -> In (a, b) (cyc_pairs (fst f)) -> in_mesh f q -> 0 <= left_of n a b q.
Proof.
  intros C S E (t & v1 & v2 & v3 & I & V & x & y & z & X & Y & Z & Es & ->). rewrite left_bary by auto. destruct t as ((i, j), k). destruct V as (V1 & V2 & V3). apply nth_error_In in V1, V2, V3.
  pose proof (convex_weak n _ a b v1 S E V1). pose proof (convex_weak n _ a b v2 S E V2). pose proof (convex_weak n _ a b v3 S E V3). nra.
Qed.
Lemma convex_outside f n d u q a b : covers f n d -> on_plane n d q -> cross u n <> vzero -> strictly_convex n (fst f) -> In (a, b) (cyc_pairs (fst f)) -> left_of n a b q < 0 -> winding n u q (fst f) = 0%Z.
Proof.
  intros C Q N S E L. destruct (winding_mesh f n d u q C Q N) as (W0 & W1 & _). destruct (Z.eq_dec (winding n u q (fst f)) 0) as [Z|Z]; auto. exfalso. pose proof (mesh_left f n d a b q C S E (W1 ltac:(lia))). lra.
Qed.
(** The middle of a triangle is to the left of all edges. *)
Lemma middle_left f n d t v1 v2 v3 a b : covers f n d -> strictly_convex n (fst f) -> In t (snd f) -> tri_verts (fst f) t (v1, v2, v3) -> In (a, b) (cyc_pairs (fst f)) -> 0 < left_of n a b (bary v1 v2 v3 (1 / 3) (1 / 3) (1 / 3)).
Proof.
  intros C S I V E. destruct (covers_tri f n d t v1 v2 v3 C I V) as (U & P1 & P2 & P3 & K). rewrite left_bary by lra. destruct t as ((i, j), k). destruct V as (V1 & V2 & V3). apply nth_error_In in V1, V2, V3.
  pose proof (convex_weak n _ a b v1 S E V1) as W1. pose proof (convex_weak n _ a b v2 S E V2) as W2. pose proof (convex_weak n _ a b v3 S E V3) as W3.
  assert (D : v1 <> v2 /\ v2 <> v3 /\ v3 <> v1). { repeat split; intros X; subst; revert K; unfold side; clear; [dvec n; dvec v2; dvec v3|dvec n; dvec v1; dvec v3|dvec n; dvec v1; dvec v2]; vunf; intros K; ring_simplify in K; lra. }
  destruct D as (D1 & D2 & D3).
  assert (H : 0 < left_of n a b v1 \/ 0 < left_of n a b v2 \/ 0 < left_of n a b v3); [|destruct H as [H|[H|H]]; lra].
  destruct (vec_eq_dec v1 a) as [Ea|Na], (vec_eq_dec v1 b) as [Eb|Nb]; try (left; apply S; auto; fail).
  - right; left. apply S; auto; congruence.
  - destruct (vec_eq_dec v2 b) as [E2|N2]; [right; right; apply S; auto; congruence|right; left; apply S; auto; congruence].
  - destruct (vec_eq_dec v2 a) as [E2|N2]; [right; right; apply S; auto; congruence|right; left; apply S; auto; congruence].
Qed.
Lemma left_all_in_mesh f n d q : covers f n d -> snd f <> [] -> on_plane n d q -> strictly_convex n (fst f) -> (forall a b, In (a, b) (cyc_pairs (fst f)) -> 0 < left_of n a b q) -> in_mesh f q.
Proof.
  intros C Ne Q S L. destruct (snd f) as [|t ts] eqn:Es; [congruence|]. assert (I : In t (snd f)) by (rewrite Es; left; auto). pose proof C as (U & P & T & _). destruct (T t I) as (v1 & v2 & v3 & V & K).
  set (m := bary v1 v2 v3 (1 / 3) (1 / 3) (1 / 3)). assert (Im : in_mesh f m) by (exists t, v1, v2, v3; split; auto; split; auto; exists (1 / 3), (1 / 3), (1 / 3); repeat (split; [lra|]); reflexivity).
  assert (D : in_mesh f q \/ ~ in_mesh f q).
  { destruct (told_closed f n d q C Q) as (cs & Cs). destruct (in_dec Bool.bool_dec true cs) as [J|J]; [left|right].
    - destruct (told_in _ f cs Cs J) as (t' & a & b & c & It & V' & H). exists t', a, b, c. auto.
    - intros (t' & a & b & c & It & V' & H). apply J. exact (told_has _ f cs t' a b c Cs It V' H). }
  destruct D as [D|D]; auto. exfalso. destruct (exit_outline f n d m q (covers_tiled f n d C) Im Q D) as (k & Hk & ((a, b) & Ie & Sg)). apply (segment_left n) in Sg. cbn [fst snd] in Sg.
  rewrite left_side, side_way, <- !left_side in Sg. pose proof (middle_left f n d t v1 v2 v3 a b C S I V Ie) as Lm. fold m in Lm. pose proof (L a b Ie) as Lq. change (side n a b q) with (left_of n a b q) in Sg. revert Sg Lm Lq Hk. generalize (left_of n a b m) (left_of n a b q). clear. intros r s Sg Lm Lq Hk. assert (A1 : 0 <= r * (1 - k)) by (apply Rmult_le_pos; lra). assert (A2 : 0 <= s * k) by (apply Rmult_le_pos; lra). destruct (Rle_lt_dec k (1 / 2)) as [Hh|Hh]; [assert (0 < r * (1 - k)) by (apply Rmult_lt_0_compat; lra)|assert (0 < s * k) by (apply Rmult_lt_0_compat; lra)]; lra.
Qed.
(** A little higher. *)
Lemma left_higher n q w (es : list (vec * vec)) : (forall a b, In (a, b) es -> 0 < left_of n a b q) -> exists e, 0 < e /\ forall a b, In (a, b) es -> 0 < left_of n a b (vadd q (smul e w)).
Proof.
  induction es as [|(a, b) es IH]; intros H; [exists 1; split; [lra|intros a b []]|]. destruct IH as (e & He & Hs); [intros; apply H; right; auto|].
  set (s := left_of n a b q). assert (Hq : 0 < s) by (apply H; left; auto). set (g := dot n (cross (vsub b a) w)). set (e' := Rmin e (s / (2 * (Rabs g + 1)))).
  pose proof (Rabs_pos g) as Ag. assert (Hd : 0 < s / (2 * (Rabs g + 1))) by (apply Rmult_lt_0_compat; [auto|apply Rinv_0_lt_compat; lra]). assert (He' : 0 < e') by (apply Rmin_glb_lt; auto).
  assert (Lin : forall c d t, left_of n c d (vadd q (smul t w)) = left_of n c d q + t * dot n (cross (vsub d c) w)) by (intros c d t; unfold left_of; clear; dvec n; dvec c; dvec d; dvec q; dvec w; vunf; ring).
  exists e'. split; auto. intros c d [E|I].
  - injection E as <- <-. rewrite Lin. fold s g. assert (Le : e' <= s / (2 * (Rabs g + 1))) by apply Rmin_r. assert (M : s / (2 * (Rabs g + 1)) * (2 * (Rabs g + 1)) = s) by (field; lra). pose proof (Rle_abs (- g)) as Ab. rewrite Rabs_Ropp in Ab. nra.
  - rewrite Lin. specialize (Hs c d I). rewrite Lin in Hs. assert (H0 : 0 < left_of n c d q) by (apply H; right; auto). assert (Le : e' <= e) by apply Rmin_l. destruct (Rle_lt_dec 0 (dot n (cross (vsub d c) w))); nra.
Qed.
(** Two edges of a strictly convex outline do not both rise across a height. *)
Lemma plane_left n d u a b q : unit n -> on_plane n d a -> on_plane n d b -> on_plane n d q ->
  left_of n a b q * dot (cross u n) (cross u n) = dot (cross u n) (vsub b a) * dot u (vsub q a) - dot u (vsub b a) * dot (cross u n) (vsub q a).
Proof.
  intros U A B Q. unfold on_plane in *. destruct (perp_cross n (vsub b a) (vsub q a) U) as (k & X); [vunf; lra|vunf; lra|].
  assert (Ek : left_of n a b q = k). { unfold left_of. rewrite X. replace (dot n (smul k n)) with (k * dot n n) by (clear; dvec n; vunf; ring). rewrite U. ring. } rewrite Ek.
  transitivity (dot (cross (vsub b a) (vsub q a)) (cross (cross u n) u)); [rewrite X; clear; dvec n; dvec u; vunf; ring|clear; dvec n; dvec u; dvec a; dvec b; dvec q; vunf; ring].
Qed.
Lemma dot_self_pos v : v <> vzero -> 0 < dot v v.
Proof.
  intros N. destruct (Rle_lt_dec (dot v v) 0) as [Z|]; auto. exfalso. apply N. destruct v as [p1 p2 p3]. unfold dot, vzero in *. cbn [vx vy vz] in *. pose proof (Rle_0_sqr p1). pose proof (Rle_0_sqr p2). pose proof (Rle_0_sqr p3). unfold Rsqr in *. f_equal; apply Rsqr_0_uniq; unfold Rsqr; lra.
Qed.
Lemma two_rises n d u q a b c e : unit n -> cross u n <> vzero -> on_plane n d a -> on_plane n d b -> on_plane n d c -> on_plane n d e ->
  dot u a <= dot u q < dot u b -> dot u c <= dot u q < dot u e -> 0 < left_of n a b c -> 0 <= left_of n a b e -> 0 < left_of n c e a -> 0 <= left_of n c e b -> False.
Proof.
  intros U N A B C E Ha Hc L1 L2 L3 L4. set (k := dot (cross u n) (cross u n)).
  assert (Hk : 0 < k) by (apply dot_self_pos; auto).
  pose proof (plane_left n d u a b c U A B C) as E1. pose proof (plane_left n d u a b e U A B E) as E2. pose proof (plane_left n d u c e a U C E A) as E3. pose proof (plane_left n d u c e b U C E B) as E4. fold k in E1, E2, E3, E4.
  assert (Sb : forall w x y, dot w (vsub x y) = dot w x - dot w y) by (intros w x y; clear; dvec w; dvec x; dvec y; vunf; ring). rewrite !Sb in E1, E2, E3, E4.
  revert E1 E2 E3 E4 L1 L2 L3 L4 Ha Hc. generalize (left_of n a b c) (left_of n a b e) (left_of n c e a) (left_of n c e b) (dot (cross u n) a) (dot (cross u n) b) (dot (cross u n) c) (dot (cross u n) e) (dot u a) (dot u b) (dot u c) (dot u e) (dot u q). clear - Hk.
  intros l1 l2 l3 l4 ga gb gc ge ha hb hc he h E1 E2 E3 E4 L1 L2 L3 L4 Ha Hc.
  assert (Z : ((he - h) * l1 + (h - hc) * l2 + (hb - h) * l3 + (h - ha) * l4) * k = 0).
  { replace (((he - h) * l1 + (h - hc) * l2 + (hb - h) * l3 + (h - ha) * l4) * k) with ((he - h) * (l1 * k) + (h - hc) * (l2 * k) + (hb - h) * (l3 * k) + (h - ha) * (l4 * k)) by ring. rewrite E1, E2, E3, E4. ring. }
  assert (P1 : 0 < (he - h) * l1) by (apply Rmult_lt_0_compat; lra). assert (P2 : 0 <= (h - hc) * l2) by (apply Rmult_le_pos; lra). assert (P3 : 0 < (hb - h) * l3) by (apply Rmult_lt_0_compat; lra). assert (P4 : 0 <= (h - ha) * l4) by (apply Rmult_le_pos; lra). nra.
Qed.
Lemma zsum_le_one {A} (g : A -> Z) l : (forall e, In e l -> (g e <= 1)%Z) -> (forall i j e e', nth_error l i = Some e -> nth_error l j = Some e' -> g e = 1%Z -> g e' = 1%Z -> i = j) -> (zsum (map g l) <= 1)%Z.
Proof.
  induction l as [|e l IH]; intros H1 H2; [cbn; lia|]. unfold zsum in *. cbn [map fold_right]. destruct (Z.eq_dec (g e) 1) as [E|E].
  - assert (Z : (fold_right Z.add 0 (map g l) <= 0)%Z); [|lia]. assert (K : forall x, In x l -> (g x <= 0)%Z).
    { intros x I. pose proof (H1 x (or_intror I)). destruct (Z.eq_dec (g x) 1) as [Ex|]; [|lia]. apply In_nth_error in I. destruct I as (j & I). specialize (H2 0%nat (S j) e x eq_refl I E Ex). discriminate. }
    clear - K. induction l as [|x l IH]; cbn [map fold_right]; [lia|]. pose proof (K x (or_introl eq_refl)). specialize (IH (fun y I => K y (or_intror I))). lia.
  - pose proof (H1 e (or_introl eq_refl)). assert ((fold_right Z.add 0 (map g l) <= 1)%Z); [|lia]. apply IH; [intros x I; apply H1; right; auto|]. intros i j x y Hi Hj Ex Ey. specialize (H2 (S i) (S j) x y Hi Hj Ex Ey). congruence.
Qed.
Lemma turn_one n u q e : edge_turn n u q e = 1%Z -> dot u (fst e) <= dot u q < dot u (snd e).
Proof. turn; intros H; try discriminate. auto. Qed.
Lemma turn_le n u q e : (edge_turn n u q e <= 1)%Z.
Proof. turn; lia. Qed.
Lemma cyc_nth_split {A} (l : list A) i x y : nth_error (cyc_pairs l) i = Some (x, y) -> nth_error l i = Some x /\ In y l.
Proof.
  intros E. assert (I : In (x, y) (cyc_pairs l)) by (eapply nth_error_In; eauto). destruct (cyc_at l x y I) as (j & _ & _ & Hy). split; [|eapply nth_error_In; eauto]. destruct l as [|z r]; [destruct i; discriminate|]. cbn [cyc_pairs] in E. revert E. clear. generalize (r ++ [z]) (z :: r). intros m l. revert i m. induction l as [|v l IH]; intros [|i] [|w m] E; cbn in *; try discriminate; [congruence|eauto].
Qed.
Lemma convex_at_most f n d u q : covers f n d -> cross u n <> vzero -> strictly_convex n (fst f) -> NoDup (fst f) -> (winding n u q (fst f) <= 1)%Z.
Proof.
  intros (U & P & _) N S D. unfold winding. apply zsum_le_one; [intros; apply turn_le|]. intros i j (a, b) (c, e) Hi Hj E1 E2. apply turn_one in E1, E2. cbn [fst snd] in *. destruct (Nat.eq_dec i j) as [|Nij]; auto. exfalso.
  pose proof (nth_error_In _ _ Hi) as I1. pose proof (nth_error_In _ _ Hj) as I2. apply cyc_nth_split in Hi, Hj. destruct Hi as (Ha & Hb), Hj as (Hc & He). assert (Nac : a <> c). { intros ->. apply Nij. rewrite NoDup_nth_error in D. apply D; [apply nth_error_Some; congruence|congruence]. }
  apply nth_error_In in Ha, Hc. assert (Nbc : c <> b) by (intros ->; lra). assert (Nae : a <> e) by (intros ->; lra).
  apply (two_rises n d u q a b c e U N (P a Ha) (P b Hb) (P c Hc) (P e He) E1 E2); [apply S; auto|eapply convex_weak; eauto|apply S; auto|eapply convex_weak; eauto].
Qed.
Lemma convex_at_least f n d u q : covers f n d -> snd f <> [] -> on_plane n d q -> cross u n <> vzero -> strictly_convex n (fst f) -> (forall a b, In (a, b) (cyc_pairs (fst f)) -> 0 < left_of n a b q) -> (1 <= winding n u q (fst f))%Z.
Proof.
  intros C Ne Q N S L. destruct (winding_mesh f n d u q C Q N) as (W0 & _ & _). destruct (Z.eq_dec (winding n u q (fst f)) 0) as [Z|]; [|lia]. exfalso.
  assert (R : forall e, In e (cyc_pairs (fst f)) -> rises u q e = 0%Z).
  { pose proof (loop_rises u q (fst f)) as Lr. assert (K : forall e, In e (cyc_pairs (fst f)) -> (0 <= edge_turn n u q e)%Z /\ (rises u q e <= edge_turn n u q e)%Z). { intros (a, b) I. specialize (L a b I). unfold rises. turn; try lia; exfalso; lra. }
    unfold winding in Z. revert Z Lr K. generalize (cyc_pairs (fst f)). clear. induction l as [|e l IH]; intros Z Lr K; [intros e []|]. unfold zsum in *. cbn [map fold_right] in *.
    assert (G : (0 <= fold_right Z.add 0 (map (edge_turn n u q) l))%Z) by (clear - K; induction l as [|x l IH]; cbn [map fold_right]; [lia|]; pose proof (K x (or_intror (or_introl eq_refl))); assert ((0 <= fold_right Z.add 0 (map (edge_turn n u q) l))%Z) by (apply IH; intros y [<-|I]; apply K; [left; auto|right; right; auto]); lia).
    assert (G' : (fold_right Z.add 0 (map (rises u q) l) <= fold_right Z.add 0 (map (edge_turn n u q) l))%Z) by (clear - K; induction l as [|x l IH]; cbn [map fold_right]; [lia|]; pose proof (K x (or_intror (or_introl eq_refl))); assert ((fold_right Z.add 0 (map (rises u q) l) <= fold_right Z.add 0 (map (edge_turn n u q) l))%Z) by (apply IH; intros y [<-|I]; apply K; [left; auto|right; right; auto]); lia).
    pose proof (K e (or_introl eq_refl)) as Ke. intros x [<-|I]; [lia|]. apply IH; auto; try lia. intros y Iy. apply K. right. auto. }
  assert (H : forall x y, In x (fst f) -> In y (fst f) -> high u q x = high u q y).
  { assert (G : forall l x, (forall e, In e (open_pairs (x :: l)) -> rises u q e = 0%Z) -> forall y, In y l -> high u q y = high u q x).
    { clear. induction l as [|z l IH]; intros x K y I; [destruct I|]. assert (Ez : high u q z = high u q x) by (pose proof (K (x, z) (or_introl eq_refl)) as E; rewrite rises_high in E; cbn [fst snd] in E; lia). destruct I as [<-|I]; auto. rewrite <- Ez. apply IH; auto. intros e Ie. apply K. right. destruct l; [destruct I|auto]. }
    destruct (fst f) as [|z r] eqn:Ef; [intros x y []|]. assert (Gz : forall y, In y (z :: r) -> high u q y = high u q z).
    { intros y [<-|I]; auto. apply (G (r ++ [z])); [|apply in_app_iff; auto]. intros e Ie. apply R. rewrite cyc_open. exact Ie. }
    intros x y Ix Iy. rewrite (Gz x Ix), (Gz y Iy). auto. }
  pose proof (left_all_in_mesh f n d q C Ne Q S L) as (t & v1 & v2 & v3 & It & (V & x & y & z & X & Y & Zz & Es & Eq)). 
  assert (Vi : In v1 (fst f) /\ In v2 (fst f) /\ In v3 (fst f)) by (destruct t as ((i, j), k); destruct V as (V1 & V2 & V3); apply nth_error_In in V1, V2, V3; auto). destruct Vi as (I1 & I2 & I3).
  assert (Hb : forall w v1 v2 v3 x y z, dot w (bary v1 v2 v3 x y z) = x * dot w v1 + y * dot w v2 + z * dot w v3) by (clear; intros; unfold bary; dvec w; dvec v1; dvec v2; dvec v3; vunf; ring).
  destruct (Rle_dec (dot u v1) (dot u q)) as [Low|High].
  - assert (All : forall v, In v (fst f) -> dot u v <= dot u q). { intros v I. specialize (H v v1 I I1). unfold high in H. destruct (Rle_dec (dot u v1) (dot u q)); [|contradiction]. destruct (Rle_dec (dot u v) (dot u q)); [auto|discriminate]. }
    set (w := cross n (cross u n)). destruct (left_higher n q w (cyc_pairs (fst f)) L) as (e & He & Le). pose proof C as (U & _).
    assert (Pw : on_plane n d (vadd q (smul e w))) by (unfold on_plane in *; replace (dot n (vadd q (smul e w))) with (dot n q) by (unfold w; clear; dvec n; dvec q; dvec u; vunf; ring); auto).
    destruct (left_all_in_mesh f n d _ C Ne Pw S Le) as (t' & w1 & w2 & w3 & It' & (V' & x' & y' & z' & X' & Y' & Z' & Es' & Eq')).
    assert (Vj : In w1 (fst f) /\ In w2 (fst f) /\ In w3 (fst f)) by (destruct t' as ((i, j), k); destruct V' as (V1 & V2 & V3); apply nth_error_In in V1, V2, V3; auto). destruct Vj as (J1 & J2 & J3).
    assert (Hu : dot u (vadd q (smul e w)) = dot u q + e * dot (cross u n) (cross u n)) by (unfold w; clear; dvec n; dvec q; dvec u; vunf; ring). rewrite Eq' in Hu. rewrite Hb in Hu. pose proof (All _ J1). pose proof (All _ J2). pose proof (All _ J3).
    assert (Hk : 0 < dot (cross u n) (cross u n)) by (apply dot_self_pos; auto).
    revert Hu H0 H1 H2 Hk. generalize (dot u w1) (dot u w2) (dot u w3) (dot u q) (dot (cross u n) (cross u n)). clear - X' Y' Z' Es' He. intros h1 h2 h3 h k Hu L1 L2 L3 Hk. assert (x' * h1 <= x' * h) by nra. assert (y' * h2 <= y' * h) by nra. assert (z' * h3 <= z' * h) by nra. assert (x' * h + y' * h + z' * h = h) by (replace h with (1 * h) at 4 by ring; rewrite <- Es'; ring). nra.
  - assert (All : forall v, In v (fst f) -> dot u q < dot u v). { intros v I. specialize (H v v1 I I1). unfold high in H. destruct (Rle_dec (dot u v1) (dot u q)); [contradiction|]. destruct (Rle_dec (dot u v) (dot u q)); [discriminate|lra]. }
    pose proof (Hb u v1 v2 v3 x y z) as Hu. rewrite <- Eq in Hu. pose proof (All _ I1). pose proof (All _ I2). pose proof (All _ I3). revert Hu H0 H1 H2. generalize (dot u v1) (dot u v2) (dot u v3) (dot u q). clear - X Y Zz Es. intros h1 h2 h3 h Hu L1 L2 L3. assert (E : x * (h1 - h) + y * (h2 - h) + z * (h3 - h) = 0) by (replace (x * (h1 - h) + y * (h2 - h) + z * (h3 - h)) with (x * h1 + y * h2 + z * h3 - (x + y + z) * h) by ring; rewrite Es, <- Hu; ring).
    assert (0 <= x * (h1 - h)) by nra. assert (0 <= y * (h2 - h)) by nra. assert (0 <= z * (h3 - h)) by nra. assert (x = 0) by nra. assert (y = 0) by nra. assert (z = 0) by nra. lra.
Qed.
Lemma convex_inside f n d u q : covers f n d -> snd f <> [] -> on_plane n d q -> cross u n <> vzero -> strictly_convex n (fst f) -> NoDup (fst f) -> (forall a b, In (a, b) (cyc_pairs (fst f)) -> 0 < left_of n a b q) -> winding n u q (fst f) = 1%Z.
Proof. intros C Ne Q N S D L. pose proof (convex_at_least f n d u q C Ne Q N S L). pose proof (convex_at_most f n d u q C N S D). lia. Qed.
