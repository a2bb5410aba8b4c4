(** Proofs: leaving a tiled polygon means crossing its outline. *)
From Coq Require Import Reals ZArith List Bool Arith Lia Lra Permutation.
From Verif Require Import Prelude VecModel VecProofs VoxModel GeomModel GeomSpec GeomProofs1 GeomProofs2 GeomProofs3 GeomProofs4 GeomProofs5 TriModel TriSpec TriProofs PolyModel PolySpec PolyProofs1 PolyProofs2 CrossSpec InsideSpec InsideProofs1 RoomSpec.
Import ListNotations.
Local Open Scope R_scope.

(** Linear constraints on a number cut an interval out of an interval. *)
Definition holds (cs : list (R * R)) (t : R) : Prop := forall c, In c cs -> 0 <= fst c + snd c * t.
Lemma cut_interval cs l h : l <= h -> (forall t, l <= t <= h -> ~ holds cs t) \/
  exists l' h', l <= l' /\ l' <= h' /\ h' <= h /\ (forall t, l <= t <= h -> (holds cs t <-> l' <= t <= h')) /\ (h' = h \/ exists c, In c cs /\ snd c < 0 /\ fst c + snd c * h' = 0).
Proof.
  intros L. induction cs as [|(a, b) cs IH].
  - right. exists l, h. repeat (split; [lra|]). split; [|auto]. intros t T. split; [intros _; lra|intros _ c []].
  - assert (C : forall t, holds ((a, b) :: cs) t <-> 0 <= a + b * t /\ holds cs t).
    { intros t. split; [intros H; split; [apply (H (a, b)); left; auto|intros c I; apply H; right; auto]|intros (H1 & H2) c [<-|I]; [exact H1|apply H2; auto]]. }
    destruct IH as [N|(l' & h' & A & B & D & S & Ti)]; [left; intros t T H; apply C in H; apply (N t T); tauto|].
    destruct (Rtotal_order b 0) as [Hb|[->|Hb]].
    + set (r := - a / b). assert (E : forall t, 0 <= a + b * t <-> t <= r).
      { intros t. unfold r. split; intros H.
        - apply Rmult_le_reg_l with (- b); [lra|]. replace (- b * (- a / b)) with a by (field; lra). lra.
        - apply (Rmult_le_compat_l (- b)) in H; [|lra]. replace (- b * (- a / b)) with a in H by (field; lra). lra. }
      assert (Z : a + b * r = 0) by (unfold r; field; lra).
      destruct (Rle_dec l' r) as [K|K]; [|left; intros t T H; apply C in H; destruct H as (H1 & H2); apply E in H1; apply S in H2; lra].
      destruct (Rle_dec h' r) as [K2|K2].
      * right. exists l', h'. repeat (split; [lra|]). split; [intros t T; rewrite C, E, (S t T); lra|]. destruct Ti as [->|(c & I & X)]; [auto|right; exists c; split; [right; auto|auto]].
      * right. exists l', r. repeat (split; [lra|]). split; [intros t T; rewrite C, E, (S t T); lra|]. right. exists (a, b). cbn [fst snd]. split; [left; auto|split; lra].
    + destruct (Rle_dec 0 a) as [K|K]; [|left; intros t T H; apply C in H; lra].
      right. exists l', h'. repeat (split; [lra|]). split; [intros t T; rewrite C, (S t T); lra|]. destruct Ti as [->|(c & I & X)]; [auto|right; exists c; split; [right; auto|auto]].
    + set (r := - a / b). assert (E : forall t, 0 <= a + b * t <-> r <= t).
      { intros t. unfold r. split; intros H.
        - apply Rmult_le_reg_l with b; [lra|]. replace (b * (- a / b)) with (- a) by (field; lra). lra.
        - apply (Rmult_le_compat_l b) in H; [|lra]. replace (b * (- a / b)) with (- a) in H by (field; lra). lra. }
      destruct (Rle_dec r h') as [K|K]; [|left; intros t T H; apply C in H; destruct H as (H1 & H2); apply E in H1; apply S in H2; lra].
      right. exists (Rmax l' r), h'. pose proof (Rmax_l l' r). pose proof (Rmax_r l' r). assert (Rmax l' r <= h') by (apply Rmax_lub; auto). repeat (split; [lra|]).
      split; [intros t T; rewrite C, E, (S t T); split; [intros (X & Y); split; [apply Rmax_lub; lra|lra]|lra]|]. destruct Ti as [->|(c & I & X)]; [auto|right; exists c; split; [right; auto|auto]].
Qed.

(** The side of a line in the plane. *)
Definition side (n a b x : vec) : R := dot n (cross (vsub b a) (vsub x a)).
Definition on_way (q w : vec) (t : R) : vec := vadd q (smul t (vsub w q)).
Lemma side_way n a b q w t : side n a b (on_way q w t) = side n a b q + (side n a b w - side n a b q) * t.
Proof. unfold side, on_way. dvec n; dvec a; dvec b; dvec q; dvec w. vunf. ring. Qed.
Lemma side_sum n a b c x : side n a b x + side n b c x + side n c a x = side n a b c.
Proof. unfold side. dvec n; dvec a; dvec b; dvec c; dvec x. vunf. ring. Qed.
Lemma side_bary n a b c x y z : x + y + z = 1 -> side n a b (bary a b c x y z) = z * side n a b c.
Proof. intros E. replace x with (1 - y - z) by lra. unfold side, bary. dvec n; dvec a; dvec b; dvec c. vunf. ring. Qed.
Lemma side_turn n a b c : side n b c a = side n a b c.
Proof. unfold side. dvec n; dvec a; dvec b; dvec c. vunf. ring. Qed.
Lemma in_plane_bary n d a b c q : unit n -> on_plane n d a -> on_plane n d b -> on_plane n d c -> on_plane n d q -> 0 < side n a b c ->
  q = bary a b c (side n b c q / side n a b c) (side n c a q / side n a b c) (side n a b q / side n a b c).
Proof.
  intros U A B C Q K. unfold on_plane in *. destruct (perp_cross n (vsub b a) (vsub c a) U) as (k & X); [vunf; lra|vunf; lra|].
  assert (Ek : side n a b c = k). { unfold side. rewrite X. replace (dot n (smul k n)) with (k * dot n n) by (dvec n; vunf; ring). rewrite U. ring. }
  pose proof (bary_identity a b c q) as I. rewrite X in I. assert (Z : dot (smul k n) (vsub q a) = 0) by (replace (dot (smul k n) (vsub q a)) with (k * (dot n q - dot n a)) by (dvec n; dvec q; dvec a; vunf; ring); nra). rewrite Z in I.
  assert (D : forall x, dot x (smul k n) = k * dot n x) by (intros x; dvec x; dvec n; vunf; ring). rewrite !D, U, Rmult_1_r in I.
  fold (side n b c q) in I. fold (side n c a q) in I. fold (side n a b q) in I. rewrite Ek in *. generalize (side n b c q) (side n c a q) (side n a b q) I. clear - K. intros x y z I.
  transitivity (smul (/ (k * k)) (smul (k * k) q)); [dvec q; vunf; f_equal; field; lra|]. rewrite I. unfold bary. dvec a; dvec b; dvec c; dvec n. vunf. f_equal; field; lra.
Qed.
Lemma in_triangle_sides n d a b c q : unit n -> on_plane n d a -> on_plane n d b -> on_plane n d c -> on_plane n d q -> 0 < side n a b c ->
  (in_triangle a b c q <-> 0 <= side n a b q /\ 0 <= side n b c q /\ 0 <= side n c a q).
Proof.
  intros U A B C Q K. split.
  - intros (x & y & z & X & Y & Z & E & ->). 
    assert (E1 : side n a b (bary a b c x y z) = z * side n a b c) by (apply side_bary; auto).
    assert (E2 : side n b c (bary a b c x y z) = x * side n a b c) by (replace z with (1 - x - y) by lra; unfold side, bary; clear; dvec n; dvec a; dvec b; dvec c; vunf; ring).
    assert (E3 : side n c a (bary a b c x y z) = y * side n a b c) by (replace z with (1 - x - y) by lra; unfold side, bary; clear; dvec n; dvec a; dvec b; dvec c; vunf; ring).
    rewrite E1, E2, E3. repeat split; apply Rmult_le_pos; lra.
  - intros (S1 & S2 & S3). exists (side n b c q / side n a b c), (side n c a q / side n a b c), (side n a b q / side n a b c). 
    assert (P : forall x, 0 <= x -> 0 <= x / side n a b c) by (intros x X; apply Rmult_le_pos; [auto|left; apply Rinv_0_lt_compat; auto]).
    do 3 (split; [auto|]). split; [|eapply in_plane_bary; eauto]. pose proof (side_sum n a b c q) as S. generalize (side n a b c) (side n a b q) (side n b c q) (side n c a q) K S. clear. intros k x y z K S. replace (y / k + z / k + x / k) with ((x + y + z) / k) by (field; lra). rewrite S. field. lra.
Qed.
Lemma in_triangle_turn a b c q : in_triangle a b c q -> in_triangle b c a q.
Proof. intros (x & y & z & X & Y & Z & E & ->). exists y, z, x. repeat (split; [lra|]). unfold bary. dvec a; dvec b; dvec c; vunf; f_equal; ring. Qed.
Lemma way_on_plane n d q w t : on_plane n d q -> on_plane n d w -> on_plane n d (on_way q w t).
Proof. unfold on_plane, on_way. intros Q W. replace (dot n (vadd q (smul t (vsub w q)))) with (dot n q + t * (dot n w - dot n q)) by (dvec n; dvec q; dvec w; vunf; ring). nra. Qed.
Lemma triangle_on_plane n d a b c q : on_plane n d a -> on_plane n d b -> on_plane n d c -> in_triangle a b c q -> on_plane n d q.
Proof. unfold on_plane. intros A B C (x & y & z & _ & _ & _ & E & ->). replace (dot n (bary a b c x y z)) with (x * dot n a + y * dot n b + z * dot n c) by (unfold bary; dvec n; dvec a; dvec b; dvec c; vunf; ring). replace x with (1 - y - z) by lra. replace (dot n a) with (- d) by lra. replace (dot n b) with (- d) by lra. replace (dot n c) with (- d) by lra. ring. Qed.

(** A triangle with a chosen first edge. *)
Definition edge_tri (f : face) (n : vec) (i j : nat) (a b c : vec) : Prop :=
  In (i, j) (tri_edges (snd f)) /\ nth_error (fst f) i = Some a /\ nth_error (fst f) j = Some b /\ In c (fst f) /\ 0 < side n a b c /\ (forall x, in_triangle a b c x -> in_mesh f x).
Lemma edge_of_tri (f : face) n i j k a b c : In (i, j, k) (snd f) -> tri_verts (fst f) (i, j, k) (a, b, c) -> 0 < side n a b c ->
  edge_tri f n i j a b c /\ edge_tri f n j k b c a /\ edge_tri f n k i c a b.
Proof.
  intros I (A & B & C) S. assert (M : forall x, in_triangle a b c x -> in_mesh f x) by (intros x X; exists (i, j, k), a, b, c; repeat split; auto).
  assert (E : In (i, j) (tri_edges (snd f)) /\ In (j, k) (tri_edges (snd f)) /\ In (k, i) (tri_edges (snd f))).
  { unfold tri_edges. repeat split; apply in_flat_map; exists (i, j, k); (split; [exact I|cbn; auto]). }
  destruct E as (E1 & E2 & E3). pose proof (side_turn n a b c) as T1. pose proof (side_turn n b c a) as T2.
  assert (Ia : In a (fst f) /\ In b (fst f) /\ In c (fst f)) by (repeat split; eapply nth_error_In; eassumption). destruct Ia as (Ia & Ib & Ic).
  assert (M2 : forall x, in_triangle b c a x -> in_mesh f x) by (intros x X; apply M; do 2 apply in_triangle_turn; auto).
  assert (M3 : forall x, in_triangle c a b x -> in_mesh f x) by (intros x X; apply M; apply in_triangle_turn; auto).
  unfold edge_tri. assert (0 < side n b c a) by lra. assert (0 < side n c a b) by lra. tauto.
Qed.
Lemma edge_exists (f : face) n d i j : tiled f n d -> In (i, j) (tri_edges (snd f)) -> exists a b c, edge_tri f n i j a b c.
Proof.
  intros (_ & _ & T & _) I. unfold tri_edges in I. apply in_flat_map in I. destruct I as (((u, v), w) & It & Ie). destruct (T _ It) as (a & b & c & Tv & S). change (0 < side n a b c) in S.
  destruct (edge_of_tri f n u v w a b c It Tv S) as (E1 & E2 & E3). destruct Ie as [E|[E|[E|[]]]]; injection E as <- <-; [exists a, b, c|exists b, c, a|exists c, a, b]; auto.
Qed.

Section Exit.
Context (f : face) (n : vec) (d : R) (q w : vec) (T : tiled f n d) (Q : on_plane n d q) (W : on_plane n d w).
Definition last_exit (m : R) (ts : list tri) : Prop :=
  0 <= m <= 1 /\ in_mesh f (on_way q w m) /\
  (forall t a b c s, In t ts -> tri_verts (fst f) t (a, b, c) -> 0 <= s <= 1 -> in_triangle a b c (on_way q w s) -> s <= m) /\
  (m = 1 \/ exists i j a b c, edge_tri f n i j a b c /\ in_triangle a b c (on_way q w m) /\ side n a b (on_way q w m) = 0 /\ side n a b w < side n a b q).
Lemma last_exit_exists ts : (forall t, In t ts -> In t (snd f)) ->
  (forall t a b c s, In t ts -> tri_verts (fst f) t (a, b, c) -> 0 <= s <= 1 -> ~ in_triangle a b c (on_way q w s)) \/ exists m, last_exit m ts.
Proof.
  induction ts as [|t ts IH]; intros I; [left; intros t a b c s []|].
  assert (It : In t (snd f)) by (apply I; left; auto). specialize (IH (fun x X => I x (or_intror X))).
  destruct T as (U & P & Tt & _). destruct (Tt t It) as (a & b & c & Tv & S). change (0 < side n a b c) in S. destruct t as ((i, j), k).
  assert (One : forall a' b' c', tri_verts (fst f) (i, j, k) (a', b', c') -> a' = a /\ b' = b /\ c' = c).
  { intros a' b' c' (X & Y & Z). destruct Tv as (X' & Y' & Z'). rewrite X in X'. rewrite Y in Y'. rewrite Z in Z'. injection X' as ->. injection Y' as ->. injection Z' as ->. auto. }
  assert (Pa : on_plane n d a /\ on_plane n d b /\ on_plane n d c) by (destruct Tv as (X & Y & Z); repeat split; apply P; eapply nth_error_In; eauto). destruct Pa as (Pa & Pb & Pc).
  set (con := fun x y : vec => (side n x y q, side n x y w - side n x y q)).
  assert (H : forall s, in_triangle a b c (on_way q w s) <-> holds [con a b; con b c; con c a] s).
  { intros s. rewrite (in_triangle_sides n d a b c (on_way q w s) U Pa Pb Pc (way_on_plane n d q w s Q W) S), !side_way. unfold holds, con. split.
    - intros (H1 & H2 & H3) x [<-|[<-|[<-|[]]]]; cbn [fst snd]; auto.
    - intros X. split; [apply (X (con a b)); cbn; auto|]. split; [apply (X (con b c)); cbn; auto|apply (X (con c a)); cbn; auto]. }
  destruct (edge_of_tri f n i j k a b c It Tv S) as (E1 & E2 & E3).
  destruct (cut_interval [con a b; con b c; con c a] 0 1) as [N|(l & h & L0 & Lh & H1 & X & Ti)]; [lra| |].
  - destruct IH as [IH|(m & M0 & M1 & M2 & M3)].
    + left. intros t a' b' c' s [<-|It'] Tv' Hs Y; [destruct (One _ _ _ Tv') as (-> & -> & ->); apply H in Y; apply (N s Hs Y)|exact (IH t a' b' c' s It' Tv' Hs Y)].
    + right. exists m. split; [auto|]. split; [auto|]. split; [|auto]. intros t a' b' c' s [<-|It'] Tv' Hs Y; [destruct (One _ _ _ Tv') as (-> & -> & ->); apply H in Y; destruct (N s Hs Y)|exact (M2 t a' b' c' s It' Tv' Hs Y)].
  - assert (Hh : in_triangle a b c (on_way q w h)) by (apply H, X; lra).
    assert (Tight : h = 1 \/ exists i j a b c, edge_tri f n i j a b c /\ in_triangle a b c (on_way q w h) /\ side n a b (on_way q w h) = 0 /\ side n a b w < side n a b q).
    { destruct Ti as [->|(x & Ix & Sl & Z)]; [auto|]. right. pose proof (in_triangle_turn _ _ _ _ Hh) as Hh2. pose proof (in_triangle_turn _ _ _ _ Hh2) as Hh3.
      destruct Ix as [<-|[<-|[<-|[]]]]; unfold con in Sl, Z; cbn [fst snd] in Sl, Z; [exists i, j, a, b, c|exists j, k, b, c, a|exists k, i, c, a, b]; (split; [assumption|]; split; [assumption|]; split; [rewrite side_way; exact Z|lra]). }
    assert (Own : forall s, 0 <= s <= 1 -> in_triangle a b c (on_way q w s) -> s <= h) by (intros s Hs Y; apply H in Y; apply X in Y; auto; lra).
    assert (Mh : in_mesh f (on_way q w h)) by (destruct E1 as (_ & _ & _ & _ & _ & M); apply M; auto).
    destruct IH as [IH|(m & M0 & M1 & M2 & M3)].
    + right. exists h. split; [lra|]. split; [auto|]. split; [|auto]. intros t a' b' c' s [<-|It'] Tv' Hs Y; [destruct (One _ _ _ Tv') as (-> & -> & ->); auto|destruct (IH t a' b' c' s It' Tv' Hs Y)].
    + right. destruct (Rle_dec h m) as [Hm|Hm].
      * exists m. split; [auto|]. split; [auto|]. split; [|auto]. intros t a' b' c' s [<-|It'] Tv' Hs Y; [destruct (One _ _ _ Tv') as (-> & -> & ->); pose proof (Own s Hs Y); lra|exact (M2 t a' b' c' s It' Tv' Hs Y)].
      * exists h. split; [lra|]. split; [auto|]. split; [|auto]. intros t a' b' c' s [<-|It'] Tv' Hs Y; [destruct (One _ _ _ Tv') as (-> & -> & ->); auto|pose proof (M2 t a' b' c' s It' Tv' Hs Y); lra].
Qed.
End Exit.
Lemma cyc_at {A} (l : list A) x y : In (x, y) (cyc_pairs l) -> exists i, (i < length l)%nat /\ nth_error l i = Some x /\ nth_error l ((i + 1) mod length l) = Some y.
Proof.
  intros I. apply In_nth_error in I. destruct I as (i & I). assert (Li : (i < length l)%nat) by (rewrite <- cyc_pairs_length; apply nth_error_Some; congruence). exists i. split; auto.
  assert (Lm : ((i + 1) mod length l < length l)%nat) by (apply Nat.mod_upper_bound; lia).
  destruct (nth_error l i) as [a|] eqn:Ea; [|apply nth_error_None in Ea; lia]. destruct (nth_error l ((i + 1) mod length l)) as [b|] eqn:Eb; [|apply nth_error_None in Eb; lia].
  rewrite (cyc_pairs_nth l i a b Ea Eb) in I. injection I as -> ->. auto.
Qed.
Lemma cyc_seq_nth {A} (l : list A) i j a b : In (i, j) (cyc_pairs (seq 0 (length l))) -> nth_error l i = Some a -> nth_error l j = Some b -> In (a, b) (cyc_pairs l).
Proof.
  intros I Ni Nj. destruct (cyc_at _ _ _ I) as (k & Hk & Ki & Kj). rewrite seq_length in *. assert (Nk : (k < length l)%nat) by auto.
  assert (Sq : forall m x, (m < length l)%nat -> nth_error (seq 0 (length l)) m = Some x -> x = m) by (intros m x Hm E; apply (nth_error_nth _ _ 0%nat) in E; rewrite seq_nth in E by auto; cbn in E; auto).
  apply Sq in Ki; auto. apply Sq in Kj; [|apply Nat.mod_upper_bound; lia]. subst i j. eapply nth_error_In. eapply GeomProofs3.cyc_pairs_nth; eauto.
Qed.
Lemma corner_on_outline pts q : In q pts -> on_outline pts q.
Proof.
  intros I. rewrite <- (TriProofs.cyc_fst pts) in I. apply in_map_iff in I. destruct I as ((a, b) & <- & I). exists (a, b). split; [auto|]. exists 0. split; [lra|]. unfold seg_point. cbn [fst snd]. dvec a; dvec b; vunf; f_equal; ring.
Qed.
(** Walking from the polygon to a point of its plane outside crosses the outline. *)
Lemma exit_outline (f : face) n d q w : tiled f n d -> in_mesh f q -> on_plane n d w -> ~ in_mesh f w -> exists m, 0 <= m <= 1 /\ on_outline (fst f) (on_way q w m).
Proof.
  intros T Mq W Nw. pose proof T as (U & P & _ & Rv & _).
  assert (Q : on_plane n d q). { destruct Mq as (((i, j), k) & a & b & c & It & (A & B & C) & H). eapply triangle_on_plane; [| | |exact H]; apply P; eapply nth_error_In; eauto. }
  assert (W0 : on_way q w 0 = q) by (unfold on_way; dvec q; dvec w; vunf; f_equal; ring). assert (W1 : on_way q w 1 = w) by (unfold on_way; dvec q; dvec w; vunf; f_equal; ring).
  destruct (last_exit_exists f n d q w T Q W (snd f) (fun t X => X)) as [N|(m & M0 & M1 & M2 & M3)].
  { exfalso. destruct Mq as (t & a & b & c & It & Tv & H). apply (N t a b c 0 It Tv); [lra|]. rewrite W0. auto. }
  exists m. split; [auto|]. set (u := on_way q w m) in *. destruct M3 as [->|(i & j & a & b & c & E & Ht & S0 & Sl)]; [exfalso; apply Nw; rewrite <- W1; auto|].
  assert (Lt : m < 1) by (destruct (Rle_lt_or_eq_dec m 1) as [X| ->]; [lra|auto|exfalso; apply Nw; rewrite <- W1; auto]).
  destruct E as (Ie & Na & Nb & Ic & K & _). destruct Ht as (x & y & z & X & Y & Z & Sm & Eu).
  assert (Z0 : z = 0). { rewrite Eu, side_bary in S0 by auto. apply Rmult_integral in S0. destruct S0; [auto|lra]. }
  assert (Eu' : u = seg_point a b y). { rewrite Eu. unfold seg_point, bary. replace x with (1 - y) by lra. rewrite Z0. clear. dvec a; dvec b; dvec c; vunf; f_equal; ring. }
  destruct (Rv i j Ie) as [Out|Rev]; [exists (a, b); split; [eapply cyc_seq_nth; eauto|exists y; split; [lra|exact Eu']]|].
  destruct (Rle_lt_or_eq_dec 0 x X) as [X'|X']; [|rewrite Eu'; replace (seg_point a b y) with b by (replace y with 1 by lra; unfold seg_point; clear; dvec a; dvec b; vunf; f_equal; ring); apply corner_on_outline; eapply nth_error_In; eauto].
  destruct (Rle_lt_or_eq_dec 0 y Y) as [Y'|Y']; [|rewrite Eu'; replace (seg_point a b y) with a by (rewrite <- Y'; unfold seg_point; clear; dvec a; dvec b; vunf; f_equal; ring); apply corner_on_outline; eapply nth_error_In; eauto].
  exfalso. destruct (edge_exists f n d j i T Rev) as (b' & a' & c' & _ & Nb' & Na' & Ic' & K' & M'). rewrite Nb in Nb'. rewrite Na in Na'. injection Nb' as <-. injection Na' as <-.
  assert (Pa : on_plane n d a) by (apply P; eapply nth_error_In; eauto). assert (Pb : on_plane n d b) by (apply P; eapply nth_error_In; eauto). assert (Pc : on_plane n d c') by (apply P; auto).
  (* the three sides of the other triangle along the way *)
  assert (G1 : forall s, side n b a (on_way q w s) = (s - m) * (side n a b q - side n a b w)).
  { intros s. assert (Op : forall v, side n b a v = - side n a b v) by (intros v; unfold side; clear; dvec n; dvec a; dvec b; dvec v; vunf; ring). rewrite Op, side_way. unfold u in S0. rewrite side_way in S0. nra. }
  assert (G2 : side n a c' u = y * side n b a c') by (rewrite Eu'; unfold seg_point, side; clear; dvec n; dvec a; dvec b; dvec c'; vunf; ring).
  assert (G3 : side n c' b u = x * side n b a c') by (rewrite Eu'; replace x with (1 - y) by lra; unfold seg_point, side; clear; dvec n; dvec a; dvec b; dvec c'; vunf; ring).
  assert (Sh : forall v1 v2 s, side n v1 v2 (on_way q w s) = side n v1 v2 u + (s - m) * (side n v1 v2 w - side n v1 v2 q)) by (intros v1 v2 s; unfold u; rewrite !side_way; ring).
  set (p2 := y * side n b a c') in *. set (p3 := x * side n b a c') in *. assert (P2 : 0 < p2) by (apply Rmult_lt_0_compat; auto). assert (P3 : 0 < p3) by (apply Rmult_lt_0_compat; auto).
  set (g2 := side n a c' w - side n a c' q). set (g3 := side n c' b w - side n c' b q).
  set (e := Rmin (1 - m) (Rmin (p2 / (Rabs g2 + 1)) (p3 / (Rabs g3 + 1)))).
  pose proof (Rabs_pos g2) as A2. pose proof (Rabs_pos g3) as A3.
  assert (e2 : e <= p2 / (Rabs g2 + 1)) by (unfold e; eapply Rle_trans; [apply Rmin_r|apply Rmin_l]). assert (e3 : e <= p3 / (Rabs g3 + 1)) by (unfold e; eapply Rle_trans; [apply Rmin_r|apply Rmin_r]). assert (e1 : e <= 1 - m) by apply Rmin_l.
  assert (e0 : 0 < e) by (unfold e; repeat apply Rmin_glb_lt; try lra; apply Rmult_lt_0_compat; auto; apply Rinv_0_lt_compat; lra).
  assert (Bd : forall p g, e <= p / (Rabs g + 1) -> 0 <= Rabs g -> 0 <= p + e * g).
  { intros p g L A. apply (Rmult_le_compat_r (Rabs g + 1)) in L; [|lra]. replace (p / (Rabs g + 1) * (Rabs g + 1)) with p in L by (field; lra). pose proof (Rle_abs (- g)) as R. rewrite Rabs_Ropp in R. nra. }
  assert (In' : in_mesh f (on_way q w (m + e))).
  { apply M'. apply (in_triangle_sides n d b a c' _ U Pb Pa Pc (way_on_plane n d q w _ Q W) K'). split; [rewrite G1; apply Rmult_le_pos; lra|].
    split; rewrite Sh; [rewrite G2|rewrite G3]; replace (m + e - m) with e by ring; [apply (Bd p2 g2)|apply (Bd p3 g3)]; auto. }
  destruct In' as (t & a1 & b1 & c1 & It & Tv & H). assert (m + e <= m); [|lra]. apply (M2 t a1 b1 c1 (m + e) It Tv); [lra|exact H].
Qed.

(** Distances to a plane set. *)
Lemma foot_on_plane n d p : unit n -> on_plane n d (foot n d p).
Proof. unfold unit, on_plane, foot. intros U. replace (dot n (vsub p (smul (dot n p + d) n))) with (dot n p - (dot n p + d) * dot n n) by (generalize (dot n p + d); intros k; dvec n; dvec p; vunf; ring). rewrite U. ring. Qed.
Lemma dist_split n d p q : unit n -> on_plane n d q -> dist p q * dist p q = (dot n p + d) * (dot n p + d) + dot (vsub q (foot n d p)) (vsub q (foot n d p)).
Proof.
  intros U Q. unfold dist. rewrite norm_sq. unfold foot, on_plane, unit in *. set (k := dot n p + d) in *.
  replace (vsub q (vsub p (smul k n))) with (vadd (vsub q p) (smul k n)) by (clearbody k; dvec p; dvec q; dvec n; vunf; f_equal; ring).
  replace (dot (vadd (vsub q p) (smul k n)) (vadd (vsub q p) (smul k n))) with (dot (vsub q p) (vsub q p) + 2 * k * (dot n q - dot n p) + k * k * dot n n) by (clearbody k; dvec p; dvec q; dvec n; vunf; ring).
  rewrite U. replace (dot n q) with (- d) by lra. unfold k. ring.
Qed.
Lemma way_nearer n d p q m : unit n -> on_plane n d q -> 0 <= m <= 1 -> dist p (on_way q (foot n d p) m) <= dist p q.
Proof.
  intros U Q M. pose proof (foot_on_plane n d p U) as F. pose proof (dist_split n d p q U Q) as D1. pose proof (dist_split n d p _ U (way_on_plane n d q _ m Q F)) as D2.
  set (g := foot n d p) in *. replace (dot (vsub (on_way q g m) g) (vsub (on_way q g m) g)) with ((1 - m) * (1 - m) * dot (vsub q g) (vsub q g)) in D2 by (unfold on_way; clearbody g; clear; dvec q; dvec g; vunf; ring).
  pose proof (dot_pos (vsub q g)) as Pp. pose proof (norm_pos (vsub q p)) as N1. pose proof (norm_pos (vsub (on_way q g m) p)) as N2. apply Rsqr_incr_0; auto. unfold Rsqr. rewrite D1, D2.
  set (z := dot (vsub q g) (vsub q g)) in *. assert ((1 - m) * (1 - m) * z <= 1 * z) by (apply Rmult_le_compat_r; [auto|nra]). lra.
Qed.
Lemma seq_at n i : (i < n)%nat -> nth_error (seq 0 n) i = Some i.
Proof. intros H. rewrite (nth_error_nth' _ 0%nat) by (rewrite seq_length; auto). rewrite seq_nth by auto. auto. Qed.
(** The outline is part of the polygon. *)
Lemma outline_in_mesh (f : face) n d q : tiled f n d -> on_outline (fst f) q -> in_mesh f q.
Proof.
  intros T ((a, b) & I & (t & Ht & E)). destruct (cyc_at _ _ _ I) as (i & Hi & Ni & Nj). pose proof T as (_ & _ & _ & _ & O).
  assert (Ie : In (i, ((i + 1) mod length (fst f))%nat) (cyc_pairs (seq 0 (length (fst f))))).
  { eapply nth_error_In with (n := i). apply GeomProofs3.cyc_pairs_nth; rewrite ?seq_length; apply seq_at; auto. apply Nat.mod_upper_bound. lia. }
  destruct (edge_exists f n d _ _ T (O _ Ie)) as (a' & b' & c & _ & Na & Nb & _ & _ & M). cbn [fst snd] in *. rewrite Ni in Na. rewrite Nj in Nb. injection Na as <-. injection Nb as <-.
  apply M. exists (1 - t), t, 0. repeat (split; [lra|]). rewrite E. unfold seg_point, bary. clear. dvec a; dvec b; dvec c; vunf; f_equal; ring.
Qed.
(** The foot is in the polygon: the distance is the one to the plane.
    Otherwise it is the one to the outline. *)
Lemma mesh_distance (f : face) n d p r : tiled f n d ->
  (in_mesh f (foot n d p) -> distance_to (on_plane n d) p r -> distance_to (in_mesh f) p r) /\
  (~ in_mesh f (foot n d p) -> distance_to (on_outline (fst f)) p r -> distance_to (in_mesh f) p r).
Proof.
  intros T. pose proof T as (U & P & _).
  assert (Pl : forall q, in_mesh f q -> on_plane n d q). { intros q (((i, j), k) & a & b & c & It & (A & B & C) & H). eapply triangle_on_plane; [| | |exact H]; apply P; eapply nth_error_In; eauto. }
  split; intros H (A & B).
  - split; [|intros q Q; apply B; auto]. exists (foot n d p). split; [auto|]. destruct A as (q & Q & E). rewrite <- E. apply Rle_antisym; [|rewrite E; apply B, foot_on_plane; auto].
    replace (foot n d p) with (on_way q (foot n d p) 1) by (unfold on_way; generalize (foot n d p); intros g; dvec q; dvec g; vunf; f_equal; ring). apply way_nearer; auto; lra.
  - split; [destruct A as (q & Q & E); exists q; split; [eapply outline_in_mesh; eauto|auto]|]. intros q Q.
    destruct (exit_outline f n d q (foot n d p) T Q (foot_on_plane n d p U) H) as (m & M & O). apply Rle_trans with (dist p (on_way q (foot n d p) m)); [apply B; auto|apply way_nearer; auto].
Qed.
