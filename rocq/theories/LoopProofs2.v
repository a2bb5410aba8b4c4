(** A closed path that does not meet itself winds equally often along all its
    edges, and at most once around any point. *)
From Coq Require Import Reals List ZArith Bool Arith Lia Lra Permutation.
From Verif Require Import Prelude GeomSpec GeomProofs3 WindSpec WindProofs1 LoopProofs1.
Import ListNotations.
Local Open Scope R_scope.

(** ** Points of an edge *)
Lemma up_nonzero u a b : ht u a <> ht u b -> nonzero u /\ a <> b.
Proof. intros H. split; [intros ->; apply H; unfold ht; cbn; ring|intros ->; auto]. Qed.
Lemma between_ends a b m : a <> b -> between a b m -> m <> a /\ m <> b.
Proof.
  destruct a as (a1, a2), b as (b1, b2). intros N (t & T & ->). unfold at2. cbn [fst snd].
  assert (D : b1 - a1 <> 0 \/ b2 - a2 <> 0) by (destruct (Req_dec (b1 - a1) 0); [right; intros ?; apply N; f_equal; lra|auto]).
  split; intros E; injection E as E1 E2.
  - assert (t * (b1 - a1) = 0) by lra. assert (t * (b2 - a2) = 0) by lra. destruct D as [D|D]; [apply Rmult_integral in H|apply Rmult_integral in H0]; lra.
  - assert ((1 - t) * (b1 - a1) = 0) by lra. assert ((1 - t) * (b2 - a2) = 0) by lra. destruct D as [D|D]; [apply Rmult_integral in H|apply Rmult_integral in H0]; lra.
Qed.
Lemma at2_at2 a b s t k : at2 (at2 a b s) (at2 a b t) k = at2 a b (s + k * (t - s)).
Proof. unfold at2. cbn. f_equal; ring. Qed.
Lemma at2_end a b : at2 a b 1 = b /\ at2 a b 0 = a.
Proof. destruct a, b. unfold at2. cbn. split; f_equal; ring. Qed.
Lemma apart_pos a1 a2 b1 b2 : (a1, a2) <> (b1, b2) -> 0 < (b1 - a1) * (b1 - a1) + (b2 - a2) * (b2 - a2).
Proof.
  intros N. destruct (Req_dec (b1 - a1) 0) as [Z|Z].
  - assert (Z' : b2 - a2 <> 0) by (intros Z'; apply N; f_equal; lra). pose proof (Rsqr_pos_lt _ Z') as P. unfold Rsqr in P. rewrite Z. lra.
  - pose proof (Rsqr_pos_lt _ Z) as P. unfold Rsqr in P. pose proof (Rle_0_sqr (b2 - a2)) as P'. unfold Rsqr in P'. lra.
Qed.
Lemma mix_pos s t k : 0 <= k <= 1 -> 0 < s -> 0 < t -> 0 < (1 - k) * s + k * t.
Proof. intros K S T. destruct (Rle_dec k (1 / 2)); nra. Qed.
Lemma seg_between a b z z' m : between a b z -> between a b z' -> seg z z' m -> between a b m.
Proof. intros (s & S & ->) (t & T & ->) (k & K & ->). rewrite at2_at2. eexists. split; [|reflexivity]. pose proof (mix_pos s t k K ltac:(lra) ltac:(lra)). pose proof (mix_pos (1 - s) (1 - t) k K ltac:(lra) ltac:(lra)). lra. Qed.
Lemma seg_to_end a b z m : between a b z -> seg z b m -> between a b m \/ m = b.
Proof.
  intros (s & S & ->) (k & K & ->). destruct (Req_dec k 1) as [->|N]; [right; apply at2_end|]. left. replace (at2 (at2 a b s) b k) with (at2 (at2 a b s) (at2 a b 1) k) by (rewrite (proj1 (at2_end a b)); auto). rewrite at2_at2. eexists. split; [|reflexivity]. pose proof (mix_pos s 1 k K ltac:(lra) ltac:(lra)). assert (0 < (1 - k) * (1 - s)) by nra. lra.
Qed.
Lemma seg_from_start a b z m : between a b z -> seg a z m -> between a b m \/ m = a.
Proof. intros Z S. destruct (seg_to_end b a z m) as [B|B]; auto using between_sym, seg_sym. Qed.
Lemma edge_sides a b o t : det a b (at2 a b t) = 0 /\ det b o (at2 a b t) = (1 - t) * det a b o /\ det o a (at2 a b t) = t * det a b o.
Proof. unfold det, at2. cbn. repeat split; ring. Qed.
Lemma edge_value u a b o z : between a b z -> 0 < det a b o -> (ht u a < ht u b -> tri2 u z a b o = 0%Z) /\ (ht u b < ht u a -> tri2 u z a b o = 1%Z).
Proof.
  intros (t & T & ->) D. unfold tri2, turn2. cbn [fst snd]. destruct (edge_sides a b o t) as (-> & -> & ->). rewrite at2_ht. assert (P1 : 0 < (1 - t) * det a b o) by nra. assert (P2 : 0 < t * det a b o) by nra.
  revert P1 P2. generalize ((1 - t) * det a b o) (t * det a b o) (ht u a) (ht u b) (ht u o). clear D. intros s s' x y w P1 P2. split; intros L.
  - assert (X : 0 < t * (y - x)) by nra. assert (Y : 0 < (1 - t) * (y - x)) by nra. cross_cases; try lia; exfalso; lra.
  - assert (X : t * (y - x) < 0) by nra. assert (Y : (1 - t) * (y - x) < 0) by nra. cross_cases; try lia; exfalso; lra.
Qed.
Lemma wind_insert u q a o b r : (wind u q (a :: b :: r) = wind u q (a :: o :: b :: r) + tri2 u q a b o)%Z.
Proof.
  rewrite !wind_path. cbn [cycle app]. change (path u q (a :: b :: r ++ [a])) with (turn2 u q (a, b) + path u q (b :: r ++ [a]))%Z. change (path u q (a :: o :: b :: r ++ [a])) with (turn2 u q (a, o) + (turn2 u q (o, b) + path u q (b :: r ++ [a])))%Z.
  unfold tri2. rewrite (turn2_swap u q o b), (turn2_swap u q a o). lia.
Qed.
Lemma cycle_insert a o b r : cyc_pairs (a :: o :: b :: r) = (a, o) :: (o, b) :: steps (b :: r ++ [a]).
Proof. rewrite <- cycle_steps. reflexivity. Qed.
Lemma cycle_first a b r : cyc_pairs (a :: b :: r) = (a, b) :: steps (b :: r ++ [a]).
Proof. rewrite <- cycle_steps. reflexivity. Qed.
(** The value along one edge: it is the same for all points strictly between the
    ends and all directions in which the edge goes up, and one more for those
    in which it goes down. *)
Definition along (l : list p2) (v : Z) : Prop := forall a b r z u, l = a :: b :: r -> between a b z -> (ht u a < ht u b -> wind u z l = v) /\ (ht u b < ht u a -> wind u z l = (v + 1)%Z).
Lemma along_exists a b r : a <> b -> (forall m e, between a b m -> In e (steps (b :: r ++ [a])) -> ~ seg (fst e) (snd e) m) -> exists v, along (a :: b :: r) v.
Proof.
  intros N H. pose (o := (fst a - (snd b - snd a), snd a + (fst b - fst a)) : p2).
  assert (D : 0 < det a b o). { destruct a as (a1, a2), b as (b1, b2). unfold o, det. cbn [fst snd]. pose proof (apart_pos a1 a2 b1 b2 N). lra. }
  assert (O : forall m, between a b m -> off (a :: o :: b :: r) m).
  { intros m B e I. rewrite cycle_insert in I. destruct (between_ends a b m N B) as (Na & Nb). pose proof (seg_det a b m (between_seg _ _ _ B)) as Z. assert (Da : det a b a = 0) by (unfold det; ring). assert (Db : det a b b = 0) by (unfold det; ring).
    destruct I as [<-|[<-|I]]; [| |apply H; auto]; cbn [fst snd]; intros S.
    - apply seg_sym in S. destruct (seg_sign a b _ _ _ S) as (_ & _ & X & _). apply Na, X; lra.
    - destruct (seg_sign a b _ _ _ S) as (_ & _ & X & _). apply Nb, X; lra. }
  pose (z0 := at2 a b (1 / 2)). assert (B0 : between a b z0) by (exists (1 / 2); split; [lra|auto]). pose (u0 := (fst b - fst a, snd b - snd a) : p2).
  exists (wind u0 z0 (a :: o :: b :: r)). intros a' b' r' z u E B. injection E as <- <- <-. assert (N0 : nonzero u0) by (destruct a as (a1, a2), b as (b1, b2); unfold u0; cbn [fst snd]; intros X; injection X as X1 X2; apply N; f_equal; lra).
  destruct (edge_value u a b o z B D) as (V1 & V2).
  split; intros L; destruct (up_nonzero u a b ltac:(lra)) as (Nu & _); rewrite (wind_insert u z a o b r), (wind_move u u0 z z0); auto; try (intros m S; apply O; apply (seg_between a b z z0); auto).
  - rewrite V1 by auto. lia.
  - rewrite V2 by auto. lia.
Qed.

(** ** Around a corner *)
Lemma both_forward a b c : a <> b -> b <> c -> (forall m, between a b m -> ~ between b c m) -> exists x, 0 < ht x b - ht x a /\ 0 < ht x c - ht x b.
Proof.
  destruct a as (a1, a2), b as (b1, b2), c as (c1, c2). intros N1 N2 H. pose (k := (b1 - a1) * (c2 - b2) - (b2 - a2) * (c1 - b1)).
  destruct (Req_dec k 0) as [E|E].
  - exists (b1 - a1, b2 - a2). unfold ht. cbn [fst snd].
    pose proof (apart_pos a1 a2 b1 b2 N1) as P1. pose proof (apart_pos b1 b2 c1 c2 N2) as P2.
    split; [lra|]. unfold k in E. set (d1 := b1 - a1) in *. set (d2 := b2 - a2) in *. set (e1 := c1 - b1) in *. set (e2 := c2 - b2) in *.
    destruct (Rlt_dec 0 (d1 * e1 + d2 * e2)) as [L|L]; [unfold e1, e2 in L; lra|]. exfalso.
    pose (g := (d1 * e1 + d2 * e2) / (d1 * d1 + d2 * d2)).
    assert (G1 : e1 = g * d1). { unfold g. apply (Rmult_eq_reg_r (d1 * d1 + d2 * d2)); [|lra]. replace ((d1 * e1 + d2 * e2) / (d1 * d1 + d2 * d2) * d1 * (d1 * d1 + d2 * d2)) with ((d1 * e1 + d2 * e2) * d1) by (field; lra). replace (e1 * (d1 * d1 + d2 * d2)) with ((d1 * e1 + d2 * e2) * d1 - d2 * (d1 * e2 - d2 * e1)) by ring. rewrite E. ring. }
    assert (G2 : e2 = g * d2). { unfold g. apply (Rmult_eq_reg_r (d1 * d1 + d2 * d2)); [|lra]. replace ((d1 * e1 + d2 * e2) / (d1 * d1 + d2 * d2) * d2 * (d1 * d1 + d2 * d2)) with ((d1 * e1 + d2 * e2) * d2) by (field; lra). replace (e2 * (d1 * d1 + d2 * d2)) with ((d1 * e1 + d2 * e2) * d2 + d1 * (d1 * e2 - d2 * e1)) by ring. rewrite E. ring. }
    assert (Gn : g < 0). { assert (g <> 0) by (intros Z; rewrite Z in G1, G2; rewrite G1, G2 in P2; lra). assert (g * (d1 * d1 + d2 * d2) <= 0) by (unfold g; replace ((d1 * e1 + d2 * e2) / (d1 * d1 + d2 * d2) * (d1 * d1 + d2 * d2)) with (d1 * e1 + d2 * e2) by (field; lra); lra). nra. }
    (* the point at the fraction h before the corner *)
    pose (h := - g / (1 - g)). assert (Hh : 0 < h < 1). { unfold h. split; [apply Rmult_lt_0_compat; [lra|apply Rinv_0_lt_compat; lra]|]. apply (Rmult_lt_reg_r (1 - g)); [lra|]. unfold Rdiv. rewrite Rmult_assoc, Rinv_l; lra. }
    pose (j := 1 / (1 - g)). assert (Hj : 0 < j < 1). { unfold j. split; [apply Rmult_lt_0_compat; [lra|apply Rinv_0_lt_compat; lra]|]. apply (Rmult_lt_reg_r (1 - g)); [lra|]. unfold Rdiv. rewrite Rmult_assoc, Rinv_l; lra. }
    apply (H (at2 (a1, a2) (b1, b2) (1 - h))); [exists (1 - h); split; [lra|auto]|]. exists j. split; auto. unfold at2. cbn [fst snd]. fold d1 d2 e1 e2. rewrite G1, G2.
    assert (J : j * g = - h) by (unfold j, h; field; lra). replace (b1 + j * (g * d1)) with (b1 + (j * g) * d1) by ring. replace (b2 + j * (g * d2)) with (b2 + (j * g) * d2) by ring. rewrite J. unfold d1, d2. f_equal; ring.
  - (* not on one line *)
    exists (k * ((c2 - b2) - (b2 - a2)), k * ((b1 - a1) - (c1 - b1))). unfold ht. cbn [fst snd]. assert (0 < k * k) by nra. split; unfold k in *; nra.
Qed.
Lemma corner a b c r v v' : a <> b -> b <> c -> (forall m, between a b m -> ~ between b c m) -> (forall m e, between a b m \/ m = b \/ between b c m -> In e (steps (c :: r ++ [a])) -> ~ seg (fst e) (snd e) m) ->
  along (a :: b :: c :: r) v -> along (b :: c :: r ++ [a]) v' -> v' = v.
Proof.
  intros N1 N2 Sp H A A'. destruct (both_forward a b c N1 N2 Sp) as (x & X1 & X2).
  pose (o := (fst b - snd x, snd b + fst x) : p2).
  assert (D1 : det a b o = ht x b - ht x a) by (unfold det, ht, o; cbn; ring). assert (D2 : det b c o = ht x c - ht x b) by (unfold det, ht, o; cbn; ring).
  pose (z := at2 a b (1 / 2)). assert (B1 : between a b z) by (exists (1 / 2); split; [lra|auto]). pose (z2 := at2 b c (1 / 2)). assert (B2 : between b c z2) by (exists (1 / 2); split; [lra|auto]).
  assert (Nx : nonzero x) by (apply (up_nonzero x a b); lra).
  assert (Ob : o <> b) by (intros E; rewrite E in D1; unfold det in D1; lra).
  assert (Q1 : forall t, det b o (at2 a b t) = (1 - t) * (ht x b - ht x a)) by (intros t; unfold det, ht, o, at2; cbn; ring).
  assert (Q2 : forall t, det b o (at2 b c t) = - t * (ht x c - ht x b)) by (intros t; unfold det, ht, o, at2; cbn; ring).
  assert (Db : det b o b = 0) by (unfold det; ring). assert (Do : det b o o = 0) by (unfold det; ring).
  assert (Da : det b o a = ht x b - ht x a) by (rewrite <- (proj2 (at2_end a b)) at 1; rewrite Q1; lra). assert (Dc : det b o c = - (ht x c - ht x b)) by (rewrite <- (proj1 (at2_end b c)) at 1; rewrite Q2; lra).
  assert (O : forall m, between a b m \/ m = b \/ between b c m -> off (a :: o :: c :: r) m).
  { intros m B e I. rewrite cycle_insert in I. destruct I as [<-|[<-|I]]; [| |apply H; auto]; cbn [fst snd]; intros S.
    - (* the edge from a to o *)
      pose proof (seg_sign b o _ _ _ S) as (Y1 & _ & Y2 & _). destruct B as [B|[->|B]].
      + destruct (between_ends a b m N1 B) as (Na & _). apply seg_sym in S. destruct (seg_sign a b _ _ _ S) as (_ & _ & Y & _). apply Na, Y; [rewrite D1; lra|unfold det; lra|apply seg_det, between_seg; auto].
      + apply Ob. symmetry. apply Y2; lra.
      + destruct B as (t & T & ->). rewrite Q2 in Y1. specialize (Y1 ltac:(lra) ltac:(lra)). nra.
    - (* the edge from o to c *)
      pose proof (seg_sign b o _ _ _ (seg_sym _ _ _ S)) as (_ & Y1 & _ & Y2). destruct B as [B|[->|B]].
      + destruct B as (t & T & ->). rewrite Q1 in Y1. specialize (Y1 ltac:(lra) ltac:(lra)). nra.
      + apply Ob. symmetry. apply Y2; lra.
      + destruct (between_ends b c m N2 B) as (_ & Nc). destruct (seg_sign b c _ _ _ S) as (_ & _ & Y & _). apply Nc, Y; [rewrite D2; lra|unfold det; lra|apply seg_det, between_seg; auto]. }
  assert (W : forall q, (wind x q (a :: b :: c :: r) = wind x q (a :: o :: c :: r) + tri2 x q a b o + tri2 x q b c o)%Z).
  { intros q. rewrite !wind_path. cbn [cycle app]. change (path x q (a :: b :: c :: r ++ [a])) with (turn2 x q (a, b) + (turn2 x q (b, c) + path x q (c :: r ++ [a])))%Z. change (path x q (a :: o :: c :: r ++ [a])) with (turn2 x q (a, o) + (turn2 x q (o, c) + path x q (c :: r ++ [a])))%Z.
    unfold tri2. rewrite (turn2_swap x q a o), (turn2_swap x q o c), (turn2_swap x q b o). lia. }
  assert (M : wind x z (a :: o :: c :: r) = wind x z2 (a :: o :: c :: r)).
  { rewrite (wind_move x x z b); auto; [rewrite (wind_move x x b z2); auto|].
    - intros m S. apply O. destruct (seg_from_start b c z2 m B2 S) as [B|B]; auto.
    - intros m S. apply O. destruct (seg_to_end a b z m B1 S) as [B|B]; auto. }
  assert (T1 : tri2 x z a b o = 0%Z) by (apply (edge_value x a b o z B1); lra). assert (T2 : tri2 x z2 b c o = 0%Z) by (apply (edge_value x b c o z2 B2); lra).
  assert (T3 : tri2 x z b c o = 0%Z). { apply (tri2_pos x z b c o Nx); [lra|]. right. right. replace (det o b z) with (- det b o z) by (unfold det; ring). unfold z. rewrite Q1. lra. }
  assert (T4 : tri2 x z2 a b o = 0%Z). { apply (tri2_pos x z2 a b o Nx); [lra|]. right. left. unfold z2. rewrite Q2. lra. }
  destruct (A a b (c :: r) z x eq_refl B1) as (V & _). destruct (A' b c (r ++ [a]) z2 x eq_refl B2) as (V' & _). rewrite <- V, <- V' by lra.
  rewrite (wind_perm x z2 (b :: c :: r ++ [a]) (a :: b :: c :: r)) by (apply Permutation_sym, (cyc_pairs_rot1 a (b :: c :: r))). rewrite !W, T1, T2, T3, T4, M. lia.
Qed.
