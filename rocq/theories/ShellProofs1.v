(** Points that avoid finitely many planes, and vectors on one side of a plane. *)
From Coq Require Import Reals List Bool Arith Lia Lra Psatz.
From Verif Require Import Prelude VecModel VecProofs GeomModel GeomSpec GeomProofs1.
Import ListNotations.
Local Open Scope R_scope.

(** Affine functions of a point. *)
Definition aff (f : vec * R) (q : vec) : R := dot (fst f) q + snd f.
Definition pos (P : list (vec * R)) (q : vec) : Prop := forall f, In f P -> 0 < aff f q.
Definition nonz (N : list (vec * R)) (q : vec) : Prop := forall f, In f N -> aff f q <> 0.

Lemma aff_move f q w k : aff f (vadd q (smul k w)) = aff f q + k * dot (fst f) w.
Proof. unfold aff. destruct f as (g, e). cbn [fst snd]. vunf. ring. Qed.
Lemma pos_app P Q q : pos (P ++ Q) q <-> pos P q /\ pos Q q.
Proof. unfold pos. split; [intros H; split; intros f I; apply H; apply in_or_app; auto|]. intros (H & K) f I. apply in_app_or in I. destruct I; auto. Qed.
Lemma nonz_app P Q q : nonz (P ++ Q) q <-> nonz P q /\ nonz Q q.
Proof. unfold nonz. split; [intros H; split; intros f I; apply H; apply in_or_app; auto|]. intros (H & K) f I. apply in_app_or in I. destruct I; auto. Qed.
Lemma pos_cons f P q : pos (f :: P) q <-> 0 < aff f q /\ pos P q.
Proof. unfold pos. split; [intros H; split; [apply H; left; auto|intros g I; apply H; right; auto]|]. intros (H & K) g [<-|I]; auto. Qed.
Lemma nonz_cons f P q : nonz (f :: P) q <-> aff f q <> 0 /\ nonz P q.
Proof. unfold nonz. split; [intros H; split; [apply H; left; auto|intros g I; apply H; right; auto]|]. intros (H & K) g [<-|I]; auto. Qed.
Lemma pos_nil q : pos [] q. Proof. intros f []. Qed.

(** A small step keeps finitely many positive functions positive. *)
Lemma small_step P q w : pos P q -> exists k, 0 < k /\ forall s, 0 <= s <= k -> pos P (vadd q (smul s w)).
Proof.
  induction P as [|f P IH]; intros H; [exists 1; split; [lra|intros; apply pos_nil]|].
  apply pos_cons in H. destruct H as (H & K). destruct (IH K) as (k & K0 & K1). set (d := dot (fst f) w).
  assert (A : 0 < Rabs d + 1) by (pose proof (Rabs_pos d); lra).
  exists (Rmin k (aff f q / (2 * (Rabs d + 1)))). assert (B : 0 < aff f q / (2 * (Rabs d + 1))) by (apply Rdiv_lt_0_compat; lra). split; [apply Rmin_pos; auto|].
  intros s (S0 & S1). apply pos_cons. split.
  - rewrite aff_move. fold d. assert (L : s <= aff f q / (2 * (Rabs d + 1))) by (eapply Rle_trans; [exact S1|apply Rmin_r]).
    assert (M : s * (2 * (Rabs d + 1)) <= aff f q). { apply (Rmult_le_compat_r (2 * (Rabs d + 1))) in L; [|lra]. unfold Rdiv in L. rewrite Rmult_assoc, Rinv_l, Rmult_1_r in L; lra. }
    assert (Dm : - d <= Rabs d) by (rewrite <- Rabs_Ropp; apply Rle_abs). nra.
  - apply K1. split; auto. eapply Rle_trans; [exact S1|apply Rmin_l].
Qed.
(** A point near q off finitely many planes. *)
Lemma generic_point P N q : pos P q -> (forall f, In f N -> fst f <> vzero) -> exists q', pos P q' /\ nonz N q'.
Proof.
  revert P q. induction N as [|f N IH]; intros P q H Z; [exists q; split; auto; intros g []|].
  assert (St : exists q1, pos P q1 /\ aff f q1 <> 0).
  { destruct (Req_EM_T (aff f q) 0) as [E|E]; [|exists q; auto]. destruct (small_step P q (fst f) H) as (k & K0 & K1). exists (vadd q (smul k (fst f))). split; [apply K1; lra|].
    rewrite aff_move, E. pose proof (Z f (or_introl eq_refl)) as Nz. pose proof (dot_pos (fst f)). assert (dot (fst f) (fst f) <> 0) by (intros X; apply Nz; apply dot_zero; auto). nra. }
  destruct St as (q1 & H1 & A1). set (g := if Rlt_dec 0 (aff f q1) then f else (smul (-1) (fst f), - snd f)).
  assert (G1 : 0 < aff g q1). { unfold g. destruct (Rlt_dec 0 (aff f q1)); auto. unfold aff in *. cbn [fst snd]. replace (dot (smul (-1) (fst f)) q1) with (- dot (fst f) q1) by (vunf; ring). lra. }
  assert (G2 : forall q, 0 < aff g q -> aff f q <> 0). { intros q0. unfold g. destruct (Rlt_dec 0 (aff f q1)); [lra|]. unfold aff. cbn [fst snd]. replace (dot (smul (-1) (fst f)) q0) with (- dot (fst f) q0) by (vunf; ring). lra. }
  destruct (IH (g :: P) q1) as (q' & Hp & Hn); [apply pos_cons; auto|intros h I; apply Z; right; auto|].
  apply pos_cons in Hp. destruct Hp as (Hg & Hp). exists q'. split; auto. apply nonz_cons. auto.
Qed.

(** Combinations with positive coefficients. *)
Inductive comb (L : list vec) : vec -> Prop :=
| comb_in v : In v L -> comb L v
| comb_add u v : comb L u -> comb L v -> comb L (vadd u v)
| comb_mul k v : 0 < k -> comb L v -> comb L (smul k v).
Lemma comb_trans L M v : (forall u, In u M -> comb L u) -> comb M v -> comb L v.
Proof. intros H C. induction C as [v I|u v _ A _ B|k v K _ A]; [auto|apply comb_add; auto|apply comb_mul; auto]. Qed.
Lemma comb_flat e L v : (forall u, In u L -> dot e u = 0) -> comb L v -> dot e v = 0.
Proof. intros H C. induction C as [v I|u v _ A _ B|k v _ _ A]; [auto| |].
  - replace (dot e (vadd u v)) with (dot e u + dot e v) by (vunf; ring). lra.
  - replace (dot e (smul k v)) with (k * dot e v) by (vunf; ring). rewrite A. ring.
Qed.
(** A number between two finite sets. *)
Lemma between_lists (A B : list R) : (forall a b, In a A -> In b B -> a < b) -> exists z, (forall a, In a A -> a < z) /\ (forall b, In b B -> z < b).
Proof.
  induction A as [|x A IH]; intros H.
  - clear H. induction B as [|y B (z & _ & Z)]; [exists 0; split; intros ? []|]. exists (Rmin z y - 1). split; [intros ? []|]. pose proof (Rmin_l z y). pose proof (Rmin_r z y). intros b [<-|I]; [lra|]. specialize (Z b I). lra.
  - destruct IH as (z & Z1 & Z2); [intros a b Ia Ib; apply H; [right|]; auto|]. destruct (Rlt_dec x z) as [L|L]; [exists z; split; auto; intros a [<-|I]; auto|].
    assert (M : exists y, x < y /\ forall b, In b B -> y < b).
    { assert (Hx : forall b, In b B -> x < b) by (intros b I; apply H; [left|]; auto). clear -Hx. induction B as [|b B IH]; [exists (x + 1); split; [lra|intros ? []]|]. destruct IH as (y & Y1 & Y2); [intros; apply Hx; right; auto|].
      pose proof (Hx b (or_introl eq_refl)). exists (Rmin y ((x + b) / 2)). split; [apply Rmin_glb_lt; lra|]. pose proof (Rmin_l y ((x + b) / 2)). pose proof (Rmin_r y ((x + b) / 2)). intros c [<-|I]; [lra|]. specialize (Y2 c I). lra. }
    destruct M as (y & Y1 & Y2). exists y. split; auto. intros a [<-|I]; auto. specialize (Z1 a I). lra.
Qed.
(** Eliminating one direction. *)
Lemma eliminate e L : exists M, (forall v, In v M -> comb L v /\ dot e v = 0) /\ forall m, (forall v, In v M -> 0 < dot m v) -> exists k, forall v, In v L -> 0 < dot (vadd m (smul k e)) v.
Proof.
  set (Zs := filter (fun v => Reqb (dot e v) 0) L). set (Ps := filter (fun v => Rltb 0 (dot e v)) L). set (Ns := filter (fun v => Rltb (dot e v) 0) L).
  exists (Zs ++ flat_map (fun p => map (fun n => vadd (smul (dot e p) n) (smul (- dot e n) p)) Ns) Ps).
  assert (IZ : forall v, In v Zs <-> In v L /\ dot e v = 0) by (intros v; unfold Zs; rewrite filter_In, Reqb_true; tauto).
  assert (IP : forall v, In v Ps <-> In v L /\ 0 < dot e v) by (intros v; unfold Ps; rewrite filter_In, Rltb_true; tauto).
  assert (IN : forall v, In v Ns <-> In v L /\ dot e v < 0) by (intros v; unfold Ns; rewrite filter_In, Rltb_true; tauto).
  split.
  - intros v I. apply in_app_or in I. destruct I as [I|I].
    + apply IZ in I. destruct I. split; auto. constructor; auto.
    + apply in_flat_map in I. destruct I as (p & Ip & I). apply in_map_iff in I. destruct I as (n & <- & In'). apply IP in Ip. apply IN in In'. destruct Ip, In'. split; [apply comb_add; apply comb_mul; try lra; constructor; auto|]. vunf. ring.
  - intros m H. destruct (between_lists (map (fun p => - dot m p / dot e p) Ps) (map (fun n => dot m n / - dot e n) Ns)) as (k & K1 & K2).
    + intros a b Ia Ib. apply in_map_iff in Ia. apply in_map_iff in Ib. destruct Ia as (p & <- & Ip), Ib as (n & <- & In').
      assert (X : 0 < dot m (vadd (smul (dot e p) n) (smul (- dot e n) p))) by (apply H; apply in_or_app; right; apply in_flat_map; exists p; split; auto; apply in_map_iff; exists n; auto).
      replace (dot m (vadd (smul (dot e p) n) (smul (- dot e n) p))) with (dot e p * dot m n + - dot e n * dot m p) in X by (vunf; ring).
      apply IP in Ip. apply IN in In'. destruct Ip as (_ & Ep), In' as (_ & En). apply (Rmult_lt_reg_r (dot e p)); auto. unfold Rdiv. rewrite Rmult_assoc, Rinv_l, Rmult_1_r by lra.
      apply (Rmult_lt_reg_r (- dot e n)); [lra|]. replace (dot m n * / - dot e n * dot e p * - dot e n) with (dot m n * dot e p * (/ - dot e n * - dot e n)) by ring. rewrite Rinv_l, Rmult_1_r by lra. lra.
    + exists k. intros v I. replace (dot (vadd m (smul k e)) v) with (dot m v + k * dot e v) by (vunf; ring). destruct (Rtotal_order (dot e v) 0) as [Lt|[Eq|Gt]].
      * assert (X : k < dot m v / - dot e v) by (apply K2; apply in_map_iff; exists v; split; auto; apply IN; auto). apply (Rmult_lt_compat_r (- dot e v)) in X; [|lra]. unfold Rdiv in X. rewrite Rmult_assoc, Rinv_l, Rmult_1_r in X by lra. lra.
      * rewrite Eq. assert (X : 0 < dot m v) by (apply H; apply in_or_app; left; apply IZ; auto). lra.
      * assert (X : - dot m v / dot e v < k) by (apply K1; apply in_map_iff; exists v; split; auto; apply IP; auto). apply (Rmult_lt_compat_r (dot e v)) in X; [|lra]. unfold Rdiv in X. rewrite Rmult_assoc, Rinv_l, Rmult_1_r in X by lra. lra.
Qed.
(** Either all vectors are on one side of a plane through the origin, or the
    origin is a combination of them. *)
Lemma gordan L : (exists m, forall v, In v L -> 0 < dot m v) \/ comb L vzero.
Proof.
  destruct (eliminate (V 1 0 0) L) as (L1 & A1 & B1). destruct (eliminate (V 0 1 0) L1) as (L2 & A2 & B2). destruct (eliminate (V 0 0 1) L2) as (L3 & A3 & B3).
  destruct L3 as [|v L3].
  - left. destruct (B3 vzero) as (k3 & C3); [intros ? []|]. destruct (B2 _ C3) as (k2 & C2). destruct (B1 _ C2) as (k1 & C1). eexists. exact C1.
  - right. destruct (A3 v (or_introl eq_refl)) as (C3 & D3).
    assert (E2 : dot (V 0 1 0) v = 0) by (apply (comb_flat _ L2); auto; intros u I; apply A2; auto).
    assert (C2 : comb L1 v) by (apply (comb_trans L1 L2); auto; intros u I; apply A2; auto).
    assert (E1 : dot (V 1 0 0) v = 0) by (apply (comb_flat _ L1); auto; intros u I; apply A1; auto).
    assert (C1 : comb L v) by (apply (comb_trans L L1); auto; intros u I; apply A1; auto).
    replace vzero with v; auto. dvec v. vunf. f_equal; lra.
Qed.
(** The coefficients. *)
Fixpoint wsum (ws : list R) (L : list vec) : vec := match ws, L with w :: ws', v :: L' => vadd (smul w v) (wsum ws' L') | _, _ => vzero end.
Lemma wsum_add a b L : length a = length L -> length b = length L -> exists c, length c = length L /\ ((forall x, In x a -> 0 <= x) -> (forall x, In x b -> 0 <= x) -> forall x, In x c -> 0 <= x) /\ Rsum c = Rsum a + Rsum b /\ wsum c L = vadd (wsum a L) (wsum b L).
Proof.
  revert a b. induction L as [|v L IH]; intros [|x a] [|y b] A B; try discriminate.
  - exists []. split; auto. split; [intros _ _ x []|]. split; [cbn; lra|cbn [wsum]; vunf; f_equal; ring].
  - cbn [length] in *. destruct (IH a b) as (c & C1 & C2 & C3 & C4); try lia. exists ((x + y) :: c). split; [cbn [length]; lia|]. split.
    + intros P Q z [<-|I]; [pose proof (P x (or_introl eq_refl)); pose proof (Q y (or_introl eq_refl)); lra|]. apply C2; auto; intros; [apply P|apply Q]; right; auto.
    + split; [rewrite !Rsum_cons, C3; lra|]. cbn [wsum]. rewrite C4. vunf. f_equal; ring.
Qed.
Lemma wsum_mul k a L : wsum (map (Rmult k) a) L = smul k (wsum a L) /\ Rsum (map (Rmult k) a) = k * Rsum a.
Proof.
  split.
  - revert L. induction a as [|x a IH]; intros [|v L]; cbn [map wsum]; try (vunf; f_equal; ring). rewrite IH. vunf. f_equal; ring.
  - induction a as [|x a IH]; cbn [map]; [cbn; ring|]. rewrite !Rsum_cons, IH. ring.
Qed.
Lemma wsum_nil L : wsum [] L = vzero. Proof. destruct L; auto. Qed.
Lemma comb_weights L v : comb L v -> exists ws, length ws = length L /\ (forall x, In x ws -> 0 <= x) /\ 0 < Rsum ws /\ v = wsum ws L.
Proof.
  intros C. induction C as [v I|u v _ (a & A1 & A2 & A3 & A4) _ (b & B1 & B2 & B3 & B4)|k v K _ (a & A1 & A2 & A3 & A4)].
  - assert (Z : forall L, exists ws, length ws = length L /\ (forall x, In x ws -> 0 <= x) /\ Rsum ws = 0 /\ wsum ws L = vzero).
    { clear. induction L as [|u L (ws & W1 & W2 & W3 & W4)]; [exists []; repeat split; auto; intros x []|]. exists (0 :: ws). split; [cbn [length]; lia|]. split; [intros x [<-|J]; [lra|auto]|]. split; [rewrite Rsum_cons, W3; ring|]. cbn [wsum]. rewrite W4. vunf. f_equal; ring. }
    induction L as [|u L IH]; [destruct I|]. destruct I as [<-|I].
    + destruct (Z L) as (ws & W1 & W2 & W3 & W4). exists (1 :: ws). split; [cbn [length]; lia|]. split; [intros x [<-|J]; [lra|auto]|]. split; [rewrite Rsum_cons, W3; lra|]. cbn [wsum]. rewrite W4. dvec u. vunf. f_equal; ring.
    + destruct (IH I) as (ws & W1 & W2 & W3 & W4). exists (0 :: ws). split; [cbn [length]; lia|]. split; [intros x [<-|J]; [lra|auto]|]. split; [rewrite Rsum_cons; lra|]. cbn [wsum]. rewrite <- W4. dvec v. vunf. f_equal; ring.
  - destruct (wsum_add a b L A1 B1) as (c & C1 & C2 & C3 & C4). exists c. split; auto. split; auto. split; [lra|]. rewrite C4, A4, B4. auto.
  - destruct (wsum_mul k a L) as (M1 & M2). exists (map (Rmult k) a). split; [rewrite map_length; auto|]. split; [intros x I; apply in_map_iff in I; destruct I as (y & <- & I); apply Rmult_le_pos; [lra|auto]|]. split; [rewrite M2; apply Rmult_lt_0_compat; auto|]. rewrite M1, A4. auto.
Qed.
