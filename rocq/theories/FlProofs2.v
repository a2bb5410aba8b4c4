(** Proofs for floating point: energies. *)
From Coq Require Import Reals List Bool Arith ZArith Lra Lia Psatz.
From Verif Require Import Prelude MeshModel VecModel VecProofs VoxModel GeomModel EqProofs SimModel FlModel FlSpec FlProofs.
Import ListNotations.
Local Open Scope R_scope.

Lemma ulp_pos : 0 < ulp.
Proof. apply b2_pos. Qed.
Lemma one_ulp : 1 = IZR (2 ^ 53) * ulp.
Proof. unfold ulp. rewrite two_53, <- b2_add. reflexivity. Qed.

(** From a half on floats are multiples of 2^-53. *)
Lemma upper_half x : f64 x -> 1 / 2 <= x -> exists k, x = IZR k * ulp.
Proof.
  intros (m & e & -> & A & B) H. destruct (Z_le_gt_dec (-53) e) as [C|C].
  - destruct (b2_mult (-53) e C) as (k & -> & _). exists (m * k)%Z. rewrite mult_IZR. unfold ulp. ring.
  - (* then it is a half *)
    exists (2 ^ 52)%Z. assert (Q : IZR (2 ^ 52) * ulp = 1 / 2) by (unfold ulp; rewrite two_52, <- b2_add; simpl; lra). rewrite Q.
    apply Rle_antisym; auto. apply Rle_trans with (IZR (2 ^ 53) * b2 (-54)).
    + apply Rle_trans with (IZR (2 ^ 53) * b2 e).
      * apply Rmult_le_compat_r; [left; apply b2_pos|]. apply IZR_le. lia.
      * apply Rmult_le_compat_l; [apply IZR_le; lia|]. apply b2_le. lia.
    + rewrite two_53, <- b2_add. simpl. lra.
Qed.

Section Drop.
  Context (rnd : R -> R) (NR : to_nearest rnd).

  Lemma drop_le e s : f64 e -> 0 <= s -> rnd (e - s) <= e.
  Proof. intros F H. apply (rnd_le rnd NR); auto. lra. Qed.

  (** More than half of the last digit is felt. *)
  Lemma drop_half e s : f64 e -> 0 <= e <= 1 -> ulp / 2 < s -> 0 <= e - s -> rnd (e - s) <= e - s / 2.
  Proof.
    intros F (P & Q) S D. pose proof ulp_pos as U.
    destruct (Rle_dec ulp s) as [L|L].
    { pose proof (unit_error rnd NR (e - s)) as H. specialize (H ltac:(lra)). apply abs_le_both in H. lra. }
    destruct (Rle_dec e (1 / 2)) as [C|C].
    { pose proof (half_error rnd NR (e - s)) as H. specialize (H ltac:(lra)). apply abs_le_both in H. lra. }
    destruct (upper_half e F) as (M & E); [lra|].
    assert (HM : IZR (2 ^ 52) * ulp = 1 / 2) by (unfold ulp; rewrite two_52, <- b2_add; simpl; lra).
    assert (M1 : (2 ^ 52 < M)%Z) by (apply lt_IZR, (Rmult_lt_reg_r ulp); lra).
    assert (M2 : (M <= 2 ^ 53)%Z) by (apply le_IZR, (Rmult_le_reg_r ulp); auto; rewrite <- one_ulp; lra).
    assert (Fy : f64 (IZR (M - 1) * ulp)) by (apply f64_intro; lia).
    assert (Y : IZR (M - 1) * ulp = e - ulp) by (rewrite minus_IZR, E; ring).
    rewrite Y in Fy.
    assert (Yh : 1 / 2 <= e - ulp) by (rewrite <- Y, <- HM; apply Rmult_le_compat_r; [lra|]; apply IZR_le; lia).
    destruct (rnd_between rnd NR (e - s) (e - ulp) e Fy F) as ((B1 & B2) & _); [lra|].
    destruct (upper_half (rnd (e - s)) (rnd_f64 rnd NR _)) as (k & K); [lra|].
    rewrite K in B1, B2. rewrite E in B2. rewrite <- Y in B1.
    assert (k1 : (M - 1 <= k)%Z) by (apply le_IZR, (Rmult_le_reg_r ulp); auto).
    assert (k2 : (k <= M)%Z) by (apply le_IZR, (Rmult_le_reg_r ulp); auto).
    assert (k = M \/ k = M - 1)%Z as [-> | ->] by lia.
    - exfalso. pose proof (rnd_near rnd NR (e - s) (e - ulp) Fy) as N. rewrite K, <- E in N.
      rewrite Rabs_left1, Rabs_pos_eq in N by lra. lra.
    - rewrite K, Y. lra.
  Qed.

  (** Less than that is not felt at 1. *)
  Lemma drop_none s : 0 <= s < ulp / 2 -> rnd (1 - s) = 1.
  Proof.
    intros S. pose proof ulp_pos as U. pose proof one_ulp as O.
    assert (Fy : f64 (IZR (2 ^ 53 - 1) * ulp)) by (apply f64_intro; lia).
    assert (Y : IZR (2 ^ 53 - 1) * ulp = 1 - ulp) by (rewrite minus_IZR, Rmult_minus_distr_r, <- O; ring). rewrite Y in Fy.
    assert (HM : IZR (2 ^ 52) * ulp = 1 / 2) by (unfold ulp; rewrite two_52, <- b2_add; simpl; lra).
    assert (Yh : 1 / 2 <= 1 - ulp) by (rewrite <- Y, <- HM; apply Rmult_le_compat_r; [lra|]; apply IZR_le; lia).
    destruct (rnd_between rnd NR (1 - s) (1 - ulp) 1 Fy f64_1) as ((B1 & B2) & _); [lra|].
    destruct (upper_half (rnd (1 - s)) (rnd_f64 rnd NR _)) as (k & K); [lra|].
    rewrite K in B1, B2. rewrite <- Y in B1. apply Rle_trans with (r3 := IZR (2 ^ 53) * ulp) in B2; [|lra].
    assert (k1 : (2 ^ 53 - 1 <= k)%Z) by (apply le_IZR, (Rmult_le_reg_r ulp); auto).
    assert (k2 : (k <= 2 ^ 53)%Z) by (apply le_IZR, (Rmult_le_reg_r ulp); auto).
    assert (k = 2 ^ 53 \/ k = 2 ^ 53 - 1)%Z as [-> | ->] by lia.
    - rewrite K. auto.
    - exfalso. pose proof (rnd_near rnd NR (1 - s) 1 f64_1) as N. rewrite K, Y in N.
      rewrite Rabs_pos_eq, Rabs_left1 in N by lra. lra.
  Qed.
End Drop.

Section Energy.
  Context {A : Type} (rnd : R -> R) (NR : to_nearest rnd) (mo : motion A).
  Context (SP : forall k, 0 <= m_surf mo k) (EP : 0 <= m_eps mo).

  (** What can become of an energy. *)
  Definition sinks (e e' : R) : Prop := f64 e' /\ 0 <= e' <= e.
  Lemma sinks_refl e : f64 e -> 0 <= e -> sinks e e.
  Proof. intros. split; auto. lra. Qed.
  Lemma sinks_0 e : 0 <= e -> sinks e 0.
  Proof. intros. split; [apply f64_0|lra]. Qed.
  Lemma sinks_trans a b c : sinks a b -> sinks b c -> sinks a c.
  Proof. intros (F & H) (F' & H'). split; auto. lra. Qed.

  Lemma fmicro_sinks st : f64 (snd (snd st)) -> 0 <= snd (snd st) -> sinks (snd (snd st)) (snd (snd (fmicro rnd mo st))).
  Proof.
    destruct st as (ph & a & e). cbn [snd]. intros F P. assert (Mv : forall far, sinks e (snd (snd (fmove mo a e far)))).
    { intros far. unfold fmove. destruct (Rltb (m_eps mo) e && far); cbn [snd]; apply sinks_refl; auto. }
    unfold fmicro. destruct ph as [|[k|]|]; cbn [snd].
    - destruct (Rleb e (m_eps mo)); cbn [snd]; [apply sinks_refl; auto|]. destruct (Rltb 0 e && m_out mo a); [apply sinks_0|apply sinks_refl]; auto.
    - destruct (m_near mo a k && Rltb (m_eps mo) e); [|apply Mv].
      destruct (Rleb (rnd (e - m_surf mo k)) (m_eps mo)) eqn:L; cbn [snd]; [apply sinks_0; auto|].
      split; [apply (rnd_f64 rnd NR)|]. split; [|apply (drop_le rnd NR); auto]. apply Rleb_false in L. lra.
    - apply Mv.
    - apply sinks_refl; auto.
  Qed.
  Lemma iter_sinks n st : f64 (snd (snd st)) -> 0 <= snd (snd st) -> sinks (snd (snd st)) (snd (snd (Nat.iter n (fmicro rnd mo) st))).
  Proof.
    intros F P. induction n as [|n IH]; [apply sinks_refl; auto|].
    change (Nat.iter (S n) (fmicro rnd mo) st) with (fmicro rnd mo (Nat.iter n (fmicro rnd mo) st)).
    apply (sinks_trans _ _ _ IH). apply fmicro_sinks; apply IH.
  Qed.
  Lemma fstep_sinks fuel r r' : fstep rnd mo fuel r = Ok r' -> f64 (snd r) -> 0 <= snd r -> sinks (snd r) (snd r').
  Proof.
    unfold fstep. intros E F P. pose proof (iter_sinks fuel (Start, r) F P) as H.
    destruct (Nat.iter fuel (fmicro rnd mo) (Start, r)) as ([| |] & x); try discriminate. inversion E; subst. exact H.
  Qed.

  Lemma fcheck_sinks sn hits a e : f64 e -> 0 <= e -> sinks e (snd (fcheck rnd mo sn hits a e)).
  Proof.
    revert sn e. induction hits as [|h hits IH]; intros sn e F P; cbn [fcheck]; [apply sinks_refl; auto|].
    destruct (m_within mo a sn).
    - specialize (IH (S sn) 0 f64_0 (Rle_refl 0)). destruct (fcheck rnd mo (S sn) hits a 0) as (hs & en'). cbn [snd] in *.
      apply (sinks_trans _ 0); [apply sinks_0; auto|exact IH].
    - specialize (IH (S sn) e F P). destruct (fcheck rnd mo (S sn) hits a e) as (hs & en'). exact IH.
  Qed.

  (** The rays of two states, one by one. *)
  Definition good (rays : list (A * R)) : Prop := Forall (fun r => f64 (snd r) /\ 0 <= snd r) rays.
  Definition lower (r r' : A * R) : Prop := sinks (snd r) (snd r') /\ (snd r <= m_eps mo -> r' = r).
  Lemma fabsorb_lower rays hits : good rays -> Forall2 lower rays (fst (fabsorb rnd mo rays hits)).
  Proof.
    revert hits. induction rays as [|(a & e) rays IH]; intros hits G; cbn [fabsorb]; [constructor|].
    inversion G as [|? ? (F & P) G']; subst. cbn [snd] in F, P. destruct (Rleb e (m_eps mo)) eqn:L.
    - specialize (IH hits G'). destruct (fabsorb rnd mo rays hits) as (rs & hs). constructor; auto. split; [apply sinks_refl; auto|auto].
    - pose proof (fcheck_sinks 0 hits a e F P) as S. destruct (fcheck rnd mo 0 hits a e) as (hits1 & en1).
      specialize (IH hits1 G'). destruct (fabsorb rnd mo rays hits1) as (rs & hs). constructor; auto. split; [exact S|].
      cbn [snd]. apply Rleb_false in L. lra.
  Qed.
  Lemma iter_stuck n a e : e <= m_eps mo -> (0 < n)%nat -> Nat.iter n (fmicro rnd mo) (Start, (a, e)) = (Done, (a, e)).
  Proof.
    intros L N. induction n as [|n IH]; [lia|].
    change (Nat.iter (S n) (fmicro rnd mo) (Start, (a, e))) with (fmicro rnd mo (Nat.iter n (fmicro rnd mo) (Start, (a, e)))).
    destruct n as [|n]; [|rewrite IH by lia; reflexivity]. cbn. apply Rleb_true in L. rewrite L. reflexivity.
  Qed.
  Lemma fstep_stuck fuel r r' : fstep rnd mo fuel r = Ok r' -> snd r <= m_eps mo -> r' = r.
  Proof.
    destruct r as (a & e). unfold fstep. destruct fuel as [|n]; [discriminate|]. intros E L.
    rewrite iter_stuck in E by (auto; lia). inversion E. auto.
  Qed.
  Lemma mapM_Forall2 {X Y} (f : X -> result Y) (Q : X -> Y -> Prop) (D : X -> Prop) l l' :
    (forall x y, D x -> f x = Ok y -> Q x y) -> Forall D l -> mapM f l = Ok l' -> Forall2 Q l l'.
  Proof.
    intros H. revert l'. induction l as [|x l IH]; intros l' G E; cbn [mapM] in E.
    - inversion E. constructor.
    - inversion G; subst. destruct (f x) as [y|] eqn:Ey; cbn [rbind] in E; [|discriminate].
      destruct (mapM f l) as [ys|] eqn:Es; cbn [rbind] in E; [|discriminate]. inversion E; subst. constructor; auto.
  Qed.
  Lemma lower_trans a b c : lower a b -> lower b c -> lower a c.
  Proof.
    intros (S & K) (S' & K'). split; [apply (sinks_trans _ _ _ S S')|]. intros L. rewrite (K L) in *. auto.
  Qed.
  Lemma Forall2_trans' (Q : A * R -> A * R -> Prop) l m n :
    (forall a b c, Q a b -> Q b c -> Q a c) -> Forall2 Q l m -> Forall2 Q m n -> Forall2 Q l n.
  Proof.
    intros T H. revert n. induction H; intros n K; inversion K; subst; constructor; eauto.
  Qed.
  Lemma good_lower l m : Forall2 lower l m -> good m.
  Proof. induction 1 as [|? ? ? ? ((F & P) & _)]; constructor; auto. split; auto. lra. Qed.

  Lemma fsim_step_lower fuel st st' : fsim_step rnd mo fuel st = Ok st' -> good (fst st) ->
    Forall2 lower (fst st) (fst st').
  Proof.
    unfold fsim_step. intros E G. pose proof (fabsorb_lower (fst st) (map (fun _ => 0) (snd st)) G) as L.
    destruct (fabsorb rnd mo (fst st) (map (fun _ => 0) (snd st))) as (rays1 & hits1). cbn [fst] in L.
    destruct (mapM (fstep rnd mo fuel) rays1) as [rays2|] eqn:M; cbn [rbind] in E; [|discriminate]. inversion E; subst. cbn [fst].
    apply (Forall2_trans' _ _ rays1); auto; [apply lower_trans|].
    apply (mapM_Forall2 (fstep rnd mo fuel) lower (fun r => f64 (snd r) /\ 0 <= snd r) rays1 rays2); [|apply (good_lower _ _ L)|exact M].
    intros x y (F & P) E'. split; [apply (fstep_sinks fuel); auto|apply (fstep_stuck fuel); auto].
  Qed.

  Lemma Forall2_refl' (Q : A * R -> A * R -> Prop) l : Forall (fun x => Q x x) l -> Forall2 Q l l.
  Proof. induction 1; constructor; auto. Qed.
  Lemma lower_refl l : good l -> Forall2 lower l l.
  Proof. intros G. apply Forall2_refl'. apply (Forall_impl _) with (2 := G). intros r (F & P). split; auto. apply sinks_refl; auto. Qed.

  Lemma frows_first fuel n st rows : frows rnd mo fuel n st = Ok rows -> exists rest, rows = st :: rest.
  Proof.
    destruct n; cbn [frows]; intros E; [inversion E; eauto|].
    destruct (fsim_step rnd mo fuel st) as [st'|]; cbn [rbind] in E; [|discriminate].
    destruct (frows rnd mo fuel n st') as [rest|]; cbn [rbind] in E; [|discriminate]. inversion E; eauto.
  Qed.
  Lemma frows_lower fuel n st rows : frows rnd mo fuel n st = Ok rows -> good (fst st) ->
    length rows = S n /\
    forall i j st1 st2, (i <= j)%nat -> nth_error rows i = Some st1 -> nth_error rows j = Some st2 -> Forall2 lower (fst st1) (fst st2).
  Proof.
    revert st rows. induction n as [|n IH]; intros st rows E G; cbn [frows] in E.
    - inversion E; subst. split; auto. intros i j st1 st2 L Hi Hj.
      destruct i as [|[|]], j as [|[|]]; cbn in Hi, Hj; try discriminate. inversion Hi; inversion Hj; subst. apply lower_refl; auto.
    - destruct (fsim_step rnd mo fuel st) as [st'|] eqn:S; cbn [rbind] in E; [|discriminate].
      destruct (frows rnd mo fuel n st') as [rest|] eqn:Fr; cbn [rbind] in E; [|discriminate]. inversion E; subst.
      pose proof (fsim_step_lower fuel st st' S G) as L1. pose proof (good_lower _ _ L1) as G1.
      destruct (IH st' rest Fr G1) as (Len & H). split; [cbn; lia|].
      intros i j st1 st2 L Hi Hj. destruct i as [|i], j as [|j]; cbn in Hi, Hj; try lia.
      + inversion Hi; inversion Hj; subst. apply lower_refl; auto.
      + inversion Hi; subst. apply (Forall2_trans' _ _ (fst st')); auto; [apply lower_trans|].
        destruct (frows_first _ _ _ _ Fr) as (r' & ->). apply (H 0%nat j); auto. lia.
      + apply (H i j); auto. lia.
  Qed.
End Energy.
