(** Proofs for floating point: whole simulations. *)
From Coq Require Import Reals List Bool Arith ZArith Lra Lia Psatz.
From Verif Require Import Prelude MeshModel VecModel VecProofs VoxModel GeomModel EqProofs SimModel FlModel FlSpec FlProofs FlProofs2 FlProofs3.
Import ListNotations.
Local Open Scope R_scope.

Section Runs.
  Context {A : Type} (rnd : R -> R) (NR : to_nearest rnd) (mo : motion A).

  Lemma unit_good rays : Forall unit_energy rays -> @good A rays.
  Proof. intros H. apply (Forall_impl _) with (2 := H). intros r (F & P & _). auto. Qed.
  Lemma Forall2_nth {X Y} (Q : X -> Y -> Prop) l m q x y : Forall2 Q l m -> nth_error l q = Some x -> nth_error m q = Some y -> Q x y.
  Proof. intros H. revert q. induction H; intros [|q] E1 E2; cbn in E1, E2; try discriminate; [congruence|eauto]. Qed.
  Lemma Forall2_len {X Y} (Q : X -> Y -> Prop) l m : Forall2 Q l m -> length m = length l.
  Proof. induction 1; cbn; auto. Qed.

  Lemma rows_energies fuel n st rows : (forall k, 0 <= m_surf mo k) -> 0 <= m_eps mo -> Forall unit_energy (fst st) ->
    frows rnd mo fuel n st = Ok rows ->
    length rows = S n /\
    forall i j st1 st2, (i <= j)%nat -> nth_error rows i = Some st1 -> nth_error rows j = Some st2 ->
      length (fst st1) = length (fst st) /\ length (fst st2) = length (fst st) /\
      forall q r1 r2, nth_error (fst st1) q = Some r1 -> nth_error (fst st2) q = Some r2 ->
        unit_energy r1 /\ unit_energy r2 /\ snd r2 <= snd r1 /\ (snd r1 <= m_eps mo -> r2 = r1).
  Proof.
    intros SP EP G E. destruct (frows_lower rnd NR mo SP EP fuel n st rows E (unit_good _ G)) as (L & H). split; auto.
    destruct (frows_first rnd mo _ _ _ _ E) as (rest & Er).
    intros i j st1 st2 IJ Hi Hj.
    pose proof (H 0%nat i st st1 ltac:(lia) ltac:(subst; reflexivity) Hi) as H1. pose proof (H i j st1 st2 IJ Hi Hj) as H2.
    pose proof (Forall2_len _ _ _ H1) as L1. pose proof (Forall2_len _ _ _ H2) as L2. split; [auto|]. split; [lia|].
    intros q r1 r2 Q1 Q2. assert (I : (q < length (fst st))%nat) by (rewrite <- L1; apply nth_error_Some; congruence).
    destruct (nth_error (fst st) q) as [r0|] eqn:Q0; [|apply nth_error_None in Q0; lia].
    destruct (Forall2_nth _ _ _ _ _ _ H1 Q0 Q1) as ((F1 & P1) & _). destruct (Forall2_nth _ _ _ _ _ _ H2 Q1 Q2) as ((F2 & P2) & K).
    assert (U0 : unit_energy r0) by (apply (proj1 (Forall_forall _ _) G), (nth_error_In _ _ Q0)). destruct U0 as (_ & U0).
    split; [split; auto; lra|]. split; [split; auto; lra|]. split; [lra|auto].
  Qed.

  Lemma frows_next fuel n st rows i st1 st2 : frows rnd mo fuel n st = Ok rows ->
    nth_error rows i = Some st1 -> nth_error rows (S i) = Some st2 -> fsim_step rnd mo fuel st1 = Ok st2.
  Proof.
    revert st rows i. induction n as [|n IH]; intros st rows i E Hi Hj; cbn [frows] in E.
    - inversion E; subst. destruct i as [|[|]]; discriminate.
    - destruct (fsim_step rnd mo fuel st) as [st'|] eqn:S; cbn [rbind] in E; [|discriminate].
      destruct (frows rnd mo fuel n st') as [rest|] eqn:Fr; cbn [rbind] in E; [|discriminate]. inversion E; subst.
      destruct i as [|i]; cbn [nth_error] in Hi, Hj.
      + inversion Hi; subst. destruct (frows_first rnd mo _ _ _ _ Fr) as (r & ->). cbn in Hj. inversion Hj; subst. auto.
      + apply (IH st' rest i); auto.
  Qed.
  Lemma rows_hits fuel n st rows : (forall k, 0 <= m_surf mo k) -> 0 <= m_eps mo -> Forall unit_energy (fst st) ->
    frows rnd mo fuel n st = Ok rows ->
    forall i st1 st2 sn h x, nth_error rows i = Some st1 -> nth_error rows (S i) = Some st2 ->
      nth_error (snd st2) sn = Some h -> due mo sn (fst st1) x ->
      f64 h /\ 0 <= h /\ Rabs (h - x) <= ((1 + ulp) ^ (length (fst st)) - 1) * x.
  Proof.
    intros SP EP G E i st1 st2 sn h x Hi Hj Hh Hx. pose proof (frows_next _ _ _ _ _ _ _ E Hi Hj) as S.
    destruct (rows_energies fuel n st rows SP EP G E) as (_ & H). destruct (H i i st1 st1 ltac:(lia) Hi Hi) as (L1 & _ & Q).
    rewrite <- L1. apply (hits_error rnd NR mo fuel st1 st2 sn); auto.
    apply Forall_forall. intros r I. apply In_nth_error in I. destruct I as (q & I). destruct (Q q r r I I) as ((F & P & _) & _). auto.
  Qed.

  Lemma mapM_ok {X Y} (f : X -> result Y) (D : X -> Prop) l : (forall x, D x -> exists y, f x = Ok y) -> Forall D l -> exists l', mapM f l = Ok l'.
  Proof.
    intros H. induction 1 as [|x l Dx G (l' & IH)]; [exists []; reflexivity|]. destruct (H x Dx) as (y & Ey). cbn [mapM]. rewrite Ey. cbn [rbind]. rewrite IH. cbn [rbind]. eauto.
  Qed.
  Lemma rows_end b m fuel n st : ulp / 2 < b -> (forall k, b <= m_surf mo k) -> 0 <= m_eps mo -> 1 <= m_eps mo + INR m * (b / 2) ->
    (m + 2 <= fuel)%nat -> Forall unit_energy (fst st) -> exists rows, frows rnd mo fuel n st = Ok rows.
  Proof.
    intros B SB EP L Fu. assert (SP : forall k, 0 <= m_surf mo k) by (intros k; specialize (SB k); pose proof ulp_pos; lra).
    revert st. induction n as [|n IH]; intros st G; cbn [frows]; [eauto|].
    assert (S : exists st', fsim_step rnd mo fuel st = Ok st').
    { unfold fsim_step. pose proof (fabsorb_lower rnd mo (fst st) (map (fun _ => 0) (snd st)) (unit_good _ G)) as Lo.
      destruct (fabsorb rnd mo (fst st) (map (fun _ => 0) (snd st))) as (rays1 & hits1). cbn [fst] in Lo.
      destruct (mapM_ok (fstep rnd mo fuel) unit_energy rays1) as (rays2 & ->); [| |cbn [rbind]; eauto].
      - intros (a & e) (F & P). cbn [snd] in F, P. apply (step_ends rnd NR mo b m); auto. lra.
      - clear - Lo G. induction Lo as [|x y l l' ((F & P) & _)]; constructor; inversion G as [|? ? (_ & U) G']; subst; auto. split; auto. lra. }
    destruct S as (st' & S). rewrite S. cbn [rbind].
    assert (G' : Forall unit_energy (fst st')).
    { pose proof (fsim_step_lower rnd NR mo SP EP fuel st st' S (unit_good _ G)) as Lo.
      clear - Lo G. induction Lo as [|x y l l' ((F & P) & _)]; constructor; inversion G as [|? ? (_ & U) G']; subst; auto. split; auto. lra. }
    destruct (IH st' G') as (rest & ->). cbn [rbind]. eauto.
  Qed.
End Runs.
