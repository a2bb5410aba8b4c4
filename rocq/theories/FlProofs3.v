(** Proofs for floating point: hits, the end of a step, the exact model. *)
From Coq Require Import Reals List Bool Arith ZArith Lra Lia Psatz.
From Verif Require Import Prelude MeshModel VecModel VecProofs VoxModel GeomModel EqProofs SimModel FlModel FlSpec FlProofs FlProofs2.
Import ListNotations.
Local Open Scope R_scope.

(** ** Hits *)
Section Hits.
  Context {A : Type} (rnd : R -> R) (NR : to_nearest rnd) (mo : motion A).

  (** h is a sum D with n roundings. *)
  Definition near_sum (n : nat) (D h : R) : Prop := f64 h /\ 0 <= h /\ 0 <= D /\ Rabs (h - D) <= ((1 + ulp) ^ n - 1) * D.
  Lemma pow_ge_1 n : 1 <= (1 + ulp) ^ n.
  Proof. apply pow_R1_Rle. pose proof ulp_pos. lra. Qed.
  Lemma near_sum_more n D h : near_sum n D h -> near_sum (S n) D h.
  Proof.
    intros (F & P & Q & H). split; [auto|]. split; [auto|]. split; [auto|]. apply (Rle_trans _ _ _ H). apply Rmult_le_compat_r; auto.
    pose proof (pow_ge_1 n). pose proof ulp_pos. cbn [pow]. nra.
  Qed.
  Lemma near_sum_add n D h e : near_sum n D h -> f64 e -> 0 <= e -> near_sum (S n) (D + e) (rnd (h + e)).
  Proof.
    intros (F & P & Q & H) Fe Pe. split; [apply (rnd_f64 rnd NR)|].
    split; [apply (rnd_ge rnd NR); [apply f64_0|lra]|]. split; [lra|].
    pose proof (sum_error rnd NR h e F Fe ltac:(lra)) as E. pose proof (pow_ge_1 n) as C. set (c := (1 + ulp) ^ n) in *.
    change ((1 + ulp) ^ S n) with ((1 + ulp) * c). clearbody c. pose proof ulp_pos as U. apply abs_le_both in E, H. apply Rabs_le.
    assert (U1 : 0 <= ulp * (c * D + e - (h + e))) by (apply Rmult_le_pos; lra).
    assert (U2 : 0 <= (c - 1) * e) by (apply Rmult_le_pos; lra).
    assert (U3 : 0 <= ulp * ((c - 1) * e)) by (apply Rmult_le_pos; lra).
    split; nra.
  Qed.

  Lemma fcheck_zero sn hits a : Forall (fun h => f64 h) hits -> fcheck rnd mo sn hits a 0 = (hits, 0).
  Proof.
    revert sn. induction hits as [|h hits IH]; intros sn G; cbn [fcheck]; auto. inversion G; subst.
    rewrite (IH (S sn)) by auto. rewrite Rplus_0_r, (rnd_id rnd NR h) by auto. destruct (m_within mo a sn); auto.
  Qed.

  (** The absorbers from [sn] on, those before not being near. *)
  Lemma fcheck_hits sn hits a e n Ds : m_eps mo < e -> f64 e -> 0 <= e -> (forall j, (j < sn)%nat -> m_within mo a j = false) ->
    Forall2 (near_sum n) Ds hits ->
    forall i D h, nth_error Ds i = Some D -> nth_error (fst (fcheck rnd mo sn hits a e)) i = Some h ->
      (absorbed_by mo (sn + i) (a, e) -> near_sum (S n) (D + e) h) /\ (~ absorbed_by mo (sn + i) (a, e) -> near_sum (S n) D h).
  Proof.
    intros L Fe Pe. revert sn Ds. induction hits as [|h0 hits IH]; intros sn Ds B G i D h HD Hh.
    - cbn in Hh. destruct i; discriminate.
    - inversion G as [|D0 ? Ds' ? N0 G']; subst. cbn [fcheck] in Hh. destruct (m_within mo a sn) eqn:W.
      + rewrite fcheck_zero in Hh by (clear - G'; induction G' as [|? ? ? ? (F & _)]; constructor; auto). cbn [fst] in Hh.
        destruct i as [|i]; cbn [nth_error] in HD, Hh.
        * inversion HD; inversion Hh; subst. replace (sn + 0)%nat with sn by lia. split; intros K.
          { apply near_sum_add; auto. }
          { exfalso. apply K. split; [auto|]. split; auto. }
        * split; intros K.
          { destruct K as (_ & _ & K). cbn [fst] in K. rewrite (K sn) in W by lia. discriminate. }
          { apply near_sum_more. clear - G' HD Hh. revert i HD Hh. induction G'; intros [|i] HD Hh; cbn in HD, Hh; try discriminate; [inversion HD; inversion Hh; subst; auto|eauto]. }
      + specialize (IH (S sn) Ds'). destruct (fcheck rnd mo (S sn) hits a e) as (hs & en'). cbn [fst] in *.
        destruct i as [|i]; cbn [nth_error] in HD, Hh.
        * inversion HD; inversion Hh; subst. replace (sn + 0)%nat with sn by lia. split; intros K; [|apply near_sum_more; auto].
          destruct K as (_ & K & _). cbn [fst] in K. congruence.
        * replace (sn + S i)%nat with (S sn + i)%nat by lia. apply IH; auto.
          intros j J. destruct (Nat.eq_dec j sn) as [->|Nj]; auto. apply B. lia.
  Qed.
  Lemma fcheck_length r sn hits a e : length (fst (fcheck r mo sn hits a e)) = length hits.
  Proof.
    revert sn e. induction hits as [|h hits IH]; intros sn e; cbn [fcheck]; auto.
    destruct (m_within mo a sn); [specialize (IH (S sn) 0); destruct (fcheck r mo (S sn) hits a 0)|specialize (IH (S sn) e); destruct (fcheck r mo (S sn) hits a e)]; cbn in *; lia.
  Qed.

  Lemma absorbed_dec sn r : {absorbed_by mo sn r} + {~ absorbed_by mo sn r}.
  Proof.
    unfold absorbed_by. destruct (Rlt_dec (m_eps mo) (snd r)); [|right; tauto].
    destruct (m_within mo (fst r) sn) eqn:W; [|right; intros (_ & ? & _); discriminate].
    assert (D : forall n, {forall j, (j < n)%nat -> m_within mo (fst r) j = false} + {~ forall j, (j < n)%nat -> m_within mo (fst r) j = false}).
    { induction n as [|n [IH|IH]]; [left; intros; lia| |right; intros H; apply IH; intros; apply H; lia].
      destruct (m_within mo (fst r) n) eqn:E; [right; intros H; rewrite (H n) in E by lia; discriminate|left].
      intros j J. destruct (Nat.eq_dec j n) as [->|]; auto. apply IH. lia. }
    destruct (D sn); [left; auto|right; tauto].
  Qed.

  Lemma fabsorb_hits rays : Forall (fun r => f64 (snd r) /\ 0 <= snd r) rays ->
    forall hits n Ds, Forall2 (near_sum n) Ds hits ->
    forall sn D h x, nth_error Ds sn = Some D -> nth_error (snd (fabsorb rnd mo rays hits)) sn = Some h -> due mo sn rays x ->
      near_sum (n + length rays) (D + x) h.
  Proof.
    induction rays as [|(a & e) rays IH]; intros G hits n Ds N sn D h x HD Hh Hx.
    - inversion Hx; subst. cbn in Hh. rewrite Rplus_0_r. cbn [length]. replace (n + 0)%nat with n by lia.
      revert sn HD Hh Hx. clear - N. induction N; intros [|sn] HD Hh _; cbn in HD, Hh; try discriminate; [inversion HD; inversion Hh; subst; auto|].
      apply (IHN sn); auto. constructor.
    - inversion G as [|? ? (F & P) G']; subst. cbn [snd] in F, P. cbn [length]. replace (n + S (length rays))%nat with (S n + length rays)%nat by lia.
      cbn [fabsorb] in Hh. destruct (Rleb e (m_eps mo)) eqn:L.
      + apply Rleb_true in L. specialize (IH G' hits). destruct (fabsorb rnd mo rays hits) as (rs & hs). cbn [snd] in *.
        inversion Hx as [|? ? x' K Hx' | ? ? ? K Hx']; subst; [destruct K as (K & _); cbn [snd] in K; lra|].
        apply (IH (S n) Ds) with sn; auto. clear - N. induction N; constructor; auto. apply near_sum_more; auto.
      + apply Rleb_false in L.
        pose proof (fcheck_hits 0 hits a e n Ds L F P ltac:(intros; lia) N) as C. pose proof (fcheck_length rnd 0 hits a e) as Len.
        destruct (fcheck rnd mo 0 hits a e) as (hits1 & en1). cbn [fst] in *. specialize (IH G' hits1).
        destruct (fabsorb rnd mo rays hits1) as (rs & hs). cbn [snd] in *.
        set (Ds1 := map (fun iD => if absorbed_dec (fst iD) (a, e) then snd iD + e else snd iD) (combine (seq 0 (length Ds)) Ds)).
        assert (LD : length Ds = length hits) by (clear - N; induction N; cbn; lia).
        assert (At : forall i D0, nth_error Ds i = Some D0 -> nth_error Ds1 i = Some (if absorbed_dec i (a, e) then D0 + e else D0)).
        { intros i D0 E. unfold Ds1. assert (Q : nth_error (combine (seq 0 (length Ds)) Ds) i = Some (i, D0)).
          { assert (I : (i < length Ds)%nat) by (apply nth_error_Some; congruence).
            rewrite (nth_error_nth' _ (0%nat, 0)) by (rewrite combine_length, seq_length; lia).
            rewrite combine_nth by apply seq_length. rewrite seq_nth by auto. f_equal. f_equal. apply nth_error_nth. auto. }
          rewrite (map_nth_error _ _ _ Q). reflexivity. }
        assert (L1 : length Ds1 = length hits1).
        { unfold Ds1. rewrite map_length, combine_length, seq_length. lia. }
        assert (N1 : Forall2 (near_sum (S n)) Ds1 hits1).
        { assert (Pt : forall i D1 h1, nth_error Ds1 i = Some D1 -> nth_error hits1 i = Some h1 -> near_sum (S n) D1 h1).
          { intros i D1 h1 E1 E2. destruct (nth_error Ds i) as [D0|] eqn:E0.
            - rewrite (At i D0 E0) in E1. specialize (C i D0 h1 E0 E2). cbn [Nat.add] in C.
              destruct (absorbed_dec i (a, e)); inversion E1; subst; apply C; auto.
            - apply nth_error_None in E0. assert (I : nth_error hits1 i <> None) by congruence. apply nth_error_Some in I. lia. }
          clear - L1 Pt. revert hits1 L1 Pt. generalize Ds1 as l. clear. induction l as [|d l IH]; intros [|h hs] L Pt; cbn in L; try discriminate; constructor.
          - apply (Pt 0%nat); auto.
          - apply IH; [lia|]. intros i D1 h1 E1 E2. apply (Pt (S i)); auto. }
        pose proof (At sn D HD) as E1.
        inversion Hx as [|? ? x' K Hx' | ? ? ? K Hx']; subst; cbn [snd].
        * destruct (absorbed_dec sn (a, e)); [|contradiction]. replace (D + (e + x')) with (D + e + x') by ring.
          apply (IH (S n) Ds1 N1 sn); auto.
        * destruct (absorbed_dec sn (a, e)); [contradiction|]. apply (IH (S n) Ds1 N1 sn); auto.
  Qed.

  Lemma hits_error fuel st st' sn h x : fsim_step rnd mo fuel st = Ok st' ->
    Forall (fun r => f64 (snd r) /\ 0 <= snd r) (fst st) ->
    nth_error (snd st') sn = Some h -> due mo sn (fst st) x ->
    f64 h /\ 0 <= h /\ Rabs (h - x) <= ((1 + ulp) ^ (length (fst st)) - 1) * x.
  Proof.
    unfold fsim_step. intros E G Hh Hx.
    pose proof (fabsorb_hits (fst st) G (map (fun _ => 0) (snd st)) 0 (map (fun _ => 0) (snd st))) as H.
    assert (LF : length (snd (fabsorb rnd mo (fst st) (map (fun _ => 0) (snd st)))) = length (snd st)).
    { assert (Q : forall rays hits, length (snd (fabsorb rnd mo rays hits)) = length hits).
      { induction rays as [|(a & e) rays IH]; intros hits; cbn [fabsorb]; auto. destruct (Rleb e (m_eps mo)).
        - specialize (IH hits). destruct (fabsorb rnd mo rays hits). auto.
        - pose proof (fcheck_length rnd 0 hits a e) as L. destruct (fcheck rnd mo 0 hits a e) as (h1 & e1). cbn [fst] in L.
          specialize (IH h1). destruct (fabsorb rnd mo rays h1). cbn [snd] in *. lia. }
      rewrite Q, map_length. auto. }
    destruct (fabsorb rnd mo (fst st) (map (fun _ => 0) (snd st))) as (rays1 & hits1). cbn [snd] in H, LF.
    destruct (mapM (fstep rnd mo fuel) rays1) as [rays2|] eqn:M; cbn [rbind] in E; [|discriminate]. inversion E; subst. cbn [snd] in Hh.
    assert (I : (sn < length (snd st))%nat) by (rewrite <- LF; apply nth_error_Some; congruence).
    destruct (nth_error (snd st) sn) as [z|] eqn:Z; [|apply nth_error_None in Z; lia].
    specialize (H ltac:(clear; induction (snd st); constructor; auto; split; [apply f64_0|]; rewrite Rminus_0_r, Rabs_R0; lra) sn 0 h x).
    rewrite (map_nth_error (fun _ => 0) sn (snd st) Z) in H. specialize (H eq_refl Hh Hx). rewrite Rplus_0_l in H. destruct H as (F & P & _ & B). auto.
  Qed.
  Lemma due_exists sn rays : exists x, due mo sn rays x.
  Proof.
    induction rays as [|r rays (x & IH)]; [exists 0; constructor|].
    destruct (absorbed_dec sn r); [exists (snd r + x); apply due_in; auto|exists x; apply due_out; auto].
  Qed.
End Hits.

(** ** The end of a step *)
Section Ends.
  Context {A : Type} (rnd : R -> R) (NR : to_nearest rnd) (mo : motion A).

  Lemma fmicro_done n r : Nat.iter n (fmicro rnd mo) (Done, r) = (Done, r).
  Proof. induction n as [|n IH]; auto. change (fmicro rnd mo (Nat.iter n (fmicro rnd mo) (Done, r)) = (Done, r)). rewrite IH. destruct r. reflexivity. Qed.
  Lemma iter_r n st : Nat.iter (S n) (fmicro rnd mo) st = Nat.iter n (fmicro rnd mo) (fmicro rnd mo st).
  Proof. induction n as [|n IH]; auto. change (fmicro rnd mo (Nat.iter (S n) (fmicro rnd mo) st) = fmicro rnd mo (Nat.iter n (fmicro rnd mo) (fmicro rnd mo st))). rewrite IH. auto. Qed.

  Lemma loop_ends b n : ulp / 2 < b -> (forall k, b <= m_surf mo k) -> 0 <= m_eps mo ->
    forall t a e, f64 e -> 0 <= e <= 1 -> e <= m_eps mo + INR n * (b / 2) ->
    exists r, Nat.iter (S n) (fmicro rnd mo) (Loop t, (a, e)) = (Done, r).
  Proof.
    intros B SB EP. induction n as [|n IH]; intros t a e F (P & Q) L.
    - assert (Le : Rltb (m_eps mo) e = false) by (apply Rltb_false; cbn [INR] in L; lra).
      exists (a, e). change (fmicro rnd mo (Loop t, (a, e)) = (Done, (a, e))). unfold fmicro, fmove. rewrite Le. destruct t as [k|]; [destruct (m_near mo a k)|]; reflexivity.
    - rewrite iter_r. cbn [fmicro]. assert (D : forall r, exists r', Nat.iter (S n) (fmicro rnd mo) (Done, r) = (Done, r')) by (intros r; rewrite fmicro_done; eauto).
      assert (Mv : forall far, exists r', Nat.iter (S n) (fmicro rnd mo) (fmove mo a e far) = (Done, r')) by (intros far; unfold fmove; destruct (Rltb (m_eps mo) e && far); apply D).
      destruct t as [k|]; [|apply Mv]. destruct (m_near mo a k && Rltb (m_eps mo) e); [|apply Mv].
      destruct (Rleb (rnd (e - m_surf mo k)) (m_eps mo)) eqn:C; [apply D|]. apply Rleb_false in C. specialize (SB k). pose proof ulp_pos as U.
      assert (Up : rnd (e - m_surf mo k) <= e) by (apply (drop_le rnd NR); auto; lra).
      apply IH; [apply (rnd_f64 rnd NR)|lra|]. rewrite S_INR in L.
      destruct (Rle_dec 0 (e - m_surf mo k)) as [G|G].
      + pose proof (drop_half rnd NR e (m_surf mo k) F ltac:(lra) ltac:(lra) G). lra.
      + exfalso. assert (rnd (e - m_surf mo k) <= 0) by (apply (rnd_le rnd NR); [apply f64_0|lra]). lra.
  Qed.
  Lemma step_ends b n fuel a e : ulp / 2 < b -> (forall k, b <= m_surf mo k) -> 0 <= m_eps mo ->
    f64 e -> 0 <= e <= 1 -> e <= m_eps mo + INR n * (b / 2) -> (n + 2 <= fuel)%nat ->
    exists r, fstep rnd mo fuel (a, e) = Ok r.
  Proof.
    intros B SB EP F P L Fu. unfold fstep. replace fuel with (S (S n) + (fuel - (n + 2)))%nat by lia.
    assert (Cut : forall p q st, Nat.iter (p + q) (fmicro rnd mo) st = Nat.iter q (fmicro rnd mo) (Nat.iter p (fmicro rnd mo) st)).
    { induction p as [|p IHp]; intros q st; auto. change (S p + q)%nat with (S (p + q)). rewrite iter_r, IHp, <- iter_r. auto. }
    rewrite Cut, iter_r. cbn [fmicro]. destruct (Rleb e (m_eps mo)).
    - rewrite !fmicro_done. eauto.
    - destruct (loop_ends b n B SB EP (m_target mo a) a (if Rltb 0 e && m_out mo a then 0 else e)) as (r & ->).
      + destruct (Rltb 0 e && m_out mo a); [apply f64_0|auto].
      + destruct (Rltb 0 e && m_out mo a); lra.
      + destruct (Rltb 0 e && m_out mo a); lra.
      + rewrite fmicro_done. eauto.
  Qed.

  Lemma step_loops (I : A -> Prop) : m_eps mo < 1 ->
    (forall a, I a -> exists k, m_target mo a = Some k /\ m_near mo a k = true /\ 0 <= m_surf mo k < ulp / 2 /\ I (m_turn mo a k)) ->
    forall a, I a -> m_out mo a = false -> forall fuel, fstep rnd mo fuel (a, 1) = Err OutOfFuel.
  Proof.
    intros E H a Ia O fuel. unfold fstep. destruct fuel as [|n]; [reflexivity|]. rewrite iter_r. cbn [fmicro].
    assert (L : Rleb 1 (m_eps mo) = false) by (apply Rleb_false; auto). assert (L' : Rltb (m_eps mo) 1 = true) by (apply Rltb_true; auto).
    rewrite L, O, andb_false_r.
    assert (K : forall n a, I a -> exists t b, Nat.iter n (fmicro rnd mo) (Loop (m_target mo a), (a, 1)) = (Loop t, b)).
    { clear a Ia O n. induction n as [|n IH]; intros a Ia; [eexists _, _; reflexivity|]. rewrite iter_r. cbn [fmicro].
      destruct (H a Ia) as (k & -> & -> & S & I'). rewrite L'. cbn [andb]. rewrite (drop_none rnd NR _ S), L. apply IH. auto. }
    destruct (K n a Ia) as (t & b & ->). reflexivity.
  Qed.
End Ends.

(** ** The exact model *)
Section Exact.
  Context (sc : scene).
  Notation idR := (fun x : R => x).
  Lemma fmove_exact r far : fmove (exact_motion sc) (fst (as_row r)) (r_en r) far =
    (Done, if Rltb (eps sc) (r_en r) && far then as_row (mkRay (vadd (r_pos r) (r_dpos r)) (r_vel r) (r_dpos r) (r_en r)) else as_row r).
  Proof. unfold fmove. cbn [exact_motion m_eps]. destruct (Rltb (eps sc) (r_en r) && far); reflexivity. Qed.
  Lemma fmicro_exact st : fmicro idR (exact_motion sc) (fst st, as_row (snd st)) = (fst (micro sc st), as_row (snd (micro sc st))).
  Proof.
    destruct st as (ph & r). cbn [fst snd]. destruct ph as [|[k|]|].
    - cbn. destruct (Rleb (r_en r) (eps sc)); reflexivity.
    - unfold micro. cbn [fmicro as_row exact_motion m_near m_far m_eps m_surf m_target m_turn fst snd].
      destruct (dist_lt sc (r_pos r) (Some k) && Rltb (eps sc) (r_en r)).
      + destruct (Rleb (r_en r - surf sc k) (eps sc)); reflexivity.
      + pose proof (fmove_exact r (dist_gt sc (r_pos r) (Some k))) as M. cbn [as_row fst] in M. rewrite M.
        destruct (Rltb (eps sc) (r_en r) && dist_gt sc (r_pos r) (Some k)); reflexivity.
    - unfold micro. cbn [fmicro as_row]. pose proof (fmove_exact r true) as M. cbn [as_row fst] in M. rewrite M. cbn [dist_gt].
      destruct (Rltb (eps sc) (r_en r) && true); reflexivity.
    - reflexivity.
  Qed.
  Definition over {X Y} (f : X -> Y) (r : result X) : result Y := match r with Ok x => Ok (f x) | Err e => Err e end.
  Lemma fstep_exact fuel r : fstep idR (exact_motion sc) fuel (as_row r) = over as_row (step_ray sc fuel r).
  Proof.
    unfold fstep, step_ray.
    assert (I : forall st, Nat.iter fuel (fmicro idR (exact_motion sc)) (fst st, as_row (snd st)) =
      (fst (Nat.iter fuel (micro sc) st), as_row (snd (Nat.iter fuel (micro sc) st)))).
    { intros st. induction fuel as [|n IH]; auto.
      change (fmicro idR (exact_motion sc) (Nat.iter n (fmicro idR (exact_motion sc)) (fst st, as_row (snd st))) = (fst (micro sc (Nat.iter n (micro sc) st)), as_row (snd (micro sc (Nat.iter n (micro sc) st))))).
      rewrite IH. apply fmicro_exact. }
    specialize (I (Start, r)). cbn [fst snd] in I. rewrite I. destruct (Nat.iter fuel (micro sc) (Start, r)) as ([| |] & r'); reflexivity.
  Qed.
  Lemma fcheck_exact sn hits r :
    fcheck idR (exact_motion sc) sn hits (fst (as_row r)) (r_en r) =
    (let (hs, r') := check_absorbers sc (skipn sn (absorbers sc)) hits r in (hs, r_en r')) /\
    fst (as_row (snd (check_absorbers sc (skipn sn (absorbers sc)) hits r))) = fst (as_row r).
  Proof.
    revert sn r. induction hits as [|h hits IH]; intros sn r; [destruct (skipn sn (absorbers sc)); auto|].
    assert (SK : skipn sn (absorbers sc) = match nth_error (absorbers sc) sn with Some c => c :: skipn (S sn) (absorbers sc) | None => [] end).
    { generalize (absorbers sc) as l. induction sn as [|sn IHn]; intros [|c l]; auto. cbn [skipn nth_error]. rewrite IHn. destruct l; auto. }
    cbn [fcheck exact_motion m_within]. rewrite SK. destruct (nth_error (absorbers sc) sn) as [c|] eqn:E.
    - cbn [check_absorbers as_row fst]. destruct (Rltb (dot (vsub (r_pos r) c) (vsub (r_pos r) c)) (radius sc * radius sc)).
      + destruct (IH (S sn) (mkRay (r_pos r) (r_vel r) (r_dpos r) 0)) as (IH1 & IH2). cbn [as_row fst r_en r_pos r_vel r_dpos] in IH1, IH2.
        fold (exact_motion sc). rewrite IH1. destruct (check_absorbers sc (skipn (S sn) (absorbers sc)) hits (mkRay (r_pos r) (r_vel r) (r_dpos r) 0)). auto.
      + destruct (IH (S sn) r) as (IH1 & IH2). cbn [as_row fst] in IH1, IH2.
        fold (exact_motion sc). rewrite IH1. destruct (check_absorbers sc (skipn (S sn) (absorbers sc)) hits r). auto.
    - cbn [check_absorbers]. split; auto. destruct (IH (S sn) r) as (IH1 & _). fold (exact_motion sc). rewrite IH1.
      assert (Z : skipn (S sn) (absorbers sc) = []) by (apply skipn_all2; apply nth_error_None in E; lia). rewrite Z. destruct hits; reflexivity.
  Qed.
  Lemma fabsorb_exact rays hits : fabsorb idR (exact_motion sc) (map as_row rays) hits =
    (let (rs, hs) := absorb sc rays hits in (map as_row rs, hs)).
  Proof.
    revert hits. induction rays as [|r rays IH]; intros hits; auto. cbn [map fabsorb absorb as_row]. fold (as_row r).
    change (m_eps (exact_motion sc)) with (eps sc). destruct (Rleb (r_en r) (eps sc)).
    - rewrite IH. destruct (absorb sc rays hits). reflexivity.
    - destruct (fcheck_exact 0 hits r) as (C & P). cbn [skipn as_row fst] in C, P. rewrite C.
      destruct (check_absorbers sc (absorbers sc) hits r) as (h1 & r1). cbn [snd] in P. rewrite IH.
      destruct (absorb sc rays h1). cbn [map]. f_equal. f_equal. unfold as_row. rewrite <- P. reflexivity.
  Qed.
  Lemma fsim_step_exact fuel st : fsim_step idR (exact_motion sc) fuel (map as_row (s_rays st), s_hits st) =
    over (fun s => (map as_row (s_rays s), s_hits s)) (sim_step sc fuel st).
  Proof.
    unfold fsim_step, sim_step. cbn [fst snd]. rewrite fabsorb_exact. destruct (absorb sc (s_rays st) (map (fun _ => 0) (s_hits st))) as (rs & hs).
    assert (M : mapM (fstep idR (exact_motion sc) fuel) (map as_row rs) = over (map as_row) (mapM (step_ray sc fuel) rs)).
    { induction rs as [|r rs IH]; auto. cbn [map mapM]. rewrite fstep_exact, IH. destruct (step_ray sc fuel r); cbn [rbind over]; auto.
      destruct (mapM (step_ray sc fuel) rs); reflexivity. }
    rewrite M. destruct (mapM (step_ray sc fuel) rs); reflexivity.
  Qed.
End Exact.
