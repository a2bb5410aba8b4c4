(** Whole simulations: totals over the saved steps, and boxes. *)
From Coq Require Import Reals Ascii String List Arith Bool ZArith Lia Lra.
From Verif Require Import RoomProofs1 RoomProofs2 RoomProofs3 RoomProofs4 BoxProofs2 BoxProofs3 BoxProofs4 BoxProofs5 BoxProofs6 SliceProofs8 StlModel Prelude TreeModel VecModel SimModel SimSpec SimProofs SimProofs2 SimProofs3 SimProofs4 GeomModel GeomSpec VecProofs GeomProofs1 WildModel WildSpec BufModel BufSpec BufProofs BufProofs2 VoxModel VoxSpec PolyModel SolidModel CrossSpec InsideSpec RoomSpec BoxSpec RunModel RunSpec RunProofs RunProofs2.
Import ListNotations.
Local Open Scope R_scope.

Section Rows.
  Context (sc : scene) (source : vec) (rays steps : nat) (pos : list (list vec)) (en hit : list (list R)) (Si : simulated sc source rays steps pos en hit).

  Lemma rows_at i : (i <= steps)%nat -> exists p e h, nth_error pos i = Some p /\ nth_error en i = Some e /\ nth_error hit i = Some h /\ length p = rays /\ length e = rays /\ length h = length (absorbers sc).
  Proof.
    destruct Si as (L1 & L2 & L3 & P0 & E0 & H0 & St). induction i as [|i IH]; intros Li.
    - do 3 eexists. do 3 (split; [eassumption|]). rewrite !repeat_length. auto.
    - destruct IH as (p & e & h & Ep & Ee & Eh & Lp & Le & Lh); [lia|].
      destruct (nth_error pos (S i)) as [p'|] eqn:Ep'; [|apply nth_error_None in Ep'; lia]. destruct (nth_error en (S i)) as [e'|] eqn:Ee'; [|apply nth_error_None in Ee'; lia].
      destruct (nth_error hit (S i)) as [h'|] eqn:Eh'; [|apply nth_error_None in Eh'; lia]. destruct (St i p p' e e' h' Ep Ep' Ee Ee' Eh') as (X1 & X2 & X3 & _).
      exists p', e', h'. do 3 (split; [auto|]). split; [lia|]. split; [lia|]. auto.
  Qed.
  Lemma step_at i : (S i <= steps)%nat -> exists p p' e e' h', nth_error pos i = Some p /\ nth_error pos (S i) = Some p' /\ nth_error en i = Some e /\ nth_error en (S i) = Some e' /\ nth_error hit (S i) = Some h' /\ one_step sc p p' e e' h'.
  Proof.
    intros Li. destruct (rows_at i) as (p & e & h & Ep & Ee & Eh & _); [lia|]. destruct (rows_at (S i)) as (p' & e' & h' & Ep' & Ee' & Eh' & _); [lia|].
    destruct Si as (_ & _ & _ & _ & _ & _ & St). exists p, p', e, e', h'. do 5 (split; [auto|]). eapply St; eauto.
  Qed.

  (** Energies. *)
  Lemma energy_at i j k x y : (i <= j)%nat -> cell en i k x -> cell en j k y -> 0 <= y <= x /\ x <= 1.
  Proof.
    assert (B : forall i k x, cell en i k x -> 0 <= x <= 1 /\ forall j y, (i <= j)%nat -> cell en j k y -> y <= x).
    { assert (Up : forall i k x, cell en i k x -> 0 <= x <= 1).
      { induction i0 as [|i0 IH]; intros k0 x0 (r & Er & Ek).
        - destruct Si as (_ & _ & _ & _ & E0 & _). rewrite E0 in Er. inversion Er; subst r. apply nth_error_In, repeat_spec in Ek. subst. lra.
        - assert (Li : (S i0 <= steps)%nat). { assert (Q : nth_error en (S i0) <> None) by congruence. apply nth_error_Some in Q. destruct Si as (_ & X & _). lia. }
          destruct (step_at i0 Li) as (p & p' & e & e' & h' & _ & _ & Ee & Ee' & _ & (_ & L & _ & _ & M & _)). rewrite Er in Ee'. inversion Ee'; subst e'.
          destruct (nth_error e k0) as [z|] eqn:Ez; [|apply nth_error_None in Ez; assert (Q : nth_error r k0 <> None) by congruence; apply nth_error_Some in Q; lia].
          destruct (IH k0 z) as (? & ?); [exists e; auto|]. pose proof (M k0 z x0 Ez Ek). lra. }
      intros i0 k0 x0 C. split; [eapply Up; eauto|]. intros j0 y0 Lj. revert y0. induction Lj as [|j0 Lj IH]; intros y0 (r & Er & Ek).
      - destruct C as (r' & Er' & Ek'). rewrite Er in Er'. inversion Er'; subst. rewrite Ek in Ek'. inversion Ek'. lra.
      - assert (Li : (S j0 <= steps)%nat). { assert (Q : nth_error en (S j0) <> None) by congruence. apply nth_error_Some in Q. destruct Si as (_ & X & _). lia. }
        destruct (step_at j0 Li) as (p & p' & e & e' & h' & _ & _ & Ee & Ee' & _ & (_ & L & _ & _ & M & _)). rewrite Er in Ee'. inversion Ee'; subst e'.
        destruct (nth_error e k0) as [z|] eqn:Ez; [|apply nth_error_None in Ez; assert (Q : nth_error r k0 <> None) by congruence; apply nth_error_Some in Q; lia].
        pose proof (M k0 z y0 Ez Ek). assert (z <= x0) by (apply IH; exists e; auto). lra. }
    intros Lj C1 C2. destruct (B i k x C1) as (X & Y). destruct (B j k y C2) as (X' & _). specialize (Y j y Lj C2). lra.
  Qed.

  (** Rays without energy. *)
  Lemma dead_at i j k x p : (i <= j)%nat -> (j <= steps)%nat -> cell en i k x -> x <= eps sc -> cell pos i k p -> cell en j k x /\ cell pos j k p.
  Proof.
    intros L. induction L as [|j L IH]; intros Lj C X P; auto. destruct IH as ((e0 & Ee0 & Ek) & (p0 & Ep0 & Pk)); auto; [lia|].
    destruct (step_at j Lj) as (q & p' & e & e' & h' & Ep & Ep' & Ee & Ee' & _ & (_ & _ & _ & _ & _ & D & _)).
    rewrite Ee0 in Ee. inversion Ee; subst e0. rewrite Ep0 in Ep. inversion Ep; subst p0. destruct (D k x Ek X) as (D1 & D2). split; [exists e'; auto|exists p'; split; auto; congruence].
  Qed.

  (** Distance from the source. *)
  Lemma reach_at (Sp : 0 <= speed sc * dt sc) i : forall k p, cell pos i k p -> norm (vsub p source) <= INR i * (speed sc * dt sc).
  Proof.
    induction i as [|i IH]; intros k p (r & Er & Ek).
    - destruct Si as (_ & _ & _ & P0 & _). rewrite P0 in Er. inversion Er; subst. apply nth_error_In, repeat_spec in Ek. subst.
      replace (vsub source source) with vzero by (destruct source; unfold vsub, vzero; simpl; f_equal; ring). rewrite (proj2 (norm_zero vzero) eq_refl). simpl. lra.
    - assert (Li : (S i <= steps)%nat). { assert (Q : nth_error pos (S i) <> None) by congruence. apply nth_error_Some in Q. destruct Si as (X & _). lia. }
      destruct (step_at i Li) as (q & p' & e & e' & h' & Ep & Ep' & _ & _ & _ & (L & _ & _ & M & _)). rewrite Er in Ep'. inversion Ep'; subst p'.
      destruct (nth_error q k) as [z|] eqn:Ez; [|apply nth_error_None in Ez; assert (Q : nth_error r k <> None) by congruence; apply nth_error_Some in Q; lia].
      assert (Iz : norm (vsub z source) <= INR i * (speed sc * dt sc)) by (apply (IH k); exists q; auto). rewrite S_INR.
      destruct (M k z p Ez Ek) as [-> | Nz]; [lra|]. replace (vsub p source) with (vadd (vsub p z) (vsub z source)) by (destruct p, z, source; unfold vadd, vsub; simpl; f_equal; ring).
      pose proof (norm_triangle (vsub p z) (vsub z source)). lra.
  Qed.

  (** The budget. *)
  Lemma budget_at n e : (n <= steps)%nat -> nth_error en n = Some e -> Rsum e + Rsum (map Rsum (firstn n (tl hit))) <= INR rays.
  Proof.
    revert e. induction n as [|n IH]; intros e Ln Ee.
    - destruct Si as (_ & _ & _ & _ & E0 & _). rewrite E0 in Ee. inversion Ee; subst. cbn [firstn map]. replace (Rsum (repeat 1 rays)) with (INR rays); [unfold Rsum; simpl; lra|].
      clear. induction rays as [|n IH]; [reflexivity|]. rewrite S_INR, IH. unfold Rsum. simpl. lra.
    - destruct (step_at n Ln) as (q & p' & e0 & e' & h' & _ & _ & Ee0 & Ee' & Eh & (_ & _ & _ & _ & _ & _ & Bu)). rewrite Ee in Ee'. inversion Ee'; subst e'.
      specialize (IH e0 ltac:(lia) Ee0).
      assert (X : firstn (S n) (tl hit) = firstn n (tl hit) ++ [h']).
      { destruct hit as [|h0 hs]; [discriminate|]. cbn [tl nth_error] in *. clear - Eh. revert n Eh. induction hs as [|x hs IH]; intros [|n] Eh; try discriminate; simpl in *; [inversion Eh; auto|]. f_equal. apply IH; auto. }
      rewrite X, map_app. assert (Y : forall l m, Rsum (l ++ m) = Rsum l + Rsum m). { intros l m. induction l as [|x l IHl]; unfold Rsum in *; simpl; [lra|rewrite IHl; lra]. }
      rewrite Y. cbn [map]. assert (Z : forall x, Rsum [x] = x) by (intros x; unfold Rsum; simpl; lra). rewrite Z. lra.
  Qed.
  Lemma budget_all e : nth_error en steps = Some e -> Rsum e + Rsum (map Rsum hit) <= INR rays.
  Proof.
    intros Ee. pose proof (budget_at steps e (le_n _) Ee) as B. destruct Si as (_ & _ & L3 & _ & _ & H0 & _). destruct hit as [|h hs]; [discriminate|]. cbn [tl nth_error length] in *.
    rewrite firstn_all2 in B by lia. inversion H0; subst h. cbn [map]. rewrite (Rsum_cons (Rsum _)).
    replace (Rsum (repeat 0 (length (absorbers sc)))) with 0; [lra|]. generalize (length (absorbers sc)) as m. clear. induction m as [|n IH]; unfold Rsum in *; simpl; lra.
  Qed.
End Rows.

(** Boxes. *)
Section Box.
Context (x y z : R) (mv : vec) (D : box_dims x y z mv) (name : str) (ws : list wall_t) (Hb : box x y z mv name = Ok ws) (Hv : validate_name name = Ok name).
Context (order_of : list nat -> list nat) (mn mx : vec) (s e : R) (grid : dict (Z * Z * Z) (list nat)) (sc : scene).
Context (Rm : room (faces_of ws) [] order_of mn mx s e grid sc).
Context (Eps : 0 <= eps sc) (Dt : 0 < dt sc) (Sd : 1 / 1000 < speed sc * dt sc <= s) (Surf : forall k, 0 <= surf sc k).

Definition good_vel (v : vec) : Prop := (norm v = speed sc /\ no_tiny v) \/ v = vzero.
Lemma good_mirror p v k : good_vel v -> target sc p v = Some k -> good_vel (mirror (pnormal sc k) v).
Proof.
  intros [G| ->] T; [left; eapply keeps_tiny; eauto|right]. destruct (pnormal sc k). unfold mirror, vsub, smul, dot, vzero. simpl. f_equal; ring.
Qed.
Lemma box_unit p v k : target sc p v = Some k -> dot (pnormal sc k) (pnormal sc k) = 1.
Proof. intros T. exact (target_unit _ _ _ _ _ _ _ _ _ Rm p v k T). Qed.

Definition confined (b : buffers) : Prop := forall i k p p', cell (b_pos b) i k p -> cell (b_pos b) (S i) k p' -> inside_box x y z mv p ->
  inside_box x y z mv p' \/ exists t, 0 <= t <= 1 /\ near_edge x y z mv (vadd p (smul t (vsub p' p))).

Lemma batch_confined fuel n pos vel en hits b : (1 <= n)%nat -> arr_ok sc pos vel en hits -> (forall v, In v vel -> good_vel v) -> simulation_loop sc fuel n pos vel en hits = Ok b ->
  confined b /\ forall v, In v (next_velocity sc b) -> good_vel v.
Proof.
  intros N1 Ao Gv E. pose proof Ao as (Lv & Le & Lh & _).
  pose proof (kept_simulation sc good_vel good_mirror fuel n pos vel en hits b Eps Lv Le Lh Gv E) as K. split.
  - intros i k p p' C C' I. destruct (K i k p p' C C') as [-> |(v & [(Nn & Nt)| ->] & -> & Tg)]; [auto| |].
    + destruct (box_move x y z mv D name ws Hb Hv order_of mn mx s e grid sc Rm p v Sd Dt Nn Nt Tg I) as [H|(t & T & H)]; [auto|right]. exists t. split; auto.
      replace (vsub (vadd p (smul (dt sc) v)) p) with (smul (dt sc) v) by (destruct p, v; unfold vsub, vadd, smul; simpl; f_equal; ring). exact H.
    + left. replace (vadd p (smul (dt sc) vzero)) with p by (destruct p; unfold vadd, smul, vzero; simpl; f_equal; ring). auto.
  - destruct (batch_ok sc Eps Dt Surf box_unit fuel n pos vel en hits b N1 Ao E) as ((L1 & _) & _).
    intros v I. unfold next_velocity in I. rewrite L1 in I. replace (S n - 1)%nat with n in I by lia. replace (S n - 2)%nat with (n - 1)%nat in I by lia.
    apply in_map_iff in I. destruct I as ((q', q) & <- & I). cbn [fst snd]. apply In_nth_error in I. destruct I as (k & Ek).
    assert (Kq : nth_error (row (b_pos b) n) k = Some q' /\ nth_error (row (b_pos b) (n - 1)) k = Some q).
    { clear - Ek. revert k Ek. generalize (row (b_pos b) (n - 1)). induction (row (b_pos b) n) as [|u us IH]; intros [|w ws'] [|k] Ek; try discriminate; simpl in *; [inversion Ek; auto|auto]. }
    destruct Kq as (K1 & K2). destruct (K (n - 1)%nat k q q') as [-> |(v & G & -> & _)].
    + exists (row (b_pos b) (n - 1)). split; auto. apply row_nth. lia.
    + replace (S (n - 1)) with n by lia. exists (row (b_pos b) n). split; auto. apply row_nth. lia.
    + right. destruct q. unfold smul, vsub, vzero. simpl. f_equal; ring.
    + replace (smul _ _) with v; auto. destruct q, v. unfold smul, vsub, vadd. simpl. f_equal; field; lra.
Qed.

Lemma batches_confined fuel size : (1 <= size)%nat -> forall n pos vel en hits bs, arr_ok sc pos vel en hits -> (forall v, In v vel -> good_vel v) -> run_batches sc fuel size n pos vel en hits = Ok bs -> Forall confined bs.
Proof.
  intros S1. induction n as [|n IH]; intros pos vel en hits bs Ao Gv E; cbn [run_batches] in E; [inversion E; constructor|].
  destruct (simulation_loop sc fuel size pos vel en hits) as [b|] eqn:El; [|discriminate]. cbn [rbind] in E.
  destruct (batch_ok sc Eps Dt Surf box_unit fuel size pos vel en hits b S1 Ao El) as ((L1 & L2 & L3 & _) & _ & _ & _ & _ & Ao' & _).
  rewrite L1, L2, L3 in E. cbn [Nat.sub] in E. rewrite !Nat.sub_0_r in E.
  destruct (run_batches sc fuel size n _ _ _ _) as [bs'|] eqn:Eb; [|discriminate]. cbn [rbind] in E. inversion E; subst bs.
  destruct (batch_confined fuel size pos vel en hits b S1 Ao Gv El) as (C & Gn). constructor; auto. eapply IH; eauto.
Qed.

Section Saved.
Context (name_ok : str -> bool) (OK : name_ok STEP = true) (dir : str) (ND : ~ In NL dir).
Context (Lp Le Lh : str) (Fp : file_stem Lp) (Fe : file_stem Le) (Fh : file_stem Lh).
Context (Dpe : Lp <> Le) (Dph : Lp <> Lh) (Deh : Le <> Lh).
Let pat := mkPat (step_pattern Lp) (step_pattern Le) (step_pattern Lh).

Lemma box_saved fuel rounds size num source us vel lb fs : 0 <= speed sc ->
  check_steps (Z.of_nat num) (Z.of_nat size) = Ok tt -> Forall2 (fun u v => init_velocity (speed sc) u = Some v) us vel -> (forall v, In v vel -> no_tiny v) ->
  inside_box x y z mv source ->
  run sc fuel name_ok dir pat rounds size num source vel [] = Ok (lb, fs) ->
  forall listing, glob_of dir fs listing -> exists ps es hs,
    read_buffers data_shape name_ok fs listing dir pat = Ok (map DPos ps, map DNum es, map DNum hs) /\
    forall k i, (forall j p p' t, (j < i)%nat -> cell ps j k p -> cell ps (S j) k p' -> 0 <= t <= 1 -> ~ near_edge x y z mv (vadd p (smul t (vsub p' p)))) ->
      forall p, cell ps i k p -> inside_box x y z mv p.
Proof.
  intros Sp C F Nt I0 E listing G. destruct (run_saved sc Eps Dt Sp Surf box_unit name_ok OK dir ND Lp Le Lh Fp Fe Fh Dpe Dph Deh fuel rounds size num source us vel lb fs C F E) as (_ & _ & _ & Rs). destruct (Rs listing G) as (ps & es & hs & b & Er & Si & _).
  exists ps, es, hs. split; [exact Er|].
  destruct (check_nat _ _ C) as (n & -> & N1 & S1). pose proof (start_ok sc Sp us vel source F) as Ao.
  unfold run in E. apply (loop_split sc fuel name_ok dir pat size S1 n) in E; [|lia]. destruct E as (bs & Eb & Ed & ->).
  destruct (read_batches sc Eps Dt Surf box_unit name_ok OK dir ND Lp Le Lh Fp Fe Fh Dpe Dph Deh size n bs S1 N1 _ _ _ _ fuel Ao Eb) as (fs' & Ed' & _ & _ & _ & Rd). assert (fs' = fs) by (unfold pat in Ed; rewrite Ed in Ed'; inversion Ed'; auto). subst fs'.
  destruct (Rd listing G) as (ps' & es' & hs' & Er' & L1 & _ & _ & Nth).
  assert (Inj : forall (a b : list (list vec)), map DPos a = map DPos b -> a = b).
  { induction a as [|u a IH]; intros [|w b'] H; try discriminate; auto. simpl in H. inversion H. f_equal; auto. }
  assert (ps' = ps) by (apply Inj; unfold pat in Er; rewrite Er in Er'; inversion Er'; auto). subst ps'.
  assert (Gv : forall v, In v vel -> good_vel v).
  { intros v I. left. split; auto. apply In_nth_error in I. destruct I as (k & Ek). destruct (forall2_nth' _ _ _ F _ _ Ek) as (u & _ & Eu). apply (velocity_some _ _ _ Sp Eu). }
  pose proof (batches_confined fuel size S1 n _ _ _ _ bs Ao Gv Eb) as Cf. rewrite Forall_forall in Cf.
  destruct (batches_ok sc Eps Dt Surf box_unit fuel size S1 n _ _ _ _ bs Ao Eb) as (Ln & _).
  intros k i. induction i as [|i IH]; intros Cl p' C'.
  - destruct Si as (_ & _ & _ & P0 & _). destruct C' as (r & E0 & Ek). rewrite P0 in E0. inversion E0; subst r. apply nth_error_In, repeat_spec in Ek. subst. auto.
  - pose proof C' as (r' & Er1 & Ek1).
    assert (Li : (S i <= n * size)%nat) by (assert (Q : nth_error ps (S i) <> None) by congruence; apply nth_error_Some in Q; lia).
    assert (P : exists p, cell ps i k p).
    { destruct (step_at sc source (length us) (n * size) ps es hs Si i Li) as (q & q' & ? & ? & ? & Eq & Eq' & _ & _ & _ & (L & _)). rewrite Er1 in Eq'. inversion Eq'; subst q'.
      destruct (nth_error q k) as [p|] eqn:Ep; [exists p, q; auto|]. apply nth_error_None in Ep. assert (Q : nth_error r' k <> None) by congruence. apply nth_error_Some in Q. lia. }
    destruct P as (p & Cp). assert (Ip : inside_box x y z mv p) by (apply IH; auto; intros j q q' t Lj; apply Cl; lia).
    assert (Di : i = (i / size * size + i mod size)%nat) by (pose proof (Nat.div_mod i size); lia). pose proof (Nat.mod_upper_bound i size ltac:(lia)) as Mb.
    assert (Lq : (i / size < n)%nat) by (apply Nat.div_lt_upper_bound; nia).
    destruct (nth_error bs (i / size)) as [B|] eqn:EB; [|apply nth_error_None in EB; lia].
    destruct (Nth _ B (i mod size)%nat EB ltac:(lia)) as (Y1 & _). destruct (Nth _ B (S (i mod size)) EB ltac:(lia)) as (Z1 & _).
    replace (i / size * size + S (i mod size))%nat with (S i) in Z1 by lia. rewrite <- Di in Y1.
    destruct (Cf B (nth_error_In _ _ EB) (i mod size)%nat k p p') as [H|(t & T & H)]; auto.
    + destruct Cp as (r & Ec & Ekc). exists r. split; auto. congruence.
    + exists r'. split; auto. congruence.
    + exfalso. apply (Cl i p p' t (Nat.lt_succ_diag_r i) Cp C' T H).
Qed.
End Saved.
End Box.
