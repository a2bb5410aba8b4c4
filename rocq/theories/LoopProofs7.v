(** Integer outlines that do not meet themselves, to look at. *)
From Coq Require Import Reals List ZArith Bool Arith Lia Lra Permutation.
From Verif Require Import Prelude VecModel VecProofs GeomModel GeomSpec GeomProofs1 GeomProofs2 GeomProofs3 GeomProofs4 TriModel TriSpec TriProofs TriProofs2 PolyModel PolySpec PolyProofs1 PolyProofs2 PolyProofs3 CrossSpec InsideSpec RoomSpec PlanSpec
  SliceModel SliceSpec SliceProofs4 SliceProofs5 SliceProofs6 SliceProofs7 SliceProofs8 SliceProofs9 SliceProofs10 WindSpec WindProofs1 WindProofs2 WindProofs3 WindProofs4 WindProofs5 WindProofs6 LoopSpec LoopProofs4 LoopProofs5 LoopProofs6.
Import ListNotations.
Local Open Scope R_scope.

Definition zapart (w : z3) (e e' : z3 * z3) : bool :=
  ((Z.max (zdot w (fst e)) (zdot w (snd e)) <? Z.min (zdot w (fst e')) (zdot w (snd e'))) || (Z.max (zdot w (fst e')) (zdot w (snd e')) <? Z.min (zdot w (fst e)) (zdot w (snd e))))%Z.
Definition zmeet (u : z3) (e e' : z3 * z3) : bool :=
  zeqb (snd e) (fst e') && negb (zleft u (fst e) (snd e) (snd e') =? 0)%Z || zeqb (fst e) (snd e') && negb (zleft u (fst e') (snd e') (snd e) =? 0)%Z.
Definition zsimple (u : z3) (ws pts : list z3) : bool :=
  (3 <=? length pts)%nat && forallb (fun p => (length (filter (zeqb p) pts) =? 1)%nat) pts &&
  forallb (fun e => forallb (fun e' => zeqb (fst e) (fst e') || existsb (fun w => zapart w e e') ws || zmeet u e e') (cyc_pairs pts)) (cyc_pairs pts).
Lemma seg_dot w a b t : dot w (seg_point a b t) = dot w a + t * (dot w b - dot w a).
Proof. unfold seg_point. dvec w; dvec a; dvec b. vunf. ring. Qed.
Lemma seg_left n a b c e t : left_of n a b (seg_point c e t) = left_of n a b c + t * (left_of n a b e - left_of n a b c).
Proof. unfold left_of, seg_point. dvec n; dvec a; dvec b; dvec c; dvec e. vunf. ring. Qed.
Lemma left_ends n a b : left_of n a b a = 0 /\ left_of n a b b = 0.
Proof. unfold left_of. dvec n; dvec a; dvec b. vunf. split; ring. Qed.
Lemma zmax_r a b : IZR (Z.max a b) = Rmax (IZR a) (IZR b).
Proof. destruct (Z.max_spec a b) as [(H & ->)|(H & ->)]; [apply IZR_lt in H|apply IZR_le in H]; unfold Rmax; destruct (Rle_dec (IZR a) (IZR b)); lra. Qed.
Lemma zmin_r a b : IZR (Z.min a b) = Rmin (IZR a) (IZR b).
Proof. destruct (Z.min_spec a b) as [(H & ->)|(H & ->)]; [apply IZR_lt in H|apply IZR_le in H]; unfold Rmin; destruct (Rle_dec (IZR a) (IZR b)); lra. Qed.
Lemma apart_none w a b a' b' m : zapart w (a, b) (a', b') = true -> on_segment (at3 a) (at3 b) m -> on_segment (at3 a') (at3 b') m -> False.
Proof.
  unfold zapart. cbn [fst snd]. intros H (t & T & ->) (s & S & E). apply (f_equal (dot (at3 w))) in E. rewrite !seg_dot, !at3_dot in E.
  apply orb_true_iff in H. destruct H as [H|H]; apply Z.ltb_lt, IZR_lt in H; rewrite zmax_r, zmin_r in H; revert H; unfold Rmax, Rmin; repeat destruct Rle_dec; nra.
Qed.
Lemma meet_one u a b b' m : zleft u a b b' <> 0%Z -> on_segment (at3 a) (at3 b) m -> on_segment (at3 b) (at3 b') m -> m = at3 b.
Proof.
  intros L (t & T & E) (s & S & ->). apply (f_equal (left_of (at3 u) (at3 a) (at3 b))) in E. rewrite !seg_left in E. destruct (left_ends (at3 u) (at3 a) (at3 b)) as (E1 & E2). rewrite E1, E2, z_left in E. assert (N : IZR (zleft u a b b') <> 0) by (intros X; apply L, eq_IZR; auto).
  assert (s = 0) by nra. subst s. unfold seg_point. clear. dvec (at3 b); dvec (at3 b'). vunf. f_equal; ring.
Qed.
Lemma at3_inj a b : at3 a = at3 b -> a = b.
Proof. destruct a as ((x, y), z), b as ((x', y'), z'). unfold at3. intros E. injection E as E1 E2 E3. apply eq_IZR in E1, E2, E3. congruence. Qed.
Lemma once_nodup pts : forallb (fun p => (length (filter (zeqb p) pts) =? 1)%nat) pts = true -> NoDup (map at3 pts).
Proof.
  intros H. apply FinFun.Injective_map_NoDup; [exact at3_inj|]. rewrite forallb_forall in H. apply NoDup_nth_error. intros i j Li E. destruct (Nat.eq_dec i j) as [->|N]; auto. exfalso.
  destruct (nth_error pts i) as [x|] eqn:Ei; [|apply nth_error_None in Ei; lia]. symmetry in E. specialize (H x (nth_error_In _ _ Ei)). apply Nat.eqb_eq in H.
  assert (G : forall a b l, (a < b)%nat -> nth_error l a = Some x -> nth_error l b = Some x -> (2 <= length (filter (zeqb x) l))%nat).
  { clear. induction a as [|a IH]; intros [|b] l L Ea Eb; try lia; destruct l as [|y l]; try discriminate; cbn in Ea, Eb.
    - injection Ea as ->. cbn [filter]. assert (X : zeqb x x = true) by (apply zeqb_eq; auto). rewrite X. cbn [length]. assert (In x (filter (zeqb x) l)) by (apply filter_In; split; [eapply nth_error_In; eauto|auto]). destruct (filter (zeqb x) l); [contradiction|cbn; lia].
    - cbn [filter]. specialize (IH b l ltac:(lia) Ea Eb). destruct (zeqb x y); cbn [length]; lia. }
  destruct (Nat.lt_ge_cases i j) as [L|L]; [specialize (G i j pts L Ei E)|specialize (G j i pts ltac:(lia) E Ei)]; lia.
Qed.
Lemma z_simple u ws pts : zsimple u ws pts = true -> simple_outline (map at3 pts).
Proof.
  unfold zsimple. intros H. apply andb_true_iff in H. destruct H as (H & E). apply andb_true_iff in H. destruct H as (L & D). apply Nat.leb_le in L. pose proof (once_nodup pts D) as Nd. split; auto. split; [rewrite map_length; auto|].
  intros a b a' b' m I I' N S1 S2. rewrite cyc_map_both in I, I'. apply in_map_iff in I, I'. destruct I as ((za, zb) & X & I), I' as ((za', zb') & X' & I'). unfold both in X, X'. cbn [fst snd] in X, X'. injection X as <- <-. injection X' as <- <-.
  rewrite forallb_forall in E. specialize (E _ I). rewrite forallb_forall in E. specialize (E _ I'). cbn [fst snd] in E. apply orb_true_iff in E. destruct E as [E|E]; [apply orb_true_iff in E; destruct E as [E|E]|].
  - exfalso. apply zeqb_eq in E. subst za'. apply N. assert (zb = zb'); [|congruence]. apply In_nth_error in I, I'. destruct I as (i & Ei), I' as (j & Ej). destruct (cyc_nth_split _ _ _ _ Ei) as (Fi & _). destruct (cyc_nth_split _ _ _ _ Ej) as (Fj & _).
    assert (Nz : NoDup pts) by (eapply NoDup_map_inv; eauto). assert (i = j) by (apply (proj1 (NoDup_nth_error pts) Nz); [apply nth_error_Some; congruence|congruence]). subst j. congruence.
  - exfalso. apply existsb_exists in E. destruct E as (w & _ & E). eapply apart_none; eauto.
  - unfold zmeet in E. cbn [fst snd] in E. apply orb_true_iff in E. destruct E as [E|E]; apply andb_true_iff in E; destruct E as (E & Z); apply zeqb_eq in E; apply negb_true_iff, Z.eqb_neq in Z; subst.
    + left. assert (m = at3 za') by (eapply meet_one; eauto). auto.
    + right. assert (m = at3 zb') by (eapply meet_one; eauto). auto.
Qed.
Definition axes : list z3 := [(1, 0, 0); (0, 1, 0)]%Z.
Lemma sq6_simple : simple_outline (map at3 sq6).
Proof. apply (z_simple up axes). reflexivity. Qed.
Lemma notched_simple : simple_outline (map at3 notched).
Proof. apply (z_simple up axes). reflexivity. Qed.
(** The strip that crosses itself. *)
Lemma ribbon_not_simple : ~ simple_outline (map at3 ribbon).
Proof.
  intros (_ & _ & H). destruct (H (at3 (-16, 0, 0)%Z) (at3 (16, 0, 0)%Z) (at3 (-2, 16, 0)%Z) (at3 (-2, -12, 0)%Z) (at3 (-2, 0, 0)%Z)) as [(E & _)|(E & _)].
  - left. reflexivity.
  - cbn. do 3 right. left. reflexivity.
  - intros E. injection E as E _. apply (f_equal IZR) in E || idtac. lra.
  - exists (14 / 32). split; [lra|]. unfold seg_point, at3. vunf. f_equal; lra.
  - exists (16 / 28). split; [lra|]. unfold seg_point, at3. vunf. f_equal; lra.
  - apply at3_inj in E. discriminate.
  - apply at3_inj in E. discriminate.
Qed.
