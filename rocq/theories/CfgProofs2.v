(** Proofs about the directories of a simulation. *)
From Coq Require Import Ascii String List Arith Bool Lia.
From Verif Require Import Prelude CfgModel CfgSpec.
Import ListNotations.

Definition mk_step (st : fsys * result unit) (q : fpath) : fsys * result unit :=
  match st with
  | (fs, Err e) => (fs, Err e)
  | (fs, Ok _) =>
      if exists_at fs q then (if is_dir fs q then (fs, Ok tt) else (fs, Err FileNotFoundError))
      else (dset fs q true, Ok tt)
  end.

Lemma mk_err qs fs e : fold_left mk_step qs (fs, Err e) = (fs, Err e).
Proof. induction qs as [|q qs IH]; simpl; auto. Qed.

Lemma exists_present fs q : q <> [] -> exists_at fs q = true <-> present fs q.
Proof.
  unfold exists_at, present. destruct q as [|l q]; [congruence|]. intros _. destruct (dget fs (l :: q)) as [d|]; split; [intros; exists d; auto|auto|discriminate|intros (x & H); discriminate].
Qed.

Lemma mk_loop qs : forall fs fs' r, Forall (fun q => q <> []) qs -> fold_left mk_step qs (fs, Ok tt) = (fs', r) ->
  keeps fs fs' /\ (forall x, dget fs' x <> dget fs x -> In x qs /\ dget fs' x = Some true) /\
  (r = Ok tt -> forall q, In q qs -> dget fs' q = Some true) /\
  (r = Ok tt \/ r = Err FileNotFoundError).
Proof.
  induction qs as [|q qs IH]; intros fs fs' r F E.
  - simpl in E. inversion E; subst. split; [intros p d; auto|]. split; [congruence|]. split; [intros _ q []|auto].
  - inversion F as [|? ? Fq Fqs]; subst. cbn [fold_left mk_step] in E. destruct (exists_at fs q) eqn:X.
    + destruct (is_dir fs q) eqn:Dq.
      * assert (Eq : dget fs q = Some true).
        { unfold is_dir in Dq. destruct q; [congruence|]. destruct (dget fs _); [subst; auto|discriminate]. }
        destruct (IH fs fs' r Fqs E) as (K & N & O & R). split; auto. split; [|split; auto].
        -- intros x Nx. destruct (N x Nx). simpl. auto.
        -- intros Er q' [<-|I]; auto.
      * rewrite mk_err in E. inversion E; subst. split; [intros p d; auto|]. split; [intros x N; congruence|]. split; [discriminate|auto].
    + assert (NP : dget fs q = None).
      { unfold exists_at in X. destruct q; [congruence|]. destruct (dget fs _); [discriminate|auto]. }
      destruct (IH (dset fs q true) fs' r Fqs E) as (K & N & O & R). 
      assert (K0 : keeps fs (dset fs q true)).
      { intros p d Ep. destruct (eq_dec p q) as [->|Np]; [congruence|]. rewrite dget_dset_other; auto. }
      assert (Q : dget fs' q = Some true) by (apply K; apply dget_dset_same).
      split; [intros p d Ep; apply K, K0; auto|]. split; [|split; auto].
      * intros x Nx. destruct (eq_dec x q) as [->|Ne]; [simpl; auto|].
        destruct (N x) as (I & T); [rewrite dget_dset_other; auto|]. simpl. auto.
      * intros Er q' [<-|I]; auto.
Qed.

Lemma prefixes_in p q : In q (prefixes p) <-> exists n, 0 < n /\ n <= length p /\ q = firstn n p.
Proof.
  unfold prefixes. rewrite in_map_iff. split.
  - intros (n & <- & I). apply in_seq in I. exists (S n). repeat split; lia.
  - intros (n & L1 & L2 & ->). exists (n - 1). split; [f_equal; lia|]. apply in_seq. lia.
Qed.

Lemma prefixes_nonempty p : Forall (fun q => q <> []) (prefixes p).
Proof.
  apply Forall_forall. intros q I. apply prefixes_in in I. destruct I as (n & L1 & L2 & ->).
  destruct p, n; simpl in *; try lia; discriminate.
Qed.

Lemma makedirs_spec fs p fs' r : makedirs fs p = (fs', r) ->
  keeps fs fs' /\ (forall x, dget fs' x <> dget fs x -> In x (prefixes p) /\ dget fs' x = Some true) /\
  (r = Ok tt -> exists_at fs p = false /\ dget fs' p = Some true) /\
  (exists_at fs p = true -> r = Err FileExistsError /\ fs' = fs).
Proof.
  unfold makedirs. destruct (exists_at fs p) eqn:X; intros E.
  - inversion E; subst. split; [intros q d; auto|]. split; [congruence|]. split; [discriminate|auto].
  - destruct (mk_loop (prefixes p) fs fs' r (prefixes_nonempty p) E) as (K & N & O & R). split; auto. split; auto. split; [|discriminate].
    intros Er. split; auto. apply O; auto. apply prefixes_in. exists (length p).
    destruct p as [|a p]; [discriminate|]. simpl. rewrite firstn_all. repeat split; lia.
Qed.

Lemma keeps_trans a b c : keeps a b -> keeps b c -> keeps a c.
Proof. intros H1 H2 p d E. auto. Qed.

Lemma keeps_refl a : keeps a a.
Proof. intros p d; auto. Qed.

(** First part of make_dirs. *)
Lemma project_part fs p : let st := if exists_at fs p then (fs, Ok tt) else makedirs fs p in
  keeps fs (fst st) /\ (forall x, dget (fst st) x <> dget fs x -> In x (prefixes p) /\ dget (fst st) x = Some true) /\
  (snd st = Ok tt -> exists_at (fst st) p = true).
Proof.
  cbv zeta. destruct (exists_at fs p) eqn:X.
  - simpl. split; [apply keeps_refl|]. split; [congruence|auto].
  - destruct (makedirs fs p) as (fs', r) eqn:E. apply makedirs_spec in E. destruct E as (K & N & O & _). simpl. split; auto. split; auto.
    intros Er. destruct (O Er) as (_ & T). unfold exists_at. destruct p; auto. rewrite T. auto.
Qed.

Lemma make_dirs_unfold fs p b : make_dirs fs p b =
  let st := if exists_at fs p then (fs, Ok tt) else makedirs fs p in
  match st with
  | (fs, Err e) => (fs, Err e)
  | (fs, Ok _) =>
      if exists_at fs b then
        match listdir fs b with
        | Err e => (fs, Err e)
        | Ok l => if 0 <? length l then (fs, Err RuntimeError) else makedirs fs b
        end
      else makedirs fs b
  end.
Proof. reflexivity. Qed.

Lemma make_dirs_keeps fs p b : keeps fs (fst (make_dirs fs p b)) /\
  (forall x, dget (fst (make_dirs fs p b)) x <> dget fs x ->
     (In x (prefixes p) \/ In x (prefixes b)) /\ dget (fst (make_dirs fs p b)) x = Some true).
Proof.
  rewrite make_dirs_unfold. cbv zeta. destruct (project_part fs p) as (K & N & O). cbv zeta in *.
  destruct (if exists_at fs p then (fs, Ok tt) else makedirs fs p) as (fs1, r1). simpl in K, N, O.
  assert (B : forall fs2 r2, makedirs fs1 b = (fs2, r2) -> keeps fs fs2 /\
    forall x, dget fs2 x <> dget fs x -> (In x (prefixes p) \/ In x (prefixes b)) /\ dget fs2 x = Some true).
  { intros fs2 r2 E. apply makedirs_spec in E. destruct E as (K2 & N2 & _). split; [eapply keeps_trans; eauto|].
    intros x Nx. destruct (dget fs2 x) as [d2|] eqn:E2.
    - destruct (dget fs1 x) as [d1|] eqn:E1.
      + assert (E3 : dget fs2 x = Some d1) by (apply K2; auto). rewrite E2 in E3.
        destruct (N x) as (I & T); [rewrite E1; congruence|]. split; auto. congruence.
      + destruct (N2 x) as (I & T); [congruence|]. rewrite E2 in T. auto.
    - destruct (dget fs x) as [d|] eqn:E0; [|congruence]. apply K in E0. apply K2 in E0. congruence. }
  assert (P : keeps fs fs1 /\ forall x, dget fs1 x <> dget fs x -> (In x (prefixes p) \/ In x (prefixes b)) /\ dget fs1 x = Some true).
  { split; auto. intros x Nx. destruct (N x Nx). auto. }
  destruct r1 as [u|e]; [|simpl; auto].
  destruct (exists_at fs1 b); [destruct (listdir fs1 b) as [l|]; [destruct (0 <? length l)|]|]; simpl; auto;
    destruct (makedirs fs1 b) as (fs2, r2) eqn:E2; simpl; eapply B; eauto.
Qed.

Lemma child_present fs b c : In c (filter (child_of b) (dkeys fs)) -> exists n, c = b ++ [n] /\ present fs c.
Proof.
  intros I. apply filter_In in I. destruct I as (I & C). unfold child_of in C. apply andb_true_iff in C. destruct C as (C1 & C2).
  apply Nat.eqb_eq in C1. rewrite eqb_true in C2.
  assert (S1 : length (skipn (length b) c) = 1) by (rewrite skipn_length; unfold str in *; lia).
  destruct (skipn (length b) c) as [|n [|]] eqn:Es; simpl in S1; try lia.
  exists n. split.
  - rewrite <- (firstn_skipn (length b) c), Es, C2. auto.
  - unfold present. destruct (dget fs c) eqn:E; eauto. apply dget_None in E. contradiction.
Qed.

Lemma present_child fs b n : present fs (b ++ [n]) -> In (b ++ [n]) (filter (child_of b) (dkeys fs)).
Proof.
  intros (d & E). apply filter_In. split.
  - destruct (in_dec eq_dec (b ++ [n]) (dkeys fs)) as [I|NI]; auto. apply dget_None in NI. congruence.
  - unfold child_of. rewrite app_length, firstn_app, firstn_all, Nat.sub_diag. simpl. rewrite app_nil_r.
    apply andb_true_iff. split; [apply Nat.eqb_eq; lia|apply eqb_refl].
Qed.

Lemma makedirs_tree fs p fs' : tree_shaped fs -> makedirs fs p = (fs', Ok tt) -> tree_shaped fs'.
Proof.
  intros T. unfold makedirs. destruct (exists_at fs p); [discriminate|]. intros E.
  destruct (mk_loop (prefixes p) fs fs' (Ok tt) (prefixes_nonempty p) E) as (K & N & O & _). specialize (O eq_refl).
  intros x d n Ex L1 L2. destruct (dget fs x) as [d0|] eqn:E0.
  - apply K. eapply T; eauto.
  - destruct (N x) as (I & _); [congruence|]. apply prefixes_in in I. destruct I as (m & M1 & M2 & ->).
    apply O. apply prefixes_in. rewrite firstn_length in L2. exists n. rewrite firstn_firstn.
    split; auto. split; [lia|]. f_equal. lia.
Qed.

Lemma make_dirs_success fs p b : tree_shaped fs -> snd (make_dirs fs p b) = Ok tt ->
  ~ present fs b /\ dget (fst (make_dirs fs p b)) b = Some true /\ exists_at (fst (make_dirs fs p b)) p = true /\
  (forall n, ~ present (fst (make_dirs fs p b)) (b ++ [n])).
Proof.
  intros T. rewrite make_dirs_unfold. cbv zeta. destruct (project_part fs p) as (K & N & O). cbv zeta in *.
  assert (T1 : snd (if exists_at fs p then (fs, Ok tt) else makedirs fs p) = Ok tt -> tree_shaped (fst (if exists_at fs p then (fs, Ok tt) else makedirs fs p))).
  { destruct (exists_at fs p); [auto|]. destruct (makedirs fs p) as (x, y) eqn:E. simpl. intros ->. eapply makedirs_tree; eauto. }
  destruct (if exists_at fs p then (fs, Ok tt) else makedirs fs p) as (fs1, r1). simpl in K, N, O, T1.
  destruct r1 as [[]|e]; [|discriminate]. specialize (O eq_refl). specialize (T1 eq_refl).
  assert (G : forall fs2, makedirs fs1 b = (fs2, Ok tt) -> ~ present fs b /\ dget fs2 b = Some true /\ exists_at fs2 p = true /\ forall n, ~ present fs2 (b ++ [n])).
  { intros fs2 E. apply makedirs_spec in E. destruct E as (K2 & N2 & O2 & _). destruct (O2 eq_refl) as (X & Tb).
    assert (Nb : b <> []) by (intros ->; discriminate).
    assert (NP : ~ present fs1 b). { intros C. apply (exists_present fs1 b Nb) in C. congruence. }
    split; [intros (d & C); apply NP; exists d; auto|]. split; auto. split.
    - unfold exists_at in *. destruct p as [|a p]; auto. destruct (dget fs1 (a :: p)) as [d|] eqn:Ep; [|discriminate]. rewrite (K2 _ _ Ep). auto.
    - intros n (d & C). destruct (dget fs1 (b ++ [n])) as [d1|] eqn:E1.
      + apply NP. exists true. specialize (T1 (b ++ [n]) d1 (length b) E1).
        rewrite firstn_app, firstn_all, Nat.sub_diag in T1. simpl in T1. rewrite app_nil_r in T1. apply T1.
        * destruct b; [congruence|simpl; lia].
        * rewrite app_length. simpl. unfold str in *. lia.
      + destruct (N2 (b ++ [n])) as (I & _); [congruence|]. apply prefixes_in in I. destruct I as (m & L1 & L2 & Eq).
        apply (f_equal (@length str)) in Eq. rewrite app_length, firstn_length in Eq. simpl in Eq. unfold str in *. lia. }
  assert (E2 : forall fs2, makedirs fs1 b = (fs2, Ok tt) -> exists_at fs1 b = false).
  { intros fs2 E. apply makedirs_spec in E. destruct E as (_ & _ & O2 & _). apply O2. auto. }
  destruct (makedirs fs1 b) as (fs2, r2) eqn:E.
  destruct (exists_at fs1 b) eqn:X.
  - destruct (listdir fs1 b) as [l|]; [destruct (0 <? length l)|]; simpl; try discriminate.
    intros ->. discriminate (E2 fs2 eq_refl).
  - simpl. intros ->. apply G. auto.
Qed.

Lemma make_dirs_nonempty fs p b n : dget fs b = Some true -> b <> [] -> present fs (b ++ [n]) ->
  (exists e, snd (make_dirs fs p b) = Err e) /\
  (exists_at fs p = true -> make_dirs fs p b = (fs, Err RuntimeError)) /\
  (forall x, dget (fst (make_dirs fs p b)) x <> dget fs x -> In x (prefixes p) /\ dget (fst (make_dirs fs p b)) x = Some true) /\
  (snd (makedirs fs p) = Ok tt -> snd (make_dirs fs p b) = Err RuntimeError).
Proof.
  intros Eb Nb (d & Ec). rewrite make_dirs_unfold. cbv zeta. destruct (project_part fs p) as (K & N & O). cbv zeta in *.
  assert (P1 : exists_at fs p = true -> (if exists_at fs p then (fs, Ok tt) else makedirs fs p) = (fs, Ok tt)) by (intros X; rewrite X; auto).
  assert (P2 : snd (makedirs fs p) = Ok tt -> snd (if exists_at fs p then (fs, Ok tt) else makedirs fs p) = Ok tt) by (destruct (exists_at fs p); auto).
  destruct (if exists_at fs p then (fs, Ok tt) else makedirs fs p) as (fs1, r1). simpl in K, N, O, P2.
  destruct r1 as [[]|e].
  2:{ split; [exists e; auto|]. split; [intros X; specialize (P1 X); discriminate|]. split; [auto|]. intros X. specialize (P2 X). discriminate. }
  assert (X1 : exists_at fs1 b = true) by (apply exists_present; auto; exists true; auto). rewrite X1.
  assert (LD : listdir fs1 b = Ok (filter (child_of b) (dkeys fs1))).
  { unfold listdir, is_dir. destruct b; [congruence|]. rewrite (K _ _ Eb). auto. }
  rewrite LD. assert (I : In (b ++ [n]) (filter (child_of b) (dkeys fs1))) by (apply present_child; exists d; auto).
  assert (L : (0 <? length (filter (child_of b) (dkeys fs1))) = true) by (destruct (filter _ _); [destruct I|auto]).
  rewrite L. simpl. split; [eauto|]. split; [intros X; specialize (P1 X); inversion P1; auto|]. auto.
Qed.

Lemma make_dirs_empty fs p b : dget fs b = Some true -> b <> [] -> exists_at fs p = true -> (forall n, ~ present fs (b ++ [n])) ->
  make_dirs fs p b = (fs, Err FileExistsError).
Proof.
  intros Eb Nb Xp NC. unfold make_dirs. rewrite Xp.
  assert (X1 : exists_at fs b = true) by (apply exists_present; auto; exists true; auto). rewrite X1.
  assert (LD : listdir fs b = Ok (filter (child_of b) (dkeys fs))).
  { unfold listdir, is_dir. destruct b; [congruence|]. rewrite Eb. auto. }
  rewrite LD. destruct (filter (child_of b) (dkeys fs)) as [|c l] eqn:F.
  - simpl. unfold makedirs. rewrite X1. auto.
  - exfalso. destruct (child_present fs b c) as (n & -> & P); [rewrite F; simpl; auto|]. apply (NC n P).
Qed.

(** The same directory for both never works. *)
Lemma make_dirs_same fs p e : snd (make_dirs fs p p) <> Ok e.
Proof.
  rewrite make_dirs_unfold. cbv zeta. destruct (project_part fs p) as (K & N & O). cbv zeta in *.
  destruct (if exists_at fs p then (fs, Ok tt) else makedirs fs p) as (fs1, r1). simpl in O. destruct r1 as [[]|]; [|discriminate].
  specialize (O eq_refl). rewrite O. destruct (listdir fs1 p) as [l|]; [destruct (0 <? length l)|]; simpl; try discriminate.
  unfold makedirs. rewrite O. discriminate.
Qed.
