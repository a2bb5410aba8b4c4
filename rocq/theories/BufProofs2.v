(** Proofs: dumping batches and reading them back. *)
From Coq Require Import Ascii String List Arith Bool Lia Permutation.
From Verif Require Import Prelude TreeModel MeshModel IoModel StlModel TreeProofs IoProofs WildModel WildSpec WildProofs WildProofs2 WildProofs3 WildProofs4 BufModel BufSpec BufProofs.
Import ListNotations.

Lemma dget_key {A} (d : dict str A) k : dget d k <> None <-> In k (dkeys d).
Proof.
  destruct (in_dec eq_dec k (dkeys d)) as [I|I]; split.
  - auto.
  - intros _ E. apply dget_None in E. contradiction.
  - intros N. exfalso. apply N. apply dget_None. auto.
  - intros I'. contradiction.
Qed.

Lemma fold_dset_keys {A} (ws : list (str * A)) : forall (fs : dict str A) k,
  In k (dkeys (fold_left (fun fs w => dset fs (fst w) (snd w)) ws fs)) <-> In k (dkeys fs) \/ In k (map fst ws).
Proof.
  induction ws as [|(p, a) ws IH]; intros fs k; [simpl; tauto|]. cbn [fold_left fst snd map]. rewrite IH.
  assert (X : In k (dkeys (dset fs p a)) <-> In k (dkeys fs) \/ p = k).
  { rewrite <- !dget_key. destruct (eq_dec k p) as [->|N].
    - rewrite dget_dset_same. split; [intros _; right; auto|intros _; discriminate].
    - rewrite dget_dset_other by auto. split; [auto|]. intros [X|X]; [auto|congruence]. }
  rewrite X. simpl. tauto.
Qed.

Lemma fold_dset_other {A} (ws : list (str * A)) : forall (fs : dict str A) k, ~ In k (map fst ws) ->
  dget (fold_left (fun fs w => dset fs (fst w) (snd w)) ws fs) k = dget fs k.
Proof.
  induction ws as [|(p, a) ws IH]; intros fs k N; [auto|]. cbn [fold_left fst snd]. rewrite IH by (intros I; apply N; simpl; auto).
  apply dget_dset_other. intros ->. apply N. simpl. auto.
Qed.

Lemma fold_dset_last {A} (w1 : list (str * A)) k a w2 (fs : dict str A) : ~ In k (map fst w2) ->
  dget (fold_left (fun fs w => dset fs (fst w) (snd w)) (w1 ++ (k, a) :: w2) fs) k = Some a.
Proof.
  intros N. rewrite fold_left_app. cbn [fold_left fst snd]. rewrite fold_dset_other by auto. apply dget_dset_same.
Qed.

Lemma dset_keys_new {A} (d : dict str A) k v : dkeys (dset d k v) = if in_dec eq_dec k (dkeys d) then dkeys d else dkeys d ++ [k].
Proof.
  induction d as [|(k', v') d IH]; [reflexivity|]. cbn [dset dkeys map fst].
  destruct (eq_dec k k') as [->|N].
  - destruct (in_dec eq_dec k' (k' :: map fst d)) as [|C]; [reflexivity|]. exfalso. apply C. simpl. auto.
  - cbn [map fst]. change (map fst (dset d k v)) with (dkeys (dset d k v)). rewrite IH. unfold dkeys.
    destruct (in_dec eq_dec k (map fst d)) as [I|I]; destruct (in_dec eq_dec k (k' :: map fst d)) as [J|J]; auto.
    + exfalso. apply J. simpl. auto.
    + exfalso. destruct J as [J|J]; [congruence|contradiction].
Qed.

Lemma fold_dset_nodup {A} (ws : list (str * A)) : forall (fs : dict str A), NoDup (dkeys fs) ->
  NoDup (dkeys (fold_left (fun fs w => dset fs (fst w) (snd w)) ws fs)).
Proof.
  induction ws as [|(p, a) ws IH]; intros fs N; [auto|]. cbn [fold_left fst snd]. apply IH. rewrite dset_keys_new.
  destruct (in_dec eq_dec p (dkeys fs)); auto. apply NoDup_snoc; auto.
Qed.

Lemma glob_names dir (ks names : list str) :
  Forall2 (fun p n => joins_to dir n p /\ ~ (exists t, n = "/"%char :: t)) ks names -> ks = map (app (base dir)) names.
Proof. induction 1 as [|p n ps ns (J & H) F IH]; [auto|]. apply joins_base in J; auto. subst p. cbn [map]. f_equal; auto. Qed.

Section Dump.
  Context {A : Type} (same_shape : A -> A -> bool) (name_ok : str -> bool) (OK : name_ok STEP = true) (dir : str).
  Context (Lp Le Lh : str) (Fp : file_stem Lp) (Fe : file_stem Le) (Fh : file_stem Lh).
  Context (Dpe : Lp <> Le) (Dph : Lp <> Lh) (Deh : Le <> Lh).
  Let pat := mkPat (step_pattern Lp) (step_pattern Le) (step_pattern Lh).
  Let path L n := base dir ++ fname L n.

  Lemma path_inj L L' n m : file_stem L -> file_stem L' -> path L n = path L' m -> L = L' /\ n = m.
  Proof. intros F F' E. apply app_inv_head in E. apply fname_inj; auto. Qed.

  Lemma save_ok L (buf : list A) init step fs a : file_stem L -> nth_error buf step = Some a ->
    save_step name_ok dir (step_pattern L) buf init step fs = Ok (dset fs (path L (init + step)) a).
  Proof.
    intros F E. unfold save_step. destruct (new_step name_ok L OK F) as (wp & W). rewrite W. cbn [rbind].
    rewrite (fill_step name_ok L wp dir _ F W). cbn [rbind]. rewrite E. unfold np_save, npy_name.
    replace (starts_with (rev NPY) (rev (base dir ++ fname L (step + init)))) with true.
    - rewrite (Nat.add_comm step init). reflexivity.
    - unfold fname. rewrite !rev_app_distr, <- !app_assoc. symmetry. apply starts_with_app.
  Qed.

  (** The writes of one batch. *)
  Definition rows (pos enr hit : list A) : list (A * A * A) := combine (combine pos enr) hit.
  Fixpoint row_writes (init : nat) (rs : list (A * A * A)) : list (str * A) :=
    match rs with
    | [] => []
    | (p, e, h) :: rs' => (path Lp init, p) :: (path Le init, e) :: (path Lh init, h) :: row_writes (S init) rs'
    end.

  Lemma dump_rows rs : forall pos0 enr0 hit0 init fs, length enr0 = length pos0 -> length hit0 = length pos0 ->
    foldM (fun fs step =>
      do fs1 <- save_step name_ok dir (step_pattern Lp) (pos0 ++ map (fun r => fst (fst r)) rs) init step fs;
      do fs2 <- save_step name_ok dir (step_pattern Le) (enr0 ++ map (fun r => snd (fst r)) rs) init step fs1;
      save_step name_ok dir (step_pattern Lh) (hit0 ++ map snd rs) init step fs2) (seq (length pos0) (length rs)) fs
    = Ok (fold_left (fun fs w => dset fs (fst w) (snd w)) (row_writes (init + length pos0) rs) fs).
  Proof.
    induction rs as [|((p, e), h) rs IH]; intros pos0 enr0 hit0 init fs L1 L2; [reflexivity|].
    cbn [length seq foldM map fst snd].
    rewrite (save_ok Lp _ init (length pos0) fs p Fp) by (rewrite nth_error_app2, Nat.sub_diag by lia; auto). cbn [rbind].
    rewrite (save_ok Le _ init (length pos0) _ e Fe) by (rewrite nth_error_app2, L1, Nat.sub_diag by lia; auto). cbn [rbind].
    rewrite (save_ok Lh _ init (length pos0) _ h Fh) by (rewrite nth_error_app2, L2, Nat.sub_diag by lia; auto). cbn [rbind].
    specialize (IH (pos0 ++ [p]) (enr0 ++ [e]) (hit0 ++ [h]) init). rewrite !app_length in IH. cbn [length] in IH.
    rewrite <- !app_assoc in IH. cbn [app] in IH. replace (length pos0 + 1) with (S (length pos0)) in IH by lia.
    rewrite IH by lia. cbn [row_writes fold_left fst snd]. replace (init + S (length pos0)) with (S (init + length pos0)) by lia. reflexivity.
  Qed.

  Lemma rows_split pos enr hit : length enr = length pos -> length hit = length pos ->
    map (fun r => fst (fst r)) (rows pos enr hit) = pos /\ map (fun r => snd (fst r)) (rows pos enr hit) = enr /\
    map snd (rows pos enr hit) = hit /\ length (rows pos enr hit) = length pos.
  Proof.
    unfold rows. revert enr hit. induction pos as [|p pos IH]; intros [|e enr] [|h hit] L1 L2; try discriminate; auto.
    simpl in *. destruct (IH enr hit) as (E1 & E2 & E3 & E4); try lia. rewrite E1, E2, E3, E4. auto.
  Qed.

  Lemma dump_ok pos enr hit init fs : length enr = length pos -> length hit = length pos ->
    dump_buffers name_ok pos enr hit dir pat init fs =
    Ok (fold_left (fun fs w => dset fs (fst w) (snd w)) (row_writes init (rows pos enr hit)) fs).
  Proof.
    intros L1 L2. destruct (rows_split pos enr hit L1 L2) as (E1 & E2 & E3 & E4).
    pose proof (dump_rows (rows pos enr hit) [] [] [] init fs eq_refl eq_refl) as D. cbn [app length] in D.
    rewrite E1, E2, E3, E4, Nat.add_0_r in D. exact D.
  Qed.

  Lemma row_writes_keys rs : forall init k, In k (map fst (row_writes init rs)) <->
    exists L n, In L [Lp; Le; Lh] /\ init <= n < init + length rs /\ k = path L n.
  Proof.
    induction rs as [|((p, e), h) rs IH]; intros init k; cbn [row_writes map fst length].
    - split; [intros []|]. intros (L & n & _ & B & _). lia.
    - cbn [In]. rewrite IH. split.
      + intros [<-|[<-|[<-|(L & n & I & B & ->)]]].
        * exists Lp, init. simpl. split; [auto|]. split; [lia|auto].
        * exists Le, init. simpl. split; [auto|]. split; [lia|auto].
        * exists Lh, init. simpl. split; [auto|]. split; [lia|auto].
        * exists L, n. split; auto. split; [lia|auto].
      + intros (L & n & I & B & ->). destruct (Nat.eq_dec n init) as [->|Ne].
        * destruct I as [<-|[<-|[<-|[]]]]; auto.
        * do 3 right. exists L, n. split; auto. split; [lia|auto].
  Qed.

  Definition nth_kind (L : str) (r : A * A * A) : A :=
    if eqb L Lp then fst (fst r) else if eqb L Le then snd (fst r) else snd r.

  (** One row among the writes of a batch: nothing later in the batch writes
      the same path. *)
  Lemma row_write rs : forall init j r L, nth_error rs j = Some r -> In L [Lp; Le; Lh] ->
    exists w1 w2, row_writes init rs = w1 ++ (path L (init + j), nth_kind L r) :: w2 /\ ~ In (path L (init + j)) (map fst w2).
  Proof.
    assert (PN : forall L L' n m, In L [Lp; Le; Lh] -> In L' [Lp; Le; Lh] -> path L n = path L' m -> L = L' /\ n = m).
    { intros L L' n m I I'. apply path_inj; [destruct I as [<-|[<-|[<-|[]]]]|destruct I' as [<-|[<-|[<-|[]]]]]; auto. }
    induction rs as [|((p, e), h) rs IH]; intros init j r L E I; [destruct j; discriminate|].
    destruct j as [|j]; cbn [nth_error] in E.
    - inversion E; subst r. rewrite Nat.add_0_r. cbn [row_writes].
      assert (TL : ~ In (path L init) (map fst (row_writes (S init) rs))).
      { intros C. apply row_writes_keys in C. destruct C as (L' & n & I' & B & C). apply PN in C; auto. lia. }
      unfold nth_kind. cbn [fst snd]. destruct I as [<-|[<-|[<-|[]]]].
      + rewrite eqb_refl. exists [], ((path Le init, e) :: (path Lh init, h) :: row_writes (S init) rs). split; auto.
        cbn [map fst]. intros [C|[C|C]]; auto; apply PN in C; simpl; auto; destruct C; congruence.
      + rewrite (eqb_neq Le Lp) by auto. rewrite eqb_refl. exists [(path Lp init, p)], ((path Lh init, h) :: row_writes (S init) rs). split; auto.
        cbn [map fst]. intros [C|C]; auto; apply PN in C; simpl; auto; destruct C; congruence.
      + rewrite (eqb_neq Lh Lp), (eqb_neq Lh Le) by auto. exists [(path Lp init, p); (path Le init, e)], (row_writes (S init) rs). split; auto.
    - destruct (IH (S init) j r L E I) as (w1 & w2 & Ew & Nw). cbn [row_writes]. rewrite Ew.
      replace (init + S j) with (S init + j) by lia.
      exists ((path Lp init, p) :: (path Le init, e) :: (path Lh init, h) :: w1), w2. split; auto.
  Qed.

  (** All batches. *)
  Definition batch_rows (b : list A * list A * list A) : list (A * A * A) := rows (fst (fst b)) (snd (fst b)) (snd b).
  Fixpoint all_writes (size : nat) (batches : list (list A * list A * list A)) (step : nat) : list (str * A) :=
    match batches with
    | [] => []
    | b :: batches' => row_writes step (batch_rows b) ++ all_writes size batches' (step + size)
    end.

  Definition full (size : nat) (b : list A * list A * list A) : Prop :=
    length (fst (fst b)) = S size /\ length (snd (fst b)) = S size /\ length (snd b) = S size.

  Lemma run_ok size batches : Forall (full size) batches -> forall step fs,
    run_dumps name_ok dir pat size batches step fs =
    Ok (fold_left (fun fs w => dset fs (fst w) (snd w)) (all_writes size batches step) fs).
  Proof.
    induction 1 as [|((pos, enr), hit) batches (F1 & F2 & F3) FA IH]; intros step fs; [reflexivity|].
    cbn [run_dumps all_writes fst snd] in *. rewrite dump_ok by lia. cbn [rbind]. rewrite IH, fold_left_app. reflexivity.
  Qed.

  Lemma batch_length size b : full size b -> length (batch_rows b) = S size.
  Proof. intros (F1 & F2 & F3). unfold batch_rows. destruct (rows_split (fst (fst b)) (snd (fst b)) (snd b)) as (_ & _ & _ & E); lia. Qed.

  Lemma all_writes_keys size batches : Forall (full size) batches -> 0 < size -> forall step k,
    In k (map fst (all_writes size batches step)) <->
    exists L n, In L [Lp; Le; Lh] /\ batches <> [] /\ step <= n <= step + length batches * size /\ k = path L n.
  Proof.
    intros F S0. induction F as [|b batches Fb F IH]; intros step k; cbn [all_writes map].
    - split; [intros []|]. intros (L & n & _ & C & _). congruence.
    - rewrite map_app, in_app_iff, row_writes_keys, IH, (batch_length size b Fb). cbn [length]. split.
      + intros [(L & n & I & B & ->)|(L & n & I & C & B & ->)]; exists L, n.
        * split; auto. split; [discriminate|]. split; [|auto]. split; [lia|]. rewrite Nat.mul_succ_l. lia.
        * split; auto. split; [discriminate|]. split; [lia|auto].
      + intros (L & n & I & _ & B & ->). destruct (le_lt_dec n (step + size)) as [Ln|Ln].
        * left. exists L, n. split; auto. split; [lia|auto].
        * right. exists L, n. split; auto. split; [|split; [lia|auto]]. intros ->. cbn [length] in B. lia.
  Qed.

  Lemma all_write size batches : Forall (full size) batches -> 0 < size -> forall step i b j r L,
    nth_error batches i = Some b -> nth_error (batch_rows b) j = Some r -> In L [Lp; Le; Lh] ->
    (forall i', i < i' < length batches -> i * size + j < i' * size) ->
    exists w1 w2, all_writes size batches step = w1 ++ (path L (step + i * size + j), nth_kind L r) :: w2 /\
                  ~ In (path L (step + i * size + j)) (map fst w2).
  Proof.
    intros F S0. induction F as [|b0 batches Fb F IH]; intros step i b j r L Ei Ej I Later; [destruct i; discriminate|].
    destruct i as [|i]; cbn [nth_error] in Ei.
    - inversion Ei; subst b0. cbn [all_writes]. destruct (row_write (batch_rows b) step j r L Ej I) as (w1 & w2 & E & N).
      replace (step + 0 * size + j) with (step + j) by lia.
      exists w1, (w2 ++ all_writes size batches (step + size)). rewrite E, <- app_assoc. split; auto.
      rewrite map_app, in_app_iff. intros [C|C]; auto. apply (all_writes_keys size batches F S0) in C.
      destruct C as (L' & n & I' & NE & B & C). apply path_inj in C.
      + destruct C as (_ & C). specialize (Later 1). cbn [length] in Later. destruct batches; [congruence|]. cbn [length] in Later. lia.
      + destruct I as [<-|[<-|[<-|[]]]]; auto.
      + destruct I' as [<-|[<-|[<-|[]]]]; auto.
    - cbn [all_writes]. destruct (IH (step + size) i b j r L Ei Ej I) as (w1 & w2 & E & N).
      { intros i' B. specialize (Later (S i')). cbn [length] in Later. cbn [Nat.mul] in Later. lia. }
      rewrite E. exists (row_writes step (batch_rows b0) ++ w1), w2. rewrite <- app_assoc.
      replace (step + S i * size + j) with (step + size + i * size + j) by (cbn [Nat.mul]; lia). auto.
  Qed.

  (** Every step of a run has a last writer. *)
  Lemma last_writer size batches n : Forall (full size) batches -> 0 < size -> batches <> [] -> n <= length batches * size ->
    exists i j b, nth_error batches i = Some b /\ j <= size /\ n = i * size + j /\
      (forall i', i < i' < length batches -> n < i' * size) /\ (j = size -> S i = length batches).
  Proof.
    intros F S0 NE B. destruct (Nat.eq_dec n (length batches * size)) as [E|Ne].
    - assert (Lb : 0 < length batches) by (destruct batches; [congruence|simpl; lia]).
      destruct (nth_error batches (length batches - 1)) as [b|] eqn:Eb; [|apply nth_error_None in Eb; lia].
      exists (length batches - 1), size, b. split; auto. split; auto. split; [|split; [intros; lia|lia]].
      rewrite E. replace (length batches) with (S (length batches - 1)) at 1 by lia. cbn [Nat.mul]. lia.
    - pose proof (Nat.div_mod n size ltac:(lia)) as DM. pose proof (Nat.mod_upper_bound n size ltac:(lia)) as MB.
      assert (Q : n / size < length batches) by (apply Nat.div_lt_upper_bound; nia).
      destruct (nth_error batches (n / size)) as [b|] eqn:Eb; [|apply nth_error_None in Eb; lia].
      exists (n / size), (n mod size), b. split; auto. split; [lia|]. split; [lia|]. split; [|lia]. intros i' B'. nia.
  Qed.

  Lemma load_ok L wp fs n a : file_stem L -> new_wpath name_ok (step_pattern L) = Ok wp -> dget fs (path L n) = Some a ->
    load_step (A := A) fs wp dir n = Ok a.
  Proof. intros F W E. unfold load_step, np_load. rewrite (fill_step name_ok L wp dir n F W). cbn [rbind]. match goal with |- match ?x with _ => _ end = _ => assert (E2 : x = Some a) by exact E end. rewrite E2. auto. Qed.

  Lemma mapM_ok {X Y} (f : X -> result Y) (g : X -> Y) l : (forall x, In x l -> f x = Ok (g x)) -> mapM f l = Ok (map g l).
  Proof.
    induction l as [|x l IH]; intros E; auto. cbn [mapM map]. rewrite (E x) by (simpl; auto). cbn [rbind].
    rewrite IH by (intros; apply E; simpl; auto). auto.
  Qed.

  (** Reading a directory that holds the steps 0..N of all three kinds. *)
  Lemma read_ok fs listing N (row : nat -> A * A * A) :
    ~ In NL dir -> NoDup (dkeys fs) ->
    (forall k, In k (dkeys fs) <-> exists L n, In L [Lp; Le; Lh] /\ n <= N /\ k = path L n) ->
    (forall n L, n <= N -> In L [Lp; Le; Lh] -> dget fs (path L n) = Some (nth_kind L (row n))) ->
    glob_of dir fs listing ->
    (forall n m, n <= N -> m <= N -> same_shape (fst (fst (row n))) (fst (fst (row m))) = true /\
       same_shape (snd (fst (row n))) (snd (fst (row m))) = true /\ same_shape (snd (row n)) (snd (row m)) = true) ->
    read_buffers same_shape name_ok fs listing dir pat =
    Ok (map (fun n => fst (fst (row n))) (seq 0 (N + 1)), map (fun n => snd (fst (row n))) (seq 0 (N + 1)), map (fun n => snd (row n)) (seq 0 (N + 1))).
  Proof.
    intros ND NDk K G (pre & names & NP & F2 & P) SH.
    assert (NM : dkeys fs = map (app (base dir)) names) by exact (glob_names dir (dkeys fs) names F2).
    assert (NDn : NoDup names) by (apply (NoDup_map_inv (app (base dir))); rewrite <- NM; auto).
    assert (NDl : NoDup listing).
    { apply (Permutation_NoDup (Permutation_sym P)). apply FinFun.Injective_map_NoDup; auto. intros x y E. apply app_inv_head in E. auto. }
    assert (Stem : forall L, In L [Lp; Le; Lh] -> file_stem L) by (intros L [<-|[<-|[<-|[]]]]; auto).
    assert (LI : forall p, In p listing <-> exists L n, In L [Lp; Le; Lh] /\ n <= N /\ p = pre ++ fname L n).
    { intros p. rewrite (Permutation_in' eq_refl P), in_map_iff. split.
      - intros (n & <- & I). assert (Ik : In (base dir ++ n) (dkeys fs)) by (rewrite NM; apply in_map; auto).
        apply K in Ik. destruct Ik as (L & m & IL & B & E). apply app_inv_head in E. subst n. eauto.
      - intros (L & n & IL & B & ->). assert (Ik : In (path L n) (dkeys fs)) by (apply K; eauto).
        rewrite NM in Ik. apply in_map_iff in Ik. destruct Ik as (x & E & I). apply app_inv_head in E. subst x. eauto. }
    assert (MX : forall L wp, In L [Lp; Le; Lh] -> new_wpath name_ok (step_pattern L) = Ok wp ->
      exists D, dict_values wp listing = Ok D /\ length D <> 0 /\ max_step D = Ok (N + 1)).
    { intros L wp IL W. apply (max_found L wp name_ok listing N pre); auto.
      - intros p Ip. apply LI in Ip. destruct Ip as (L' & n & IL' & B & ->). exists L', n. auto.
      - apply LI. exists L, N. auto. }
    destruct (new_step name_ok Lp OK Fp) as (wp & Wp). destruct (new_step name_ok Le OK Fe) as (we & We). destruct (new_step name_ok Lh OK Fh) as (wh & Wh).
    destruct (MX Lp wp) as (Dp & Ep & Np & Mp); [simpl; auto|auto|]. destruct (MX Le we) as (De & Ee & Ne & Me); [simpl; auto|auto|].
    destruct (MX Lh wh) as (Dh & Eh & Nh & Mh); [simpl; auto|auto|].
    unfold read_buffers, pat. cbn [position_file energy_file hits_file].
    rewrite Wp. cbn [rbind]. rewrite We. cbn [rbind]. rewrite Wh. cbn [rbind].
    rewrite Ep. cbn [rbind]. rewrite Ee. cbn [rbind]. rewrite Eh. cbn [rbind].
    apply Nat.eqb_neq in Np, Ne, Nh. rewrite Np, Ne, Nh. rewrite Mp. cbn [rbind]. rewrite Me. cbn [rbind]. rewrite Mh. cbn [rbind].
    rewrite Nat.eqb_refl. cbn [andb].
    rewrite (mapM_ok _ row).
    2:{ intros n In_. apply in_seq in In_. rewrite (load_ok Lp wp fs n _ Fp Wp (G n Lp ltac:(lia) ltac:(simpl; auto))). cbn [rbind].
        rewrite (load_ok Le we fs n _ Fe We (G n Le ltac:(lia) ltac:(simpl; auto))). cbn [rbind].
        rewrite (load_ok Lh wh fs n _ Fh Wh (G n Lh ltac:(lia) ltac:(simpl; auto))). cbn [rbind].
        unfold nth_kind. rewrite eqb_refl. rewrite (eqb_neq Le Lp) by auto. rewrite eqb_refl. rewrite (eqb_neq Lh Lp), (eqb_neq Lh Le) by auto.
        destruct (row n) as ((x, y), z). reflexivity. }
    cbn [rbind]. replace (N + 1) with (S N) by lia. cbn [seq map]. destruct (row 0) as ((p0, e0), h0) eqn:R0.
    rewrite <- R0. change (row 0 :: map row (seq 1 N)) with (map row (seq 0 (S N))).
    replace (forallb _ (map row (seq 0 (S N)))) with true.
    - rewrite !map_map. reflexivity.
    - symmetry. apply forallb_forall. intros r Ir. apply in_map_iff in Ir. destruct Ir as (n & <- & In_). apply in_seq in In_.
      destruct (SH 0 n) as (S1 & S2 & S3); try lia. rewrite R0 in S1, S2, S3. cbn [fst snd] in S1, S2, S3. rewrite S1, S2, S3. reflexivity.
  Qed.

  (** Dumping all batches of a run into an empty directory and reading. *)
  Lemma run_read size batches :
    0 < size -> batches <> [] -> Forall (full size) batches -> ~ In NL dir ->
    (forall b b' a a', In b batches -> In b' batches -> In a (fst (fst b)) -> In a' (fst (fst b')) -> same_shape a a' = true) ->
    (forall b b' a a', In b batches -> In b' batches -> In a (snd (fst b)) -> In a' (snd (fst b')) -> same_shape a a' = true) ->
    (forall b b' a a', In b batches -> In b' batches -> In a (snd b) -> In a' (snd b') -> same_shape a a' = true) ->
    exists fs, run_dumps name_ok dir pat size batches 0 [] = Ok fs /\
      NoDup (dkeys fs) /\ length fs = 3 * (length batches * size + 1) /\
      forall listing, glob_of dir fs listing -> exists pos enr hit,
        read_buffers same_shape name_ok fs listing dir pat = Ok (pos, enr, hit) /\
        length pos = length batches * size + 1 /\ length enr = length batches * size + 1 /\ length hit = length batches * size + 1 /\
        (forall n a, nth_error pos n = Some a -> last_written size (map (fun b => fst (fst b)) batches) n a) /\
        (forall n a, nth_error enr n = Some a -> last_written size (map (fun b => snd (fst b)) batches) n a) /\
        (forall n a, nth_error hit n = Some a -> last_written size (map snd batches) n a).
  Proof.
    intros S0 NE F ND SH1 SH2 SH3. eexists. split; [apply run_ok; auto|].
    set (N := length batches * size). set (fs := fold_left _ _ _).
    assert (NDk : NoDup (dkeys fs)) by (apply fold_dset_nodup; constructor).
    assert (K : forall k, In k (dkeys fs) <-> exists L n, In L [Lp; Le; Lh] /\ n <= N /\ k = path L n).
    { intros k. unfold fs. rewrite fold_dset_keys, (all_writes_keys size batches F S0). cbn [dkeys map In]. split.
      - intros [[]|(L & n & I & _ & B & ->)]. exists L, n. split; auto. split; [lia|auto].
      - intros (L & n & I & B & ->). right. exists L, n. split; auto. split; auto. split; [lia|auto]. }
    assert (CH : forall n, exists r, n <= N -> (forall L, In L [Lp; Le; Lh] -> dget fs (path L n) = Some (nth_kind L r)) /\
       exists i j b, nth_error batches i = Some b /\ nth_error (batch_rows b) j = Some r /\ n = i * size + j /\ (forall i', i < i' < length batches -> n < i' * size)).
    { intros n. destruct (le_lt_dec n N) as [B|B].
      - destruct (last_writer size batches n F S0 NE B) as (i & j & b & Eb & Bj & En & Lt & _).
        assert (Fb : full size b) by (rewrite Forall_forall in F; apply F; apply nth_error_In with i; auto).
        destruct (nth_error (batch_rows b) j) as [r|] eqn:Er; [|apply nth_error_None in Er; rewrite (batch_length size b Fb) in Er; lia].
        exists r. intros _. split.
        + intros L IL. destruct (all_write size batches F S0 0 i b j r L Eb Er IL) as (w1 & w2 & E & Nw).
          { intros i' Bi. specialize (Lt i' Bi). lia. }
          cbn [Nat.add] in E, Nw. rewrite <- En in E, Nw. unfold fs. rewrite E. apply fold_dset_last. auto.
        + exists i, j, b. auto.
      - destruct batches as [|b bs]; [congruence|]. inversion F; subst. destruct (batch_rows b) as [|r rs] eqn:Er.
        + pose proof (batch_length size b H1) as X. rewrite Er in X. discriminate.
        + exists r. lia. }
    assert (CH2 : exists row : nat -> A * A * A, forall n, n <= N -> (forall L, In L [Lp; Le; Lh] -> dget fs (path L n) = Some (nth_kind L (row n))) /\
       exists i j b, nth_error batches i = Some b /\ nth_error (batch_rows b) j = Some (row n) /\ n = i * size + j /\ (forall i', i < i' < length batches -> n < i' * size)).
    { destruct (CH 0) as (r0 & _).
      assert (Fin : forall M, M <= N -> exists row : nat -> A * A * A, forall n, n <= M -> (forall L, In L [Lp; Le; Lh] -> dget fs (path L n) = Some (nth_kind L (row n))) /\
       exists i j b, nth_error batches i = Some b /\ nth_error (batch_rows b) j = Some (row n) /\ n = i * size + j /\ (forall i', i < i' < length batches -> n < i' * size)).
      { induction M as [|M IH]; intros BM.
        - destruct (CH 0) as (r & H). exists (fun _ => r). intros n Bn. replace n with 0 by lia. apply H. lia.
        - destruct IH as (row & H); [lia|]. destruct (CH (S M)) as (r & H'). exists (fun n => if n =? S M then r else row n).
          intros n Bn. destruct (Nat.eqb_spec n (S M)) as [->|]; [apply H'; auto|apply H; lia]. }
      apply (Fin N). auto. }
    destruct CH2 as (row & R).
    assert (IN : forall n, n <= N -> exists b, In b batches /\ In (fst (fst (row n))) (fst (fst b)) /\ In (snd (fst (row n))) (snd (fst b)) /\ In (snd (row n)) (snd b)).
    { intros n B. destruct (R n B) as (_ & i & j & b & Eb & Er & _). exists b. assert (Ib := nth_error_In _ _ Eb).
      assert (Fb : full size b) by (rewrite Forall_forall in F; auto). destruct Fb as (F1 & F2 & F3).
      destruct (rows_split (fst (fst b)) (snd (fst b)) (snd b)) as (E1 & E2 & E3 & _); try lia. apply nth_error_In in Er. unfold batch_rows in Er.
      split; [exact Ib|]. split; [|split].
      - apply (in_map (fun r => fst (fst r))) in Er. rewrite E1 in Er. exact Er.
      - apply (in_map (fun r => snd (fst r))) in Er. rewrite E2 in Er. exact Er.
      - apply (in_map snd) in Er. rewrite E3 in Er. exact Er. }
    split; auto. split.
    { rewrite <- (map_length fst). change (map fst fs) with (dkeys fs).
      assert (PM : Permutation (dkeys fs) (flat_map (fun L => map (path L) (seq 0 (N + 1))) [Lp; Le; Lh])).
      { apply NoDup_Permutation; auto.
        - assert (NDm : forall L, file_stem L -> NoDup (map (path L) (seq 0 (N + 1)))).
          { intros L FL. apply FinFun.Injective_map_NoDup; [|apply seq_NoDup]. intros x y E. apply path_inj in E; auto. apply E. }
          cbn [flat_map]. rewrite app_nil_r.
          assert (DJ : forall L L' x, file_stem L -> file_stem L' -> L <> L' -> In x (map (path L) (seq 0 (N + 1))) -> ~ In x (map (path L') (seq 0 (N + 1)))).
          { intros L L' x FL FL' D I I'. apply in_map_iff in I, I'. destruct I as (n & <- & _). destruct I' as (m & E & _). apply path_inj in E; auto. destruct E; congruence. }
          assert (NA : forall (l1 l2 : list str), NoDup l1 -> NoDup l2 -> (forall x, In x l1 -> ~ In x l2) -> NoDup (l1 ++ l2)).
          { intros l1 l2 N1 N2 D. induction N1 as [|x l1 NI N1 IH]; auto. simpl. constructor.
            - intros C. apply in_app_iff in C. destruct C as [C|C]; auto. apply (D x); simpl; auto.
            - apply IH. intros y Iy. apply D. simpl. auto. }
          apply NA; auto. { apply NA; auto. intros x. apply DJ; auto. }
          intros x I C. apply in_app_iff in C. destruct C as [C|C]; revert C; apply DJ with (L := Lp); auto.
        - intros k. rewrite K, in_flat_map. split.
          + intros (L & n & IL & B & ->). exists L. split; auto. apply in_map. apply in_seq. lia.
          + intros (L & IL & I). apply in_map_iff in I. destruct I as (n & <- & I). apply in_seq in I. exists L, n. split; auto. split; [lia|auto]. }
      rewrite (Permutation_length PM). cbn [flat_map]. rewrite !app_length, !map_length, seq_length. cbn [length]. lia. }
    intros listing GL.
    rewrite (read_ok fs listing N row); auto.
    2:{ intros n L B IL. apply (R n B). auto. }
    2:{ intros n m Bn Bm. destruct (IN n Bn) as (b & Ib & I1 & I2 & I3). destruct (IN m Bm) as (b' & Ib' & J1 & J2 & J3).
        split; [apply (SH1 b b'); auto|]. split; [apply (SH2 b b'); auto|apply (SH3 b b'); auto]. }
    do 3 eexists. split; [reflexivity|]. rewrite !map_length, seq_length. split; [auto|]. split; [auto|]. split; [auto|].
    assert (X : forall (f : A * A * A -> A) (g : list A * list A * list A -> list A),
      (forall b, In b batches -> map f (batch_rows b) = g b) ->
      forall n a, nth_error (map (fun n => f (row n)) (seq 0 (N + 1))) n = Some a -> last_written size (map g batches) n a).
    { intros f g FG n a E.
      assert (B : n < N + 1) by (assert (X : n < length (map (fun n => f (row n)) (seq 0 (N + 1)))) by (apply nth_error_Some; congruence); rewrite map_length, seq_length in X; auto).
      assert (E' : nth_error (map (fun n => f (row n)) (seq 0 (N + 1))) n = Some (f (row n))).
      { apply (map_nth_error (fun n => f (row n))). rewrite nth_error_nth' with (d := 0) by (rewrite seq_length; auto). rewrite seq_nth by auto. auto. }
      rewrite E' in E. inversion E; subst a.
      destruct (R n ltac:(lia)) as (_ & i & j & b & Eb & Er & En & Lt). exists i, j, (g b).
      split; [apply map_nth_error; auto|]. split; [|split; auto].
      - rewrite <- (FG b) by (apply nth_error_In with i; auto). apply map_nth_error. auto.
      - rewrite map_length. auto. }
    assert (RS : forall b, In b batches -> map (fun r => fst (fst r)) (batch_rows b) = fst (fst b) /\ map (fun r => snd (fst r)) (batch_rows b) = snd (fst b) /\ map snd (batch_rows b) = snd b).
    { intros b Ib. rewrite Forall_forall in F. destruct (F b Ib) as (F1 & F2 & F3).
      destruct (rows_split (fst (fst b)) (snd (fst b)) (snd b)) as (E1 & E2 & E3 & _); try lia. auto. }
    split; [|split].
    - apply (X (fun r => fst (fst r)) (fun b => fst (fst b))). intros b Ib. apply RS. auto.
    - apply (X (fun r => snd (fst r)) (fun b => snd (fst b))). intros b Ib. apply RS. auto.
    - apply (X snd snd). intros b Ib. apply RS. auto.
  Qed.
End Dump.

(** With chained batches the state last written for a step is the state every
    batch that has the step holds. *)
Lemma chained_lossless {A} size (bufs : list (list A)) n a i j buf : 0 < size -> chained size bufs ->
  (forall b, In b bufs -> length b = S size) -> last_written size bufs n a ->
  nth_error bufs i = Some buf -> j <= size -> n = i * size + j -> nth_error buf j = Some a.
Proof.
  intros S0 CH LN (i0 & j0 & b0 & E0 & Ej0 & En & Lt) Ei Bj Hn.
  assert (B0 : j0 <= size).
  { assert (j0 < length b0) by (apply nth_error_Some; congruence). rewrite (LN b0) in H by (apply nth_error_In with i0; auto). lia. }
  assert (Bi : i < length bufs) by (apply nth_error_Some; congruence).
  assert (Bi0 : i0 < length bufs) by (apply nth_error_Some; congruence).
  destruct (lt_eq_lt_dec i i0) as [[C|C]|C].
  - assert (i0 = S i) by nia. subst i0. assert (j = size /\ j0 = 0) by nia. destruct H as (-> & ->).
    rewrite (CH i buf b0); auto.
  - subst i0. assert (j = j0) by lia. congruence.
  - specialize (Lt i ltac:(lia)). lia.
Qed.
