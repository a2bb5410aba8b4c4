(** Proofs about files written. *)
From Coq Require Import Ascii String List Arith Bool Lia.
From Verif Require Import Prelude TreeModel MeshModel IoModel StlModel WildModel WildSpec WildProofs DirModel DirSpec DirProofs DirProofs2 SaveModel SaveSpec.
Import ListNotations.

Lemma path_parts s ns : file_path s ns -> parts s = ns.
Proof.
  destruct 1 as [s p T|s p T].
  - pose proof (parts_join [] s p T) as H. exact H.
  - pose proof (parts_join (str_of "/") s p T) as H. destruct (tidy_start s p T) as (c & t & E & N).
    unfold path_join in H. assert (S0 : starts_with (str_of "/") s = false) by (rewrite E; apply (starts_head "/"%char [] c t); congruence).
    rewrite S0 in H. exact H.
Qed.
Lemma path_nonempty s ns : file_path s ns -> ns <> [].
Proof. destruct 1 as [s p T|s p T]; [apply (tidy_nonempty s p T)|discriminate]. Qed.
Lemma path_not_root s ns : file_path s ns -> ns <> [str_of "/"].
Proof.
  destruct 1 as [s p T|s p T]; intros E.
  - apply tidy_noslash in T. rewrite E in T. inversion T as [|? ? H]. apply H. left. reflexivity.
  - inversion E. subst p. apply (tidy_nonempty s [] T). auto.
Qed.
Lemma path_parent s ns : file_path s ns -> exists x, ns = parent_of ns ++ [x].
Proof.
  intros T. pose proof (path_nonempty s ns T) as N. pose proof (path_not_root s ns T) as R. unfold parent_of.
  rewrite (eqb_neq ns [str_of "/"]) by auto. exists (last ns []). apply app_removelast_last. auto.
Qed.
Lemma parent_leads s ns q : file_path s ns -> leads_to q (parent_of ns) <-> leads_above q ns.
Proof. intros T. destruct (path_parent s ns T) as (x & E). rewrite E at 2. symmetry. apply leads_snoc. Qed.

(** Looking up the directories above. *)
Lemma lookup_ready fs p : (forall q, leads_above q p -> kind_of fs q = Some IsDir) -> lookup_dirs fs p = None.
Proof.
  intros D. unfold lookup_dirs. destruct (find _ (above p)) as [r|] eqn:F; auto.
  apply find_some in F. destruct F as (I & E). apply in_above, D, is_dir_true in I. rewrite I in E. discriminate.
Qed.
Lemma lookup_os fs p : os_mkdir fs p = match lookup_dirs fs p with
  | Some e => Failed e
  | None => match kind_of fs p with None => Done (dset fs p IsDir) | Some _ => Failed OsExists end end.
Proof. unfold os_mkdir, lookup_dirs. destruct (find _ (above p)) as [r|]; auto. Qed.
Lemma lookup_under fs p q : fs_ok fs -> leads_above q p -> kind_of fs q = Some IsFile -> lookup_dirs fs p = Some OsNotADir.
Proof.
  intros W L K. pose proof (os_mkdir_under fs p q W L K) as H. rewrite lookup_os in H.
  destruct (lookup_dirs fs p) as [e|]; [inversion H; auto|]. destruct (kind_of fs p); discriminate.
Qed.
Lemma lookup_missing fs p q : leads_above q p -> kind_of fs q = None -> (forall r, leads_above r p -> kind_of fs r <> Some IsFile) ->
  lookup_dirs fs p = Some OsNotFound.
Proof.
  intros L K N. unfold lookup_dirs. destruct (find _ (above p)) as [r|] eqn:F.
  - apply find_some in F. destruct F as (I & E). apply negb_true_iff, is_dir_false in E. apply in_above, N in I.
    destruct (kind_of fs r) as [[|]|]; congruence.
  - exfalso. apply in_above in L. apply (find_none _ _ F) in L. apply negb_false_iff, is_dir_true in L. congruence.
Qed.

(** Making the parent. *)
Lemma mkdir_new_made fs p : fs_ok fs -> kind_of fs p = None -> (forall q, leads_to q p -> kind_of fs q <> Some IsFile) ->
  exists fs', path_mkdir_new fs p = Done fs' /\ fs_ok fs' /\ made fs fs' p.
Proof.
  intros W K N. destruct (not_fixed fs p K) as (A & B).
  assert (Ep : exists x, p = parent_of p ++ [x]).
  { unfold parent_of. rewrite (eqb_neq p [str_of "/"]) by auto. exists (last p []). apply app_removelast_last. auto. }
  destruct Ep as (x & Ep). assert (LP : forall q, leads_above q p <-> leads_to q (parent_of p)) by (intros q; rewrite Ep at 1; apply leads_snoc).
  unfold path_mkdir_new.
  destruct (find (fun q => negb (is_dir fs q)) (above p)) as [q|] eqn:F.
  - apply find_some in F. destruct F as (I & E). apply in_above in I. apply negb_true_iff, is_dir_false in E.
    assert (Kq : kind_of fs q = None).
    { assert (kind_of fs q <> Some IsFile) by (apply N, leads_cases; auto). destruct (kind_of fs q) as [[|]|]; congruence. }
    rewrite (os_mkdir_missing fs p q) by auto.
    destruct (path_mkdir_made fs (parent_of p) W) as (fs1 & E1 & W1 & M1 & M2).
    { intros r L. apply N, leads_cases. right. apply LP. auto. }
    rewrite E1.
    assert (K1 : kind_of fs1 p = None).
    { rewrite M2; auto. intros C. apply LP in C. apply (not_above_self p). auto. }
    assert (D1 : forall q, leads_above q p -> kind_of fs1 q = Some IsDir) by (intros r L; apply M1, LP; auto).
    rewrite os_mkdir_ready, K1 by auto. destruct (add_dir fs1 p W1 K1 D1) as (W' & M3 & M4). eexists. split; [reflexivity|]. split; auto. split; auto.
    intros r L. rewrite M4 by auto. apply M2. intros C. apply L. apply leads_cases. right. apply LP. auto.
  - assert (D : forall q, leads_above q p -> kind_of fs q = Some IsDir).
    { intros q L. apply in_above in L. apply (find_none _ _ F) in L. apply negb_false_iff, is_dir_true in L. auto. }
    rewrite os_mkdir_ready, K by auto. destruct (add_dir fs p W K D) as (W' & M). eexists. split; [reflexivity|]. auto.
Qed.
Lemma mkdir_new_under fs p q : fs_ok fs -> leads_above q p -> kind_of fs q = Some IsFile -> path_mkdir_new fs p = Failed OsNotADir.
Proof. intros W L K. unfold path_mkdir_new. rewrite (os_mkdir_under fs p q) by auto. auto. Qed.

(** Adding a file. *)
Lemma kind_dset_file fs p q k : p <> [] -> p <> [str_of "/"] -> kind_of (dset fs p k) q = if eq_dec q p then Some k else kind_of fs q.
Proof.
  intros A B. destruct (eq_dec q p) as [->|N].
  - rewrite kind_listed by auto. apply dget_dset_same.
  - destruct (fixed_dec q) as [F|(C & D)]; [rewrite !kind_fixed by auto; auto|].
    rewrite !kind_listed by auto. apply dget_dset_other. auto.
Qed.
Lemma add_file fs p : fs_ok fs -> kind_of fs p <> Some IsDir -> (forall q, leads_above q p -> kind_of fs q = Some IsDir) -> fs_ok (dset fs p IsFile).
Proof.
  intros W K D. pose proof W as (ND & N1 & N2 & U).
  assert (A : p <> [] /\ p <> [str_of "/"]) by (destruct (fixed_dec p) as [F|F]; auto; rewrite kind_fixed in K by auto; congruence). destruct A as (A & B).
  split; [apply NoDup_dset; auto|]. split; [|split].
  - intros I. apply dkeys_dset in I. destruct I as [E|I]; [congruence|auto].
  - intros I. apply dkeys_dset in I. destruct I as [E|I]; [congruence|auto].
  - intros r q I L. rewrite kind_dset_file by auto. destruct (eq_dec q p) as [E|N].
    + exfalso. subst q. apply dkeys_dset in I. destruct I as [->|I]; [apply (not_above_self p); auto|]. apply K. apply (U r); auto.
    + apply dkeys_dset in I. destruct I as [->|I]; auto. apply (U r); auto.
Qed.

Section Save.
  Context {C : Type}.
  Implicit Types st : disk C.

  Lemma put_written st p c : disk_ok st -> kind_of (d_fs st) p <> Some IsDir -> (forall q, leads_above q p -> kind_of (d_fs st) q = Some IsDir) ->
    exists st', put_file st p c = (st', None) /\ disk_ok st' /\ written st st' p c.
  Proof.
    intros (W & DC) K D. unfold put_file. rewrite lookup_ready by auto.
    assert (A : p <> [] /\ p <> [str_of "/"]) by (destruct (fixed_dec p) as [F|F]; auto; rewrite kind_fixed in K by auto; congruence). destruct A as (A & B).
    assert (E : match kind_of (d_fs st) p with Some IsDir => (st, Some IoIsADir) | _ => (mkDisk (dset (d_fs st) p IsFile) (dset (d_data st) p c), None) end = (mkDisk (dset (d_fs st) p IsFile) (dset (d_data st) p c), None)).
    { destruct (kind_of (d_fs st) p) as [[|]|]; congruence. }
    rewrite E. eexists. split; [reflexivity|]. split.
    - split; cbn [d_fs d_data]; [apply add_file; auto|]. intros q Kq. rewrite kind_dset_file in Kq by auto.
      destruct (eq_dec q p) as [->|N]; [rewrite dget_dset_same; discriminate|rewrite dget_dset_other by auto; auto].
    - unfold written. cbn [d_fs d_data]. repeat split.
      + rewrite kind_dset_file by auto. destruct (eq_dec p p); congruence.
      + apply dget_dset_same.
      + intros q L. rewrite kind_dset_file by auto. destruct (eq_dec q p) as [->|N]; auto. exfalso. apply (not_above_self p). auto.
      + intros q L. rewrite kind_dset_file by auto. destruct (eq_dec q p) as [->|N]; auto. exfalso. apply L. exists []. symmetry. apply app_nil_r.
      + intros q N. apply dget_dset_other. auto.
  Qed.

  Lemma load_written st st' s p c : disk_ok st' -> file_path s p -> written st st' p c -> load st' s = inl c.
  Proof.
    intros _ T (K & D & A & _). unfold load. rewrite (path_parts s p T), lookup_ready, K, D by auto. auto.
  Qed.

  (** The parent directories of a path none of which is a file. *)
  Lemma save_parents st s p : disk_ok st -> file_path s p -> clear_above st p ->
    exists fs1, (if true && negb (path_exists (d_fs st) (parent_of p)) then path_mkdir_new (d_fs st) (parent_of p) else Done (d_fs st)) = Done fs1 /\
      fs_ok fs1 /\ made (d_fs st) fs1 (parent_of p).
  Proof.
    intros (W & DC) T N. unfold path_exists. destruct (kind_of (d_fs st) (parent_of p)) as [k|] eqn:K; cbn [andb negb].
    - exists (d_fs st). split; auto. split; auto. assert (Kd : kind_of (d_fs st) (parent_of p) = Some IsDir).
      { assert (kind_of (d_fs st) (parent_of p) <> Some IsFile) by (apply N; apply (parent_leads s); auto; exists []; symmetry; apply app_nil_r).
        rewrite K in *. destruct k; congruence. }
      split; auto. intros q L. apply leads_cases in L. destruct L as [->|L]; auto. apply (above_dirs _ (parent_of p)); auto. congruence.
    - apply mkdir_new_made; auto. intros q L. apply N. apply (parent_leads s); auto.
  Qed.

  Lemma made_data st fs1 p : disk_ok st -> fs_ok fs1 -> made (d_fs st) fs1 p -> (forall q, leads_to q p -> kind_of (d_fs st) q <> Some IsFile) ->
    disk_ok (mkDisk fs1 (d_data st)).
  Proof.
    intros (W & DC) W1 (M1 & M2) N. split; auto. cbn [d_fs d_data]. intros q K. apply DC.
    destruct (leads_dec q p) as [L|L]; [rewrite (M1 q L) in K; discriminate|rewrite <- M2; auto].
  Qed.

  Lemma save_ok st s p c : disk_ok st -> file_path s p -> clear_above st p ->
    kind_of (d_fs st) p <> Some IsDir ->
    exists st', save st s true (Ok c) = (st', None) /\ disk_ok st' /\ written st st' p c /\ load st' s = inl c.
  Proof.
    intros DK T N K. destruct (save_parents st s p DK T N) as (fs1 & E & W1 & M). unfold save. rewrite (path_parts s p T).
    rewrite E. assert (DK1 : disk_ok (mkDisk fs1 (d_data st))).
    { apply (made_data st fs1 (parent_of p)); auto. intros q L. apply N. apply (parent_leads s); auto. }
    destruct M as (M1 & M2).
    assert (NP : ~ leads_to p (parent_of p)) by (intros L; apply (parent_leads s) in L; auto; apply (not_above_self p); auto).
    destruct (put_written (mkDisk fs1 (d_data st)) p c DK1) as (st' & P & DK' & Wr).
    { cbn [d_fs]. rewrite M2; auto. }
    { intros q L. cbn [d_fs]. apply M1. apply (parent_leads s); auto. }
    exists st'. rewrite P. split; auto. split; auto. destruct Wr as (A1 & A2 & A3 & A4 & A5). cbn [d_fs d_data] in *.
    assert (Wr : written st st' p c).
    { repeat split; auto. intros q L. rewrite A4 by auto. apply M2. intros C0. apply L. apply (parent_leads s) in C0; auto. apply leads_cases. auto. }
    split; auto. eapply load_written; eauto.
  Qed.
  Lemma save_raises st s p e : disk_ok st -> file_path s p -> clear_above st p ->
    exists st', save st s true (Err e) = (st', Some (IoRaised e)) /\ disk_ok st' /\ d_data st' = d_data st /\ made (d_fs st) (d_fs st') (parent_of p).
  Proof.
    intros DK T N. destruct (save_parents st s p DK T N) as (fs1 & E & W1 & M). unfold save. rewrite (path_parts s p T), E.
    eexists. split; [reflexivity|]. split; auto. apply (made_data st fs1 (parent_of p)); auto. intros q L. apply N. apply (parent_leads s); auto.
  Qed.

  Lemma disk_eta st : mkDisk (d_fs st) (d_data st) = st.
  Proof. destruct st. reflexivity. Qed.
  Lemma save_under st s p q c pd : disk_ok st -> file_path s p -> leads_above q p -> kind_of (d_fs st) q = Some IsFile ->
    save st s pd (Ok c) = (st, Some (IoOs OsNotADir)).
  Proof.
    intros (W & DC) T L K. unfold save. rewrite (path_parts s p T).
    assert (P : forall fs1, Done (d_fs st) = Done fs1 -> put_file (mkDisk fs1 (d_data st)) p c = (st, Some (IoOs OsNotADir))).
    { intros fs1 E1. inversion E1. subst fs1. rewrite disk_eta. unfold put_file. rewrite (lookup_under (d_fs st) p q) by auto. auto. }
    destruct (pd && negb (path_exists (d_fs st) (parent_of p))) eqn:B; [|apply P; auto].
    apply andb_true_iff in B. destruct B as (_ & B). apply negb_true_iff in B. unfold path_exists in B.
    assert (L' : leads_to q (parent_of p)) by (apply (parent_leads s); auto). apply leads_cases in L'. destruct L' as [->|L'].
    - rewrite K in B. discriminate.
    - rewrite (mkdir_new_under _ _ q); auto.
  Qed.
  Lemma save_dir st s p c pd : disk_ok st -> file_path s p -> kind_of (d_fs st) p = Some IsDir -> save st s pd (Ok c) = (st, Some IoIsADir).
  Proof.
    intros (W & DC) T K. unfold save. rewrite (path_parts s p T).
    assert (D : forall q, leads_above q p -> kind_of (d_fs st) q = Some IsDir) by (intros q L; apply (above_dirs _ p); auto; congruence).
    assert (X : path_exists (d_fs st) (parent_of p) = true).
    { unfold path_exists. rewrite D; auto. apply (parent_leads s); auto. exists []. symmetry. apply app_nil_r. }
    rewrite X, andb_false_r. unfold put_file. cbn [d_fs]. rewrite lookup_ready, K, disk_eta by auto. auto.
  Qed.
  (** Without making parents. *)
  Lemma save_missing st s p c : disk_ok st -> file_path s p -> clear_above st p ->
    kind_of (d_fs st) (parent_of p) = None -> save st s false (Ok c) = (st, Some (IoOs OsNotFound)).
  Proof.
    intros DK T N K. unfold save. rewrite (path_parts s p T). cbn [andb]. rewrite disk_eta. unfold put_file.
    rewrite (lookup_missing _ p (parent_of p)); auto. apply (parent_leads s); auto. exists []. symmetry. apply app_nil_r.
  Qed.
  Lemma save_plain st s p c : disk_ok st -> file_path s p -> kind_of (d_fs st) (parent_of p) = Some IsDir -> save st s false (Ok c) = save st s true (Ok c).
  Proof. intros DK T K. unfold save. rewrite (path_parts s p T). unfold path_exists. rewrite K. auto. Qed.

  (** Other files stay as they are. *)
  Lemma load_other st st' s s' p p' c x : disk_ok st -> disk_ok st' -> file_path s p -> file_path s' p' -> p' <> p ->
    clear_above st p -> written st st' p c ->
    load st s' = inl x -> load st' s' = inl x.
  Proof.
    intros DK DK' T T' N NF (W1 & W2 & W3 & W4 & W5) L. unfold load in *. rewrite (path_parts s' p' T') in *.
    destruct (lookup_dirs (d_fs st) p') as [e|] eqn:Lk; [discriminate|].
    destruct (kind_of (d_fs st) p') as [[|]|] eqn:K; try discriminate.
    assert (K' : kind_of (d_fs st') p' = Some IsFile).
    { destruct (leads_dec p' p) as [Lp|Lp]; [|rewrite W4; auto]. exfalso. apply leads_cases in Lp. destruct Lp as [E|Lp]; [congruence|].
      apply NF in Lp. contradiction. }
    rewrite lookup_ready, K'; [rewrite W5 by auto; auto|]. intros q Lq. apply (above_dirs _ p'); [apply DK'|congruence|auto].
  Qed.
End Save.

(** The name of a building read from STL. *)
Lemma rfind_none s : ~ In "."%char s -> forall i f, rfind_dot s i f = f.
Proof.
  induction s as [|c s IH]; intros N i f; auto. cbn [rfind_dot].
  rewrite IH by (intros I; apply N; right; auto). destruct (Ascii.eqb c ".") eqn:E; auto.
  apply Ascii.eqb_eq in E. exfalso. apply N. left. auto.
Qed.
Lemma rfind_app a b : ~ In "."%char b -> forall i f, rfind_dot (a ++ "."%char :: b) i f = Some (i + length a).
Proof.
  intros N. induction a as [|c a IH]; intros i f; cbn [app rfind_dot].
  - rewrite rfind_none by auto. cbn. rewrite Nat.add_0_r. auto.
  - rewrite IH. cbn [length]. f_equal. lia.
Qed.
Lemma stem_suffix s ns a b : file_path s (ns ++ [a ++ "."%char :: b]) -> a <> [] -> b <> [] -> ~ In "."%char b -> stem s = a.
Proof.
  intros F A B N. unfold stem. rewrite (path_parts _ _ F), last_last, rfind_app by auto. cbn [plus].
  rewrite app_length. cbn [length]. replace (0 <? length a) with true by (symmetry; apply Nat.ltb_lt; destruct a; [congruence|cbn; lia]).
  replace (length a <? length a + S (length b) - 1) with true by (symmetry; apply Nat.ltb_lt; destruct b; [congruence|cbn; lia]).
  cbn [andb]. rewrite firstn_app, Nat.sub_diag, firstn_all. apply app_nil_r.
Qed.
Lemma stem_plain s ns a : file_path s (ns ++ [a]) -> ~ In "."%char a -> stem s = a.
Proof. intros F N. unfold stem. rewrite (path_parts _ _ F), last_last, rfind_none by auto. auto. Qed.
Lemma tidy_last s ns : tidy s ns -> ~ In "/"%char (last ns []).
Proof.
  intros T. pose proof (tidy_nonempty s ns T) as N. apply tidy_noslash in T. rewrite Forall_forall in T. apply T.
  rewrite (app_removelast_last [] N) at 2. apply in_or_app. right. left. auto.
Qed.
Lemma stem_valid s ns : file_path s ns -> validate_name (stem s) = Ok (stem s).
Proof.
  intros F. assert (L : ~ In "/"%char (last ns [])).
  { destruct F as [s p T|s p T]; [apply (tidy_last s p T)|]. pose proof (tidy_nonempty s p T). destruct p; [congruence|]. apply (tidy_last s _ T). }
  unfold validate_name. assert (X : existsb (Ascii.eqb PATH_SEP) (stem s) = false).
  { destruct (existsb _ (stem s)) eqn:E; auto. exfalso. apply existsb_exists in E. destruct E as (c & I & Ec). apply Ascii.eqb_eq in Ec. subst c. apply L.
    unfold stem in I. rewrite (path_parts _ _ F) in I. destruct (rfind_dot _ _ _) as [i|]; auto. destruct ((0 <? i) && (i <? length (last ns []) - 1)); auto.
    rewrite <- (firstn_skipn i). apply in_or_app. left. auto. }
  rewrite X. auto.
Qed.

Section Save2.
  Context {C : Type}.
  Implicit Types st : disk C.

  Lemma save_refused st s p c pd : disk_ok st -> file_path s p ->
    (forall q, leads_above q p -> kind_of (d_fs st) q = Some IsFile -> save st s pd (Ok c) = (st, Some (IoOs OsNotADir))) /\
    (kind_of (d_fs st) p = Some IsDir -> save st s pd (Ok c) = (st, Some IoIsADir)).
  Proof. intros DK T. split; [intros q; apply save_under; auto|apply save_dir; auto]. Qed.

  Lemma save_no_parents st s p c : disk_ok st -> file_path s p -> clear_above st p ->
    (kind_of (d_fs st) (removelast p) = None -> save st s false (Ok c) = (st, Some (IoOs OsNotFound))) /\
    (kind_of (d_fs st) (removelast p) = Some IsDir -> save st s false (Ok c) = save st s true (Ok c)).
  Proof.
    intros DK T N. assert (E : parent_of p = removelast p).
    { unfold parent_of. rewrite eqb_neq; auto. apply (path_not_root s p T). }
    rewrite <- E. split; [apply save_missing; auto|apply save_plain; auto].
  Qed.

  Lemma save_raises' st s p e : disk_ok st -> file_path s p -> clear_above st p ->
    exists st', save st s true (Err e) = (st', Some (IoRaised e)) /\ disk_ok st' /\ d_data st' = d_data st /\ made (d_fs st) (d_fs st') (removelast p).
  Proof.
    intros DK T N. destruct (save_raises st s p e DK T N) as (st' & E & A & B & M). exists st'. split; auto. split; auto. split; auto.
    unfold parent_of in M. rewrite eqb_neq in M; auto. apply (path_not_root s p T).
  Qed.

  (** What a save that succeeds leaves. *)
  Lemma save_done st s p c st' : disk_ok st -> file_path s p -> save st s true (Ok c) = (st', None) -> clear_above st p /\ kind_of (d_fs st) p <> Some IsDir.
  Proof.
    intros DK T E. split.
    - intros q L K. rewrite (save_under st s p q) in E by auto. discriminate.
    - intros K. rewrite (save_dir st s p) in E by auto. discriminate.
  Qed.
  Lemma save_others st s s' p p' c st' x : disk_ok st -> file_path s p -> file_path s' p' -> p' <> p ->
    save st s true (Ok c) = (st', None) -> load st s' = inl x -> load st' s' = inl x.
  Proof.
    intros DK T T' N E L. destruct (save_done st s p c st' DK T E) as (A & B).
    destruct (save_ok st s p c DK T A B) as (st2 & E2 & DK' & W & _). rewrite E in E2. inversion E2. subst st2.
    apply (load_other st st' s s' p p' c); auto.
  Qed.
End Save2.

(** The three formats. *)
From Verif Require Import MeshSpec IoSpec IoProofs IoProofs2 StlSpec StlProofs.
Lemma save_result {C} st s p (r : result C) c : disk_ok st -> file_path s p -> clear_above st p -> kind_of (d_fs st) p <> Some IsDir -> r = Ok c ->
  exists st', save st s true r = (st', None) /\ disk_ok st' /\ written st st' p c /\ load st' s = inl c.
Proof. intros DK T N K ->. apply save_ok; auto. Qed.

Lemma disk_b3d : forall (P : Type) (coplanar : list P -> bool) (U : Type) (b : building_n P U) st s p,
  wf_building coplanar b -> n_kids b <> [] -> no_empty b ->
  disk_ok st -> file_path s p -> clear_above st p -> kind_of (d_fs st) p <> Some IsDir ->
  exists st', save_b3d st s b true = (st', None) /\ load_b3d coplanar st' s = inl (Ok (reuid (fun _ => tt) b)).
Proof.
  intros P coplanar U b st s p W K E DK T N D. pose proof (@b3d_roundtrip_full P coplanar U b W K E) as R.
  unfold save_b3d, load_b3d. destruct (write_b3d b) as [d|e] eqn:Wr; [|discriminate].
  destruct (save_result st s p (Ok d) d DK T N D eq_refl) as (st' & S1 & _ & _ & L). exists st'. rewrite S1, L. split; auto. f_equal. exact R.
Qed.
Lemma disk_dotbim : forall (X : Type) (coplanar : list (X * X * X) -> bool) (b : building_n (X * X * X) str) st s p,
  wf_building coplanar b -> no_empty b ->
  disk_ok st -> file_path s p -> clear_above st p -> kind_of (d_fs st) p <> Some IsDir ->
  exists st', save_dotbim st s b true = (st', None) /\ load_dotbim coplanar st' s = inl (Ok b).
Proof.
  intros X coplanar b st s p W E DK T N D. pose proof (@bim_roundtrip_full X coplanar b W E) as R.
  unfold save_dotbim, load_dotbim. destruct (write_dotbim b) as [d|e] eqn:Wr; [|discriminate].
  destruct (save_result st s p (Ok d) d DK T N D eq_refl) as (st' & S1 & _ & _ & L). exists st'. rewrite S1, L. split; auto. f_equal. exact R.
Qed.
Lemma disk_stl : forall (X : Type) (fmt : X -> str) (parse : str -> option X),
  (forall x, number_text (fmt x)) -> (forall x, parse (fmt x) = Some x) ->
  forall (new_tri : X * X * X -> X * X * X -> X * X * X -> result (list (X * X * X))) (b : sbuilding) st s ns n ext,
  (forall q, In q (concat b) -> clean_uid (fst q)) ->
  (forall q, In q (polys_in b) -> valid (sp_mesh q)) ->
  takes_triangles new_tri b ->
  disk_ok st -> file_path s (ns ++ [n ++ "."%char :: ext]) -> n <> [] -> ext <> [] -> ~ In "."%char ext ->
  clear_above st (ns ++ [n ++ "."%char :: ext]) -> kind_of (d_fs st) (ns ++ [n ++ "."%char :: ext]) <> Some IsDir ->
  exists st' r, save_stl fmt st s b true = (st', None) /\ load_stl parse new_tri st' s = inl (Ok (n, r)) /\
    map (map (map Some)) r = map solid_triangles (concat b).
Proof.
  intros X fmt parse F1 F2 new_tri b st s ns n ext U V T DK FP N1 N2 N3 N D.
  destruct (@stl_roundtrip X fmt parse F1 F2 new_tri b U V T) as (text & r & Wr & Rd & E).
  destruct (save_result st s _ (write_stl fmt b) text DK FP N D Wr) as (st' & S1 & _ & _ & L).
  exists st', r. unfold save_stl, load_stl. rewrite S1, L, Rd. cbn [rbind]. rewrite (stem_suffix s ns n ext) by auto. auto.
Qed.

(** What cannot be read. *)
Lemma load_fails {C} (st : disk C) s p : disk_ok st -> file_path s p ->
  (kind_of (d_fs st) p = Some IsDir -> load st s = inr IoIsADir) /\
  (forall q, leads_above q p -> kind_of (d_fs st) q = Some IsFile -> load st s = inr (IoOs OsNotADir)) /\
  (clear_above st p -> kind_of (d_fs st) p = None -> load st s = inr (IoOs OsNotFound)).
Proof.
  intros (W & DC) T. unfold load. rewrite (path_parts s p T). split; [|split].
  - intros K. rewrite lookup_ready, K; auto. intros q L. apply (above_dirs _ p); auto. congruence.
  - intros q L K. rewrite (lookup_under (d_fs st) p q) by auto. auto.
  - intros N K. destruct (lookup_dirs (d_fs st) p) as [e|] eqn:E; [|rewrite K; auto].
    unfold lookup_dirs in E. destruct (List.find _ (above p)) as [r|] eqn:F; [|discriminate].
    apply List.find_some in F. pose proof F as F0. destruct F as (I & _). apply in_above, N in I.
    destruct F0 as (_ & F0). unfold is_dir in F0. destruct (kind_of (d_fs st) r) as [[|]|] eqn:Kr; [discriminate|contradiction|inversion E; auto].
Qed.
(** Without parent_dirs, in each format. *)
Lemma save_keeps {C} (st : disk C) s p (r : result C) : disk_ok st -> file_path s p -> clear_above st p ->
  kind_of (d_fs st) (removelast p) = None -> exists e, save st s false r = (st, Some e) /\ (forall c, r = Ok c -> e = IoOs OsNotFound).
Proof.
  intros DK T N K. destruct r as [c|e].
  - exists (IoOs OsNotFound). split; auto. apply (proj1 (save_no_parents st s p c DK T N)); auto.
  - exists (IoRaised e). split; [|discriminate]. unfold save. cbn [andb]. destruct st; auto.
Qed.
