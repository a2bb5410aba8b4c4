(** Proofs about saved states. *)
From Coq Require Import Ascii String List Arith Bool Lia Permutation.
From Verif Require Import Prelude TreeModel MeshModel IoModel StlModel TreeProofs IoProofs WildModel WildSpec WildProofs WildProofs2 WildProofs3 WildProofs4 BufModel BufSpec.
Import ListNotations.

Definition tmpl (L : str) : list tok := template L [(STEP, NPY)].
Definition fname (L : str) (n : nat) : str := L ++ decimal n ++ NPY.
Definition base (dir : str) : str :=
  if 0 <? length dir then (if starts_with (str_of "/") (rev dir) then dir else dir ++ str_of "/") else [].

Lemma tmpl_render L : render (tmpl L) = step_pattern L.
Proof. unfold tmpl, template, render, step_pattern. cbn [flat_map fst snd app map concat]. rewrite app_nil_r. reflexivity. Qed.

Lemma tmpl_filled L n : filled (dec_val (fun _ => n)) (tmpl L) = fname L n.
Proof. unfold tmpl, template, filled, fname, dec_val. cbn [flat_map fst snd app map concat]. rewrite app_nil_r. reflexivity. Qed.

Lemma sep_npy : separated [(STEP, NPY)].
Proof. apply quiet_check. vm_compute. reflexivity. Qed.
Lemma good_step : good_names (map fst [(STEP, NPY)]).
Proof.
  split; [|apply clash_check; vm_compute; reflexivity]. constructor; [|constructor]. split; [discriminate|apply angle_check; vm_compute; reflexivity].
Qed.

Lemma tmpl_toks L : file_stem L -> Forall tok_ok (tmpl L).
Proof. intros (N & P & S). apply template_toks; auto using sep_npy, good_step. Qed.

Lemma joined_base dir s : ~ (exists t, s = "/"%char :: t) -> joined dir s = base dir ++ s.
Proof.
  intros N. unfold joined, base, path_join. destruct (0 <? length dir); auto.
  destruct (starts_with (str_of "/") s) eqn:E; [apply starts_slash in E; contradiction|].
  destruct (starts_with (str_of "/") (rev dir)); auto. rewrite <- app_assoc. auto.
Qed.

Lemma joins_base dir s r : ~ (exists t, s = "/"%char :: t) -> joins_to dir s r -> r = base dir ++ s.
Proof.
  intros N (J1 & J2 & J3 & J4). unfold base. destruct dir as [|c dir]; [apply J1; auto|]. cbn [length]. change (0 <? S (length dir)) with true. cbv iota.
  destruct (starts_with (str_of "/") (rev (c :: dir))) eqn:E.
  - apply ends_slash in E. apply J3; auto; discriminate.
  - rewrite <- app_assoc. apply J4; auto; [discriminate|]. intros X. apply ends_slash in X. congruence.
Qed.

Lemma fname_head L n : file_stem L -> ~ (exists t, fname L n = "/"%char :: t).
Proof.
  intros (N & _ & S) (t & E). unfold fname in E. destruct L as [|c L]; [congruence|]. simpl in E. inversion E; subst. apply S. simpl. auto.
Qed.

Section WP.
  Context (name_ok : str -> bool).

  Lemma step_assigns n : assigns [(STEP, decimal n)] (dec_val (fun _ => n)) (map fst [(STEP, NPY)]).
  Proof.
    split; [|split].
    - constructor; [intros []|constructor].
    - intros k. simpl. tauto.
    - intros k v [E|[]]. inversion E; auto.
  Qed.

  Lemma fill_step L wp dir n : file_stem L -> new_wpath name_ok (step_pattern L) = Ok wp ->
    fill wp dir [(STEP, decimal n)] = Ok (base dir ++ fname L n).
  Proof.
    intros F W. rewrite <- tmpl_render in W. rewrite (fill_ok name_ok (tmpl L) wp _ (dec_val (fun _ => n)) dir (tmpl_toks L F) W).
    - rewrite tmpl_filled, joined_base; auto using fname_head.
    - unfold tmpl. rewrite template_names. apply step_assigns.
    - intros w _. unfold dec_val. pose proof (decimal_digits n) as D. rewrite Forall_forall in D.
      split; intros I; apply D in I; apply digit_facts in I; destruct I as (I1 & I2 & _); auto.
  Qed.

  Lemma new_step L : name_ok STEP = true -> file_stem L -> exists wp, new_wpath name_ok (step_pattern L) = Ok wp.
  Proof.
    intros OK F. rewrite <- tmpl_render. apply (constructor_total name_ok (tmpl L) (tmpl_toks L F)).
    unfold tmpl. rewrite template_names. constructor; auto.
  Qed.

  Definition regex_of (L : str) : list item := RStarAny :: flat_map gitems (numbered (fun _ => 0) (tmpl L)) ++ END_ITEMS.

  Lemma compile_step L wp : file_stem L -> new_wpath name_ok (step_pattern L) = Ok wp -> compile (wp_regex wp) = Ok (regex_of L).
  Proof.
    intros F W. rewrite <- tmpl_render in W. destruct (new_wpath_render name_ok (tmpl L) wp (tmpl_toks L F) W) as (_ & _ & R).
    rewrite R. unfold regex_of. apply compile_ok; auto using tmpl_toks.
    - unfold tmpl. rewrite template_names. apply good_step.
    - apply template_lits; [apply F|apply sep_npy].
  Qed.
End WP.

(** Names determine stem and number. *)
Lemma rev_digits d : all_digits d -> all_digits (rev d).
Proof. intros D. apply Forall_rev. exact D. Qed.

Lemma stem_rev L x : file_stem L -> head_other (rev L ++ x).
Proof.
  intros (N & ((_ & Q) & _) & _). destruct (rev L) as [|c r] eqn:E.
  - apply (f_equal (@rev ascii)) in E. rewrite rev_involutive in E. simpl in E. congruence.
  - exists c, (r ++ x). split; auto. destruct (is_digit c) eqn:D; auto. exfalso.
    assert (Ic : In c L) by (apply in_rev; rewrite E; simpl; auto).
    destruct (Q c Ic) as (Q1 & _). apply Q1. apply is_digit_char. auto.
Qed.

Lemma name_split (a b L L' d e : str) : file_stem L -> file_stem L' -> all_digits d -> all_digits e ->
  a ++ L ++ d = b ++ L' ++ e -> a ++ L = b ++ L' /\ d = e.
Proof.
  intros F F' D D' E. apply (f_equal (@rev ascii)) in E. rewrite !rev_app_distr, <- !app_assoc in E.
  destruct (split_digits (rev d) (rev e) (rev L ++ rev a) (rev L' ++ rev b)) as (E1 & E2); auto using rev_digits, stem_rev.
  rewrite <- !rev_app_distr in E2. apply (f_equal (@rev ascii)) in E1, E2. rewrite !rev_involutive in E1, E2. auto.
Qed.

Lemma decimal_inj n m : decimal n = decimal m -> n = m.
Proof. intros E. rewrite <- (int_of_decimal n), <- (int_of_decimal m), E. auto. Qed.

Lemma fname_inj L L' n m : file_stem L -> file_stem L' -> fname L n = fname L' m -> L = L' /\ n = m.
Proof.
  intros F F' E. unfold fname in E. rewrite !app_assoc in E. apply app_inv_tail in E.
  destruct (name_split [] [] L L' (decimal n) (decimal m)) as (E1 & E2); try apply decimal_digits; auto.
  split; [exact E1|apply decimal_inj; exact E2].
Qed.

(** ** What a pattern reads from a name of any of the three kinds *)
Lemma end_inv t : matches END_ITEMS t <> [] -> Forall (fun c => c = "/"%char \/ c = NL) t.
Proof.
  unfold END_ITEMS. cbn [matches]. intros M. apply flat_map_nonempty in M. destruct M as (k & I & M).
  apply in_rev, in_seq in I. destruct (run_len_prefix (Ascii.eqb "/") t k) as (L1 & L2); [lia|].
  rewrite <- (firstn_skipn k t). apply Forall_app. split.
  - apply Forall_forall. intros c Ic. rewrite Forall_forall in L2. specialize (L2 c Ic). apply Ascii.eqb_eq in L2. auto.
  - match goal with H : context [if ?b then _ else _] |- _ => destruct b eqn:E end; [|congruence].
    apply orb_true_iff in E. destruct E as [E|E]; rewrite eqb_true in E; rewrite E; [constructor|constructor; [right; reflexivity|constructor]].
Qed.

Lemma snoc_cases {A} (l : list A) : l = [] \/ exists l' x, l = l' ++ [x].
Proof. destruct l as [|x l] using rev_ind; eauto. Qed.

Lemma npy_inv t : matches (map lit_item NPY ++ END_ITEMS) t <> [] -> exists c t', t = c :: str_of "npy" ++ t' /\ matches END_ITEMS t' <> [].
Proof.
  intros M. change (map lit_item NPY ++ END_ITEMS) with (RAny :: map lit_item (str_of "npy") ++ END_ITEMS) in M.
  cbn [matches] in M. destruct t as [|c t]; [congruence|]. destruct (Ascii.eqb c NL); [congruence|].
  apply lits_inv in M; [|intros [C|[C|[C|[]]]]; discriminate]. destruct M as (t' & -> & M). eauto.
Qed.

Lemma regex_items L : regex_of L = RStarAny :: map lit_item L ++ RGroup (group_name STEP 0) :: map lit_item NPY ++ END_ITEMS.
Proof.
  unfold regex_of, tmpl, template. cbn [flat_map fst snd app numbered gitems]. rewrite <- app_assoc. reflexivity.
Qed.

Lemma regex_inv L t : ~ In "."%char L -> matches (regex_of L) t <> [] ->
  exists y d c t', ~ In NL y /\ all_digits d /\ t = y ++ L ++ d ++ c :: str_of "npy" ++ t' /\ Forall (fun c => c = "/"%char \/ c = NL) t'.
Proof.
  intros ND. rewrite regex_items. cbn [matches]. intros M. apply flat_map_nonempty in M. destruct M as (k & I & M).
  apply in_rev, in_seq in I. destruct (run_len_prefix (fun c => negb (Ascii.eqb c NL)) t k) as (L1 & L2); [lia|].
  apply lits_inv in M; auto. destruct M as (t1 & E1 & M). apply group_inv in M. destruct M as (d & t2 & -> & _ & D & M).
  apply npy_inv in M. destruct M as (c & t3 & -> & M). apply end_inv in M.
  exists (firstn k t), d, c, t3. split; [|split; [auto|split; [|auto]]].
  - intros In_. rewrite Forall_forall in L2. specialize (L2 NL In_). simpl in L2. discriminate.
  - rewrite <- E1. symmetry. apply firstn_skipn.
Qed.

Lemma cross_read L L' n pre : file_stem L -> file_stem L' -> ~ In NL pre ->
  read_path (regex_of L) (pre ++ fname L' n) = Ok None \/
  exists d, read_path (regex_of L) (pre ++ fname L' n) = Ok (Some d) /\ reads_back d (fun _ => n) [STEP].
Proof.
  intros F F' N. destruct (matches (regex_of L) (pre ++ fname L' n)) eqn:M.
  { left. unfold read_path, re_match. rewrite M. reflexivity. }
  right. destruct (regex_inv L (pre ++ fname L' n)) as (y & d & c & t' & Ny & D & E & T); [apply F|congruence|].
  assert (t' = []).
  { destruct (snoc_cases t') as [|(t2 & x & ->)]; auto. exfalso. unfold fname in E.
    change NPY with (str_of ".np" ++ ["y"%char]) in E.
    replace (pre ++ L' ++ decimal n ++ str_of ".np" ++ ["y"%char]) with ((pre ++ L' ++ decimal n ++ str_of ".np") ++ ["y"%char]) in E by (rewrite <- !app_assoc; auto).
    replace (y ++ L ++ d ++ c :: str_of "npy" ++ t2 ++ [x]) with ((y ++ L ++ d ++ c :: str_of "npy" ++ t2) ++ [x]) in E
      by (rewrite <- !app_assoc; cbn [app]; rewrite <- !app_assoc; auto).
    apply app_inj_tail in E. destruct E as (_ & E). subst x. apply Forall_app in T. destruct T as (_ & T).
    inversion T; subst. destruct H1; discriminate. }
  subst t'. rewrite app_nil_r in E. unfold fname in E.
  assert (E2 : (pre ++ L' ++ decimal n) ++ ["."%char] ++ str_of "npy" = (y ++ L ++ d) ++ [c] ++ str_of "npy")
    by (rewrite <- !app_assoc; exact E).
  rewrite !(app_assoc _ _ (str_of "npy")) in E2. apply app_inv_tail in E2. apply app_inj_tail in E2. destruct E2 as (E2 & _).
  destruct (name_split pre y L' L (decimal n) d) as (E3 & E4); try apply decimal_digits; auto.
  destruct (template_read L [(STEP, NPY)] (fun _ => n) y (proj1 F) (proj1 (proj2 F)) sep_npy Ny) as (r & R1 & R2).
  exists r. split; [|exact R2]. rewrite <- R1. unfold regex_of. f_equal.
  change (template L [(STEP, NPY)]) with (tmpl L). rewrite tmpl_filled. unfold fname. rewrite !app_assoc, E3. auto.
Qed.

Lemma own_read L n pre : file_stem L -> ~ In NL pre ->
  exists d, read_path (regex_of L) (pre ++ fname L n) = Ok (Some d) /\ reads_back d (fun _ => n) [STEP].
Proof.
  intros F N. destruct (template_read L [(STEP, NPY)] (fun _ => n) pre) as (r & R1 & R2); try apply F; auto using sep_npy.
  exists r. split; auto.
Qed.

Lemma reads_step d n : reads_back d (fun _ => n) [STEP] -> dget d STEP = Some n.
Proof.
  intros (ND & K & V). destruct (dget d STEP) as [m|] eqn:E.
  - f_equal. apply (V STEP m). clear - E. induction d as [|(k, x) d IH]; simpl in *; [discriminate|].
    destruct (eq_dec STEP k) as [<-|]; [inversion E; auto|auto].
  - apply dget_None in E. exfalso. apply E, K. simpl. auto.
Qed.

Lemma mapM_dget {A} (l : list (A * dict str nat)) steps :
  Forall2 (fun pd n => dget (snd pd) STEP = Some n) l steps ->
  mapM (fun pd => match dget (snd pd) STEP with Some n => Ok n | None => Err KeyError end) l = Ok steps.
Proof. induction 1 as [|pd n l steps E F IH]; simpl; auto. rewrite E. cbn [rbind]. rewrite IH. auto. Qed.

(** The listing holds, for every pattern, all steps up to N; then the number
    of steps found is N + 1. *)
Lemma max_found L wp name_ok listing N pre :
  file_stem L -> new_wpath name_ok (step_pattern L) = Ok wp -> ~ In NL pre -> NoDup listing ->
  (forall p, In p listing -> exists L' n, file_stem L' /\ n <= N /\ p = pre ++ fname L' n) ->
  In (pre ++ fname L N) listing ->
  exists D, dict_values wp listing = Ok D /\ length D <> 0 /\ max_step D = Ok (N + 1).
Proof.
  intros F W NP ND A I. unfold dict_values. rewrite (compile_step name_ok L wp F W). cbn [rbind].
  set (mine := fun p => match read_path (regex_of L) p with Ok (Some _) => true | _ => false end).
  destruct (loop_some_read (regex_of L) listing (fun p d => forall L' n, file_stem L' -> p = pre ++ fname L' n -> dget d STEP = Some n) mine ND) with (acc := @nil (str * dict str nat)) as (D & E & K & G).
  - intros p Ip M. unfold mine in M. destruct (read_path (regex_of L) p) as [[d|]|] eqn:R; try discriminate. exists d. split; auto.
    intros L' n F' ->. destruct (cross_read L L' n pre F F' NP) as [C|(d' & C & B)]; rewrite R in C; inversion C; subst. apply reads_step. auto.
  - intros p Ip M. unfold mine in M. destruct (A p Ip) as (L' & n & F' & _ & ->).
    destruct (cross_read L L' n pre F F' NP) as [C|(d' & C & B)]; rewrite C in M |- *; auto. discriminate.
  - intros p _ [].
  - exists D. split; [exact E|].
    assert (IK : In (pre ++ fname L N) (dkeys D)).
    { rewrite K. apply filter_In. split; auto. unfold mine. destruct (own_read L N pre F NP) as (d & R & _). rewrite R. auto. }
    assert (AD : forall p d, In (p, d) D -> exists n, n <= N /\ dget d STEP = Some n).
    { intros p d Id. assert (Ip : In p listing).
      { assert (Ik : In p (dkeys D)) by (unfold dkeys; apply in_map_iff; exists (p, d); auto). rewrite K in Ik. apply filter_In in Ik. apply Ik. }
      destruct (A p Ip) as (L' & n & F' & Ln & Ep). exists n. split; auto. apply (G p d Id L' n F' Ep). }
    assert (S : exists steps, Forall2 (fun pd n => dget (snd pd) STEP = Some n) D steps /\ Forall (fun n => n <= N) steps).
    { clear - AD. induction D as [|(p, d) D IH]; [exists []; auto|]. destruct IH as (st & S1 & S2); [intros; eapply AD; simpl; eauto|].
      destruct (AD p d) as (n & L1 & L2); [simpl; auto|]. exists (n :: st). auto. }
    destruct S as (st & S1 & S2).
    split.
    { destruct D; [destruct IK|]. simpl. lia. }
    unfold max_step. rewrite (mapM_dget D st S1). cbn [rbind]. f_equal. f_equal.
    apply Nat.le_antisymm.
    + apply list_max_le. exact S2.
    + apply in_map_iff in IK. destruct IK as ((p, d) & Ep & Id). cbn [fst] in Ep. subst p.
      assert (In N st).
      { specialize (G _ _ Id L N F eq_refl). clear - S1 Id G. induction S1 as [|pd n D st E S1 IH]; [destruct Id|].
        destruct Id as [->|Id]; [left; cbn [snd] in E; congruence|right; auto]. }
      assert (X := proj1 (list_max_le st (list_max st)) (le_n _)). rewrite Forall_forall in X. apply X. auto.
Qed.
