(** Proofs: reading directories and filtering. *)
From Coq Require Import Ascii String List Arith Bool Lia.
From Verif Require Import Prelude TreeModel MeshModel IoModel StlModel TreeProofs WildModel WildSpec WildProofs WildProofs2 WildProofs3.
Import ListNotations.

Definition dec_val (num : str -> nat) : str -> str := fun w => decimal (num w).

Lemma template_names L0 segs : wild_names (template L0 segs) = map fst segs.
Proof.
  unfold template. cbn [wild_names flat_map app]. induction segs as [|(w, l) segs IH]; simpl; auto. rewrite IH. auto.
Qed.

Lemma template_toks L0 segs : plain L0 -> separated segs -> good_names (map fst segs) -> Forall tok_ok (template L0 segs).
Proof.
  intros ((A0 & _) & _) S (G & _). unfold template. constructor; [exact A0|].
  induction segs as [|(w, l) segs IH]; simpl; [constructor|].
  inversion G; subst. constructor; [auto|]. destruct segs as [|(w2, l2) segs].
  - constructor; [apply S|constructor].
  - destruct S as (_ & S2 & S3). constructor; [apply S2|]. apply IH; auto.
Qed.

Lemma template_lits L0 segs : plain L0 -> separated segs -> forall s, In (Lit s) (template L0 segs) -> forall c, In c s -> ~ meta_char c.
Proof.
  intros ((_ & Q0) & _) S s [E|I] c Ic; [inversion E; subst; apply Q0; auto|].
  induction segs as [|(w, l) segs IH]; simpl in I; [destruct I|]. destruct I as [I|[I|I]]; [discriminate| |].
  - inversion I; subst. destruct segs as [|(w2, l2) segs]; [destruct S as (_ & S); apply S; auto|].
    destruct S as (_ & ((_ & S) & _) & _). apply S; auto.
  - destruct segs as [|(w2, l2) segs]; [destruct I|]. destruct S as (_ & _ & S). auto.
Qed.

Lemma triples_groups val num segs : (forall w, int_of (val w) = num w) -> forall seen,
  (forall g v, In (g, v) (map fst (triples seen val segs)) -> int_of v = num (strip_index g)) /\
  map (fun g => strip_index (fst g)) (map fst (triples seen val segs)) = map fst segs.
Proof.
  intros V. induction segs as [|(w, l) segs IH]; intros seen; simpl; [split; [tauto|auto]|].
  destruct (IH (bump seen w)) as (I1 & I2). rewrite strip_group, I2. split; auto.
  intros g v [E|I]; auto. inversion E; subst. rewrite strip_group. auto.
Qed.

Lemma template_read L0 segs num pre : L0 <> [] -> plain L0 -> separated segs -> ~ In NL pre ->
  exists d, read_path (RStarAny :: flat_map gitems (numbered (fun _ => 0) (template L0 segs)) ++ END_ITEMS)
      (pre ++ filled (dec_val num) (template L0 segs)) = Ok (Some d) /\ reads_back d num (map fst segs).
Proof.
  intros N0 P0 S N. unfold read_path. rewrite template_match; auto.
  2:{ intros w _. split; [apply decimal_nonempty|apply decimal_digits]. }
  destruct (triples_groups (dec_val num) num segs (fun w => int_of_decimal (num w)) (fun _ => 0)) as (G1 & G2).
  destruct (read_groups_ok num (map fst (triples (fun _ => 0) (dec_val num) segs)) []) as (d & E & R1 & R2 & R3); auto.
  { constructor. }
  { intros w n []. }
  assert (E2 : read_groups (map fst (triples (fun _ => 0) (dec_val num) segs)) = Ok d) by exact E.
  exists d. rewrite E2. cbn [rbind]. split; auto. split; auto. split; auto.
  intros w. rewrite R3, G2. simpl. tauto.
Qed.

Lemma joined_prefix parent s : ~ In NL parent -> exists pre, joined parent s = pre ++ s /\ ~ In NL pre.
Proof.
  intros N. unfold joined, path_join. destruct (0 <? length parent); [|exists []; auto].
  destruct (starts_with _ s); [exists []; auto|]. destruct (starts_with _ (rev parent)); [exists parent; auto|].
  exists (parent ++ str_of "/"). rewrite <- app_assoc. split; auto. intros I. apply in_app_iff in I.
  destruct I as [I|[I|[]]]; [auto|discriminate].
Qed.

(** The glob loop. *)
Lemma loop_all_read r listing (Good : str -> dict str nat -> Prop) : NoDup listing ->
  (forall p, In p listing -> exists d, read_path r p = Ok (Some d) /\ Good p d) ->
  forall acc, (forall p, In p listing -> ~ In p (dkeys acc)) ->
  exists D, foldM (fun paths f => do m <- read_path r f; Ok (match m with Some d => dset paths f d | None => paths end)) listing acc = Ok (acc ++ D) /\
    dkeys D = listing /\ forall p d, In (p, d) D -> Good p d.
Proof.
  intros ND. induction ND as [|p listing NI ND IH]; intros H acc A.
  - exists []. rewrite app_nil_r. simpl. intuition.
  - destruct (H p) as (d & E & G); [simpl; auto|]. cbn [foldM]. rewrite E. cbn [rbind].
    rewrite dset_new by (apply A; simpl; auto).
    destruct (IH (fun q Iq => H q (or_intror Iq)) (acc ++ [(p, d)])) as (D & E' & K & GD).
    { intros q Iq C. unfold dkeys in C. rewrite map_app in C. apply in_app_iff in C. destruct C as [C|[C|[]]].
      - apply (A q); simpl; auto.
      - simpl in C. subst. auto. }
    exists ((p, d) :: D). rewrite E', <- app_assoc. split; auto. split; [simpl; f_equal; auto|].
    intros q e [Eq|I]; auto. inversion Eq; subst. auto.
Qed.

(** With paths that do not match in between. *)
Lemma loop_some_read r listing (Good : str -> dict str nat -> Prop) (mine : str -> bool) : NoDup listing ->
  (forall p, In p listing -> mine p = true -> exists d, read_path r p = Ok (Some d) /\ Good p d) ->
  (forall p, In p listing -> mine p = false -> read_path r p = Ok None) ->
  forall acc, (forall p, In p listing -> ~ In p (dkeys acc)) ->
  exists D, foldM (fun paths f => do m <- read_path r f; Ok (match m with Some d => dset paths f d | None => paths end)) listing acc = Ok (acc ++ D) /\
    dkeys D = filter mine listing /\ forall p d, In (p, d) D -> Good p d.
Proof.
  intros ND. induction ND as [|p listing NI ND IH]; intros H1 H2 acc A.
  - exists []. rewrite app_nil_r. simpl. intuition.
  - cbn [foldM filter]. destruct (mine p) eqn:M.
    + destruct (H1 p) as (d & E & G); [simpl; auto|auto|]. rewrite E. cbn [rbind].
      rewrite dset_new by (apply A; simpl; auto).
      destruct (IH (fun q Iq => H1 q (or_intror Iq)) (fun q Iq => H2 q (or_intror Iq)) (acc ++ [(p, d)])) as (D & E' & K & GD).
      { intros q Iq C. unfold dkeys in C. rewrite map_app in C. apply in_app_iff in C. destruct C as [C|[C|[]]].
        - apply (A q); simpl; auto.
        - simpl in C. subst. auto. }
      exists ((p, d) :: D). rewrite E', <- app_assoc. split; auto. split; [simpl; f_equal; auto|].
      intros q e [Eq|I]; auto. inversion Eq; subst. auto.
    + rewrite (H2 p) by (simpl; auto). cbn [rbind].
      destruct (IH (fun q Iq => H1 q (or_intror Iq)) (fun q Iq => H2 q (or_intror Iq)) acc) as (D & E' & K & GD).
      { intros q Iq. apply A. simpl. auto. }
      exists D. auto.
Qed.

Section Read.
  Context (name_ok : str -> bool).

  Lemma fill_template L0 segs wp num kw parent p : plain L0 -> separated segs -> good_names (map fst segs) ->
    new_wpath name_ok (render (template L0 segs)) = Ok wp -> ~ In NL parent ->
    assigns kw (dec_val num) (map fst segs) -> fill wp parent kw = Ok p ->
    exists pre, ~ In NL pre /\ p = pre ++ filled (dec_val num) (template L0 segs).
  Proof.
    intros P0 S G W N A E. rewrite (fill_ok name_ok (template L0 segs) wp kw (dec_val num) parent) in E; auto.
    - destruct (joined_prefix parent (filled (dec_val num) (template L0 segs)) N) as (pre & Ep & Np).
      exists pre. split; auto. rewrite <- Ep. inversion E; auto.
    - apply template_toks; auto.
    - rewrite template_names. auto.
    - intros w _. unfold dec_val. pose proof (decimal_digits (num w)) as D. rewrite Forall_forall in D.
      split; intros I; apply D in I; apply digit_facts in I; destruct I as (I1 & I2 & _); auto.
  Qed.

  Lemma listing_read L0 segs wp parent listing :
    L0 <> [] -> plain L0 -> separated segs -> good_names (map fst segs) -> ~ In NL parent ->
    new_wpath name_ok (render (template L0 segs)) = Ok wp -> NoDup listing ->
    (forall p, In p listing -> exists num kw, assigns kw (dec_val num) (map fst segs) /\ fill wp parent kw = Ok p) ->
    exists D, dict_values wp listing = Ok D /\ dkeys D = listing /\
      forall p num kw, In p listing -> assigns kw (dec_val num) (map fst segs) -> fill wp parent kw = Ok p ->
        exists d, dget D p = Some d /\ reads_back d num (map fst segs).
  Proof.
    intros N0 P0 S G N W ND L.
    assert (T := template_toks L0 segs P0 S G).
    destruct (new_wpath_render name_ok (template L0 segs) wp T W) as (_ & _ & R).
    unfold dict_values. rewrite R, compile_ok; auto.
    2:{ rewrite template_names. apply G. }
    2:{ apply template_lits; auto. }
    cbn [rbind].
    destruct (loop_all_read (RStarAny :: flat_map gitems (numbered (fun _ => 0) (template L0 segs)) ++ END_ITEMS) listing
      (fun p d => forall num kw, assigns kw (dec_val num) (map fst segs) -> fill wp parent kw = Ok p -> reads_back d num (map fst segs)) ND) with (acc := @nil (str * dict str nat))
      as (D & E & K & GD); auto.
    { intros p Ip. destruct (L p Ip) as (num & kw & A & Ef).
      destruct (fill_template L0 segs wp num kw parent p P0 S G W N A Ef) as (pre & Np & Ep).
      destruct (template_read L0 segs num pre N0 P0 S Np) as (d & Ed & Rd). exists d. split; [rewrite Ep; auto|].
      intros num' kw' A' Ef'. destruct (fill_template L0 segs wp num' kw' parent p P0 S G W N A' Ef') as (pre' & Np' & Ep').
      destruct (template_read L0 segs num' pre' N0 P0 S Np') as (d' & Ed' & Rd'). rewrite <- Ep' in Ed'. rewrite <- Ep in Ed.
      rewrite Ed in Ed'. inversion Ed'; subst. auto. }
    exists D. simpl in E. split; auto. split; auto. intros p num kw Ip A Ef.
    destruct (dget D p) as [d|] eqn:Ed.
    - exists d. split; auto. apply (GD p d) with (kw := kw); auto.
      clear - Ed. induction D as [|(k, x) D IH]; simpl in *; [discriminate|].
      destruct (eq_dec p k) as [->|]; [inversion Ed; auto|auto].
    - apply dget_None in Ed. rewrite K in Ed. contradiction.
  Qed.
End Read.

(** ** A wildcard without a literal before it *)
Lemma no_digit_group g r t : no_digits t -> matches (RGroup g :: r) t = [].
Proof.
  intros N. destruct (matches (RGroup g :: r) t) eqn:E; auto. exfalso.
  assert (M : matches (RGroup g :: r) t <> []) by congruence. apply group_inv in M.
  destruct M as (d & t' & -> & Nd & Dd & _). destruct d as [|c d]; [congruence|]. inversion Dd; subst. inversion N; subst. congruence.
Qed.

Lemma last_digit_match g L pre v c : ~ In NL pre -> all_digits v -> is_digit c = true -> quiet L ->
  re_match (RStarAny :: RGroup g :: map lit_item L ++ END_ITEMS) (pre ++ v ++ [c] ++ L) = Some [(g, [c])].
Proof.
  intros N V C Q. unfold re_match. replace (pre ++ v ++ [c] ++ L) with ((pre ++ v) ++ ([c] ++ L)) by (rewrite <- app_assoc; auto).
  assert (ND := quiet_no_digits L Q). apply hd_prefix.
  - intros I. apply in_app_iff in I. destruct I as [I|I]; auto.
    unfold all_digits in V. rewrite Forall_forall in V. apply V in I. discriminate.
  - apply hd_group; [discriminate|constructor; auto|destruct L as [|x L]; auto; right; inversion ND; subst; exists x, L; auto|].
    rewrite <- (app_nil_r L) at 2. rewrite lits_match. reflexivity.
  - intros j Lj. apply no_digit_group. destruct j as [|j]; [lia|]. cbn [app skipn].
    unfold no_digits in *. rewrite <- (firstn_skipn j L) in ND. apply Forall_app in ND. apply ND.
Qed.

Lemma int_of_snoc v c : int_of (v ++ [c]) = 10 * int_of v + digit_val c.
Proof. unfold int_of. rewrite fold_left_app. auto. Qed.

Lemma digit_val_lt c : is_digit c = true -> digit_val c < 10.
Proof. unfold is_digit, digit_val. intros D. apply andb_true_iff in D. destruct D as (D1 & D2). apply Nat.leb_le in D1, D2. lia. Qed.

Section Leading.
  Context (name_ok : str -> bool).

  Lemma leading_wildcard w L wp n parent p : w <> [] -> no_angle w -> quiet L -> ~ In NL parent ->
    new_wpath name_ok (render [Wild w; Lit L]) = Ok wp -> fill wp parent [(w, decimal n)] = Ok p ->
    dict_values wp [p] = Ok [(p, [(w, n mod 10)])].
  Proof.
    intros Nw A Q N W E.
    assert (T : Forall tok_ok [Wild w; Lit L]) by (constructor; [split; auto|constructor; [apply Q|constructor]]).
    destruct (new_wpath_render name_ok _ wp T W) as (_ & _ & R).
    assert (NC : no_index_clash (wild_names [Wild w; Lit L])).
    { intros x y i [<-|[]] [<-|[]] C. apply (f_equal (@length ascii)) in C. rewrite app_length in C. simpl in C. lia. }
    rewrite (fill_ok name_ok [Wild w; Lit L] wp [(w, decimal n)] (fun _ => decimal n) parent) in E; auto.
    2:{ split; [|split]. { repeat constructor; simpl; auto. } { simpl. tauto. } { intros k v [I|[]]. inversion I; auto. } }
    2:{ intros x _. pose proof (decimal_digits n) as D. rewrite Forall_forall in D.
        split; intros I; apply D in I; apply digit_facts in I; destruct I as (I1 & I2 & _); auto. }
    destruct (joined_prefix parent (filled (fun _ => decimal n) [Wild w; Lit L]) N) as (pre & Ep & Np).
    rewrite Ep in E. inversion E; subst p. clear E.
    unfold dict_values. rewrite R, compile_ok; auto.
    2:{ intros s [I|[I|[]]] c Ic; [discriminate|]. inversion I; subst. apply Q. auto. }
    cbn [rbind numbered flat_map gitems app foldM]. rewrite app_nil_r.
    unfold filled. cbn [map concat]. rewrite app_nil_r.
    destruct (exists_last (decimal_nonempty n)) as (v & c & Ev).
    assert (D := decimal_digits n). rewrite Ev in D. apply Forall_app in D. destruct D as (Dv & Dc). inversion Dc; subst.
    assert (En : n = 10 * int_of v + digit_val c) by (rewrite <- int_of_snoc; rewrite <- (int_of_decimal n) at 1; rewrite Ev; auto).
    unfold read_path. rewrite Ev at 1 2. rewrite <- app_assoc.
    rewrite (last_digit_match (group_name w 0) L pre v c Np Dv H1 Q).
    unfold read_groups. cbn [foldM fst snd rbind dget]. rewrite strip_group. cbn [dset rbind]. rewrite Ev, <- app_assoc.
    cbn [dset app]. f_equal. f_equal. f_equal. f_equal. f_equal.
    unfold int_of. cbn [fold_left]. rewrite En, Nat.mul_0_r, Nat.add_0_l.
    rewrite Nat.add_comm, Nat.mul_comm, Nat.mod_add by lia. symmetry. apply Nat.mod_small. apply digit_val_lt. auto.
  Qed.
End Leading.

(** ** Filtering *)
Lemma count_zero (wd : dict str nat) kw n : 
  fold_left (fun n wv => fold_left (fun n kv => if eqb (fst kv) (fst wv) && eqb (snd kv) (snd wv) then S n else n) kw n) wd n =
  n + fold_left (fun n wv => fold_left (fun n kv => if eqb (fst kv) (fst wv) && eqb (snd kv) (snd wv) then S n else n) kw n) wd 0.
Proof.
  assert (H : forall (wv : str * nat) kw (n : nat), fold_left (fun n (kv : str * nat) => if eqb (fst kv) (fst wv) && eqb (snd kv) (snd wv) then S n else n) kw n =
    n + fold_left (fun n kv => if eqb (fst kv) (fst wv) && eqb (snd kv) (snd wv) then S n else n) kw 0).
  { clear. intros wv. induction kw as [|kv kw IH]; intros n; simpl; [lia|]. destruct (_ && _).
    - rewrite (IH (S n)), (IH 1). lia.
    - apply IH. }
  revert n. induction wd as [|wv wd IH]; intros n; simpl; [lia|]. rewrite (H wv kw n), IH, (IH (fold_left _ kw 0)). lia.
Qed.

Definition agrees (wd : dict str nat) (kv : str * nat) : bool := match dget wd (fst kv) with Some v => eqb (snd kv) v | None => false end.

Lemma agrees_cons w v wd k u : agrees ((w, v) :: wd) (k, u) = if eq_dec k w then eqb u v else agrees wd (k, u).
Proof. unfold agrees. cbn [fst snd dget]. destruct (eq_dec k w); auto. Qed.

Lemma count_matching_spec wd kw : NoDup (dkeys wd) -> count_matching wd kw = length (filter (agrees wd) kw).
Proof.
  unfold count_matching. induction wd as [|(w, v) wd IH]; intros ND.
  - simpl. induction kw as [|kv kw IHk]; auto.
  - inversion ND; subst. cbn [fold_left]. rewrite count_zero, IH by auto.
    clear IH ND. induction kw as [|(k, u) kw IHk]; auto. cbn [fold_left filter fst snd].
    assert (Z : forall n, fold_left (fun n (kv : str * nat) => if eqb (fst kv) w && eqb (snd kv) v then S n else n) kw n =
      n + fold_left (fun n kv => if eqb (fst kv) w && eqb (snd kv) v then S n else n) kw 0).
    { clear. induction kw as [|kv kw IH]; intros n; simpl; [lia|]. destruct (_ && _); [rewrite (IH (S n)), (IH 1); lia|apply IH]. }
    cbn [fst snd] in IHk. rewrite agrees_cons. destruct (eq_dec k w) as [->|N].
    + rewrite eqb_refl. cbn [andb]. assert (DN : agrees wd (w, u) = false).
      { unfold agrees. cbn [fst]. assert (DN : dget wd w = None) by (apply dget_None; auto). rewrite DN. auto. }
      rewrite DN. destruct (eqb u v); [rewrite Z|]; cbn [length]; rewrite <- IHk; lia.
    + rewrite (eqb_neq k w) by auto. cbn [andb]. destruct (agrees wd (k, u)); cbn [length]; rewrite <- IHk; lia.
Qed.

Lemma filter_all {A} (f : A -> bool) l : length (filter f l) = length l <-> forall x, In x l -> f x = true.
Proof.
  induction l as [|x l IH]; simpl; [tauto|]. assert (LE : length (filter f l) <= length l).
  { clear. induction l; simpl; auto. destruct (f a); simpl; lia. }
  destruct (f x) eqn:E; simpl.
  - rewrite Nat.succ_inj_wd, IH. split; [intros H y [<-|I]; auto|auto].
  - split; [lia|]. intros H. rewrite H in E by auto. discriminate.
Qed.

Lemma filter_paths_spec pd kw : (forall p wd, In (p, wd) pd -> NoDup (dkeys wd)) ->
  filter_paths pd kw = map fst (filter (fun pw => forallb (agrees (snd pw)) kw) pd).
Proof.
  intros ND. unfold filter_paths. destruct (length kw =? 0) eqn:Z.
  - apply Nat.eqb_eq, length_zero_iff_nil in Z. subst. unfold dkeys. f_equal. clear.
    induction pd as [|x pd IH]; simpl; auto. f_equal. auto.
  - f_equal. apply filter_ext_in. intros (p, wd) I. cbn [snd]. rewrite count_matching_spec by (eapply ND; eauto).
    destruct (forallb (agrees wd) kw) eqn:E.
    + apply Nat.eqb_eq. apply filter_all. apply forallb_forall. auto.
    + apply Nat.eqb_neq. intros C. apply not_true_iff_false in E. apply E.
      apply forallb_forall. exact (proj1 (filter_all _ _) C).
Qed.

(** Dictionaries read from paths have distinct keys. *)
Lemma read_groups_nodup gs : forall d0 d, NoDup (dkeys d0) ->
  foldM (fun d g => let wname := strip_index (fst g) in
      match dget d wname with
      | None => Ok (dset d wname (int_of (snd g)))
      | Some v => if int_of (snd g) =? v then Ok d else Err AssertionError
      end) gs d0 = Ok d -> NoDup (dkeys d).
Proof.
  induction gs as [|g gs IH]; intros d0 d ND E; cbn [foldM] in E; [inversion E; subst; auto|]. cbv zeta in E.
  destruct (dget d0 (strip_index (fst g))) as [v|] eqn:G.
  - destruct (int_of (snd g) =? v); cbn [rbind] in E; [|discriminate]. eapply IH; eauto.
  - cbn [rbind] in E. eapply IH; [|exact E]. apply dget_None in G. rewrite dset_new by auto.
    unfold dkeys. rewrite map_app. simpl. apply NoDup_snoc; auto.
Qed.

Lemma read_path_nodup r p d : read_path r p = Ok (Some d) -> NoDup (dkeys d).
Proof.
  unfold read_path. destruct (re_match r p) as [gs|]; [|discriminate]. 
  destruct (read_groups gs) as [x|] eqn:E; cbn [rbind]; [|discriminate]. intros H. inversion H; subst.
  eapply read_groups_nodup; [|exact E]. constructor.
Qed.

Lemma dset_in {K V} `{EqDec K} (d : dict K V) k v k' v' : In (k', v') (dset d k v) -> (k', v') = (k, v) \/ In (k', v') d.
Proof.
  induction d as [|(a, b) d IH]; simpl.
  - intros [E|[]]. left. symmetry. exact E.
  - destruct (eq_dec k a) as [->|]; simpl; intros [E|I]; auto. destruct (IH I); auto.
Qed.

Lemma dict_values_nodup wp listing D : dict_values wp listing = Ok D -> forall p wd, In (p, wd) D -> NoDup (dkeys wd).
Proof.
  unfold dict_values. destruct (compile (wp_regex wp)) as [r|]; cbn [rbind]; [|discriminate].
  assert (G : forall acc, (forall p wd, In (p, wd) acc -> NoDup (dkeys wd)) ->
    foldM (fun paths f => do m <- read_path r f; Ok (match m with Some d => dset paths f d | None => paths end)) listing acc = Ok D ->
    forall p wd, In (p, wd) D -> NoDup (dkeys wd)).
  { induction listing as [|f listing IH]; intros acc A E; cbn [foldM] in E; [inversion E; subst; auto|].
    destruct (read_path r f) as [[d|]|] eqn:R; cbn [rbind] in E; [| |discriminate].
    - eapply IH; [|exact E]. intros p wd I. apply dset_in in I. destruct I as [I|I]; [|eauto]. inversion I; subst.
      eapply read_path_nodup; eauto.
    - eapply IH; eauto. }
  apply G. intros p wd [].
Qed.

Lemma matching_paths_spec wp listing kw D : dict_values wp listing = Ok D ->
  matching_paths wp listing kw =
  Ok (map fst (filter (fun pw => forallb (fun kv => match dget (snd pw) (fst kv) with Some v => eqb (snd kv) v | None => false end) kw) D)).
Proof.
  intros E. unfold matching_paths. rewrite E. cbn [rbind]. rewrite filter_paths_spec; auto. eapply dict_values_nodup. exact E.
Qed.

(** ** Filling, in full *)
Lemma starts_slash s : starts_with (str_of "/") s = true <-> exists t, s = "/"%char :: t.
Proof.
  destruct s as [|c s]; [split; [discriminate|intros (t & E); discriminate]|].
  change (starts_with (str_of "/") (c :: s)) with (Ascii.eqb "/" c && true). rewrite andb_true_r, Ascii.eqb_eq. split; [intros <-; eauto|intros (t & E); inversion E; auto].
Qed.

Lemma ends_slash s : starts_with (str_of "/") (rev s) = true <-> exists q, s = q ++ ["/"%char].
Proof.
  rewrite starts_slash. split; intros (t & E).
  - exists (rev t). rewrite <- (rev_involutive s), E. auto.
  - exists (rev t). rewrite E, rev_app_distr. auto.
Qed.

Lemma joined_ok parent s : joins_to parent s (joined parent s).
Proof.
  unfold joined, path_join, joins_to. pose proof (starts_slash s) as S. pose proof (ends_slash parent) as P.
  destruct parent as [|c parent].
  - simpl. repeat split; auto; intros C; congruence.
  - cbn [length]. change (0 <? Datatypes.S (length parent)) with true. cbv iota.
    destruct (starts_with (str_of "/") s).
    + assert (X := proj1 S eq_refl). repeat split; intros; try congruence; tauto.
    + assert (X : ~ exists t, s = "/"%char :: t) by (intros X; apply S in X; discriminate).
      destruct (starts_with (str_of "/") (rev (c :: parent))).
      * assert (Y := proj1 P eq_refl). repeat split; intros; try congruence; tauto.
      * assert (Y : ~ exists q, c :: parent = q ++ ["/"%char]) by (intros Y; apply P in Y; discriminate).
        repeat split; intros; try congruence; tauto.
Qed.

Section FillAll.
  Context (name_ok : str -> bool).

  Lemma fill_total ts wp kw parent : Forall tok_ok ts -> new_wpath name_ok (render ts) = Ok wp -> NoDup (dkeys kw) ->
    ((exists r, fill wp parent kw = Ok r) <-> exact_keys kw (wild_names ts)).
  Proof.
    intros F N ND. assert (LE : length (sorted_set (wild_names ts)) = length (nodup eq_dec (wild_names ts))).
    { apply Nat.le_antisymm; apply NoDup_incl_length; try apply sorted_set_nodup; try apply NoDup_nodup;
        intros x; rewrite nodup_In, sorted_set_in; auto. }
    split.
    - intros (r & E).
      destruct (Nat.eq_dec (length kw) (length (nodup eq_dec (wild_names ts)))) as [L|L].
      2:{ rewrite (fill_count name_ok ts) in E; auto. discriminate. }
      assert (I1 : incl (dkeys kw) (nodup eq_dec (wild_names ts))).
      { intros k Ik. apply nodup_In. destruct (in_dec eq_dec k (wild_names ts)) as [I|NI]; auto.
        rewrite (fill_unknown name_ok ts wp kw parent k) in E; auto. discriminate. }
      assert (I2 : incl (nodup eq_dec (wild_names ts)) (dkeys kw)) by (apply NoDup_length_incl; [auto|unfold dkeys; rewrite map_length; apply Nat.eq_le_incl; auto|exact I1]).
      intros k. rewrite <- (nodup_In eq_dec (wild_names ts) k). split; [apply I1|apply I2].
    - intros K. destruct (new_wpath_render name_ok ts wp F N) as (P1 & P2 & _). unfold fill. rewrite P2.
      assert (A : assigns kw (fun k => match dget kw k with Some v => v | None => [] end) (wild_names ts)).
      { split; auto. split; auto. intros k v I. clear - I ND. induction kw as [|(a, b) kw IH]; simpl in *; [tauto|].
        inversion ND; subst. destruct (eq_dec k a) as [->|Ne].
        - destruct I as [I|I]; [inversion I; auto|]. exfalso. apply H1. apply in_map_iff. exists (a, v). auto.
        - destruct I as [I|I]; [inversion I; subst; congruence|]. auto. }
      rewrite (assigns_length kw _ (wild_names ts) A), Nat.eqb_refl. cbn [negb].
      assert (G : forall s, exists s', foldM (fun path kv => if memb (fst kv) (sorted_set (wild_names ts)) then Ok (replace_all (wrap (fst kv)) (snd kv) path) else Err KeyError) kw s = Ok s').
      { assert (K' : forall k, In k (dkeys kw) -> In k (wild_names ts)) by (intros k; apply K).
        clear - K'. induction kw as [|(k, v) kw IH]; intros s; [eexists; reflexivity|]. cbn [foldM fst snd].
        assert (M : memb (A := str) k (sorted_set (wild_names ts)) = true).
        { apply memb_true. apply (proj2 (sorted_set_in _ _)). apply K'. simpl. auto. }
        rewrite M. cbn [rbind]. apply IH. intros x Ix. apply K'. simpl. auto. }
      destruct (G (wp_path wp)) as (s' & E). rewrite E. cbn [rbind]. eauto.
  Qed.

  Lemma fill_all ts wp kw parent : Forall tok_ok ts -> new_wpath name_ok (render ts) = Ok wp -> NoDup (dkeys kw) ->
    ((exists r, fill wp parent kw = Ok r) <-> exact_keys kw (wild_names ts)) /\
    (forall val, assigns kw val (wild_names ts) -> (forall w, In w (wild_names ts) -> no_angle (val w)) ->
      exists r, fill wp parent kw = Ok r /\ joins_to parent (filled val ts) r) /\
    (length kw <> length (nodup eq_dec (wild_names ts)) -> fill wp parent kw = Err ValueError) /\
    (length kw = length (nodup eq_dec (wild_names ts)) -> ~ exact_keys kw (wild_names ts) -> fill wp parent kw = Err KeyError).
  Proof.
    intros F N ND. split; [apply fill_total; auto|]. split; [|split].
    - intros val A V. exists (joined parent (filled val ts)). split; [|apply joined_ok]. apply (fill_ok name_ok); auto.
    - apply (fill_count name_ok); auto.
    - intros L NK.
      destruct (existsb (fun k => negb (memb k (wild_names ts))) (dkeys kw)) eqn:X.
      + apply existsb_exists in X. destruct X as (k & Ik & X). apply negb_true_iff in X.
        apply (fill_unknown name_ok ts wp kw parent k); auto. apply memb_false. auto.
      + exfalso. apply NK. assert (I1 : incl (dkeys kw) (nodup eq_dec (wild_names ts))).
        { intros k Ik. apply nodup_In. destruct (in_dec eq_dec k (wild_names ts)) as [I|NI]; auto. exfalso.
          apply not_true_iff_false in X. apply X. apply existsb_exists. exists k. split; auto. apply negb_true_iff. apply memb_false. auto. }
        assert (I2 : incl (nodup eq_dec (wild_names ts)) (dkeys kw)) by (apply NoDup_length_incl; [auto|unfold dkeys; rewrite map_length; apply Nat.eq_le_incl; auto|exact I1]).
        intros k. rewrite <- (nodup_In eq_dec (wild_names ts) k). split; [apply I1|apply I2].
  Qed.
End FillAll.

Lemma filter_unknown wp listing kw D k v : dict_values wp listing = Ok D -> In (k, v) kw ->
  (forall p wd, In (p, wd) D -> ~ In k (dkeys wd)) -> matching_paths wp listing kw = Ok [].
Proof.
  intros E I U. rewrite (matching_paths_spec wp listing kw D E). f_equal.
  assert (Z : filter (fun pw : str * dict str nat => forallb (fun kv : str * nat => match dget (snd pw) (fst kv) with Some v => eqb (snd kv) v | None => false end) kw) D = []).
  { clear E. induction D as [|(p, wd) D IH]; auto. cbn [filter snd]. rewrite IH by (intros; eapply U; simpl; eauto).
    destruct (forallb _ kw) eqn:F; auto. rewrite forallb_forall in F. specialize (F (k, v) I). cbn [fst snd] in F.
    assert (N : dget wd k = None) by (apply dget_None; eapply U; simpl; eauto). rewrite N in F. discriminate. }
  rewrite Z. auto.
Qed.

(** Checking the conditions on concrete templates. *)
Definition quiet_b (s : str) : bool := forallb (fun c => negb (memb c (str_of "<>0123456789\^$*+?{}[]|()"))) s.
Lemma quiet_check s : quiet_b s = true -> quiet s.
Proof.
  intros H. unfold quiet_b in H. rewrite forallb_forall in H.
  assert (G : forall c, In c s -> forall d, In d (str_of "<>0123456789\^$*+?{}[]|()") -> c <> d).
  { intros c I d Id ->. specialize (H d I). apply negb_true_iff in H. apply memb_false in H. contradiction. }
  split.
  - split; intros I; eapply (G _ I); try reflexivity; simpl; auto.
  - intros c I. split; intros D; apply (G c I c); auto; change (str_of "<>0123456789\^$*+?{}[]|()") with (str_of "<>" ++ str_of "0123456789" ++ str_of "\^$*+?{}[]|()");
      apply in_app_iff; right; apply in_app_iff; [left|right]; exact D.
Qed.
Lemma plain_check s : quiet_b s = true -> memb "."%char s = false -> plain s.
Proof. intros Q M. split; [apply quiet_check; auto|apply memb_false; auto]. Qed.
Lemma clash_check ws : forallb (fun w => negb (memb "_"%char w)) ws = true -> no_index_clash ws.
Proof.
  intros H w w' i _ I ->. rewrite forallb_forall in H. specialize (H _ I). apply negb_true_iff, memb_false in H.
  apply H. apply in_app_iff. right. simpl. auto.
Qed.
Lemma angle_check s : negb (memb "<"%char s) && negb (memb ">"%char s) = true -> no_angle s.
Proof. intros H. apply andb_true_iff in H. destruct H as (H1 & H2). apply negb_true_iff, memb_false in H1, H2. split; auto. Qed.
