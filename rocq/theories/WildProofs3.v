(** Proofs: reading wildcard values back. *)
From Coq Require Import Ascii String List Arith Bool Lia.
From Verif Require Import Prelude TreeModel MeshModel IoModel StlModel TreeProofs WildModel WildSpec WildProofs WildProofs2.
Import ListNotations.

Definition all_digits (s : str) : Prop := Forall (fun c => is_digit c = true) s.
Definition no_digits (s : str) : Prop := Forall (fun c => is_digit c = false) s.
Definition head_digit (s : str) : Prop := exists c t, s = c :: t /\ is_digit c = true.
Definition head_other (s : str) : Prop := exists c t, s = c :: t /\ is_digit c = false.

Lemma quiet_no_digits s : quiet s -> no_digits s.
Proof.
  intros (_ & Q). apply Forall_forall. intros c I. destruct (is_digit c) eqn:D; auto. exfalso.
  destruct (Q c I) as (N & _). apply N. apply is_digit_char. auto.
Qed.

(** Splitting texts at the border between digits and other characters. *)
Lemma split_digits d : forall v x y, all_digits d -> all_digits v -> head_other x -> (y = [] \/ head_other y) ->
  d ++ x = v ++ y -> d = v /\ x = y.
Proof.
  induction d as [|c d IH]; intros v x y D V X Y E.
  - destruct v as [|e v]; [split; auto|]. exfalso. destruct X as (c & t & -> & C). simpl in E. inversion E; subst.
    inversion V; subst. congruence.
  - inversion D; subst. destruct v as [|e v].
    + exfalso. destruct Y as [->|(e & t & -> & C)]; simpl in E; inversion E; subst. congruence.
    + simpl in E. inversion E; subst. inversion V; subst. destruct (IH v x y) as (-> & ->); auto.
Qed.

Lemma split_others l : forall m x y, no_digits l -> no_digits m -> head_digit x -> (y = [] \/ head_digit y) ->
  l ++ x = m ++ y -> l = m /\ x = y.
Proof.
  induction l as [|c l IH]; intros m x y D V X Y E.
  - destruct m as [|e m]; [split; auto|]. exfalso. destruct X as (c & t & -> & C). simpl in E. inversion E; subst.
    inversion V; subst. congruence.
  - inversion D; subst. destruct m as [|e m].
    + exfalso. destruct Y as [->|(e & t & -> & C)]; simpl in E; inversion E; subst. congruence.
    + simpl in E. inversion E; subst. inversion V; subst. destruct (IH m x y) as (-> & ->); auto.
Qed.

(** ** Items *)
Lemma lits_match s r t : matches (map lit_item s ++ r) (s ++ t) = matches r t.
Proof.
  induction s as [|c s IH]; auto. cbn [map app]. unfold lit_item at 1. destruct (Ascii.eqb_spec c ".") as [->|].
  - cbn [matches]. change (Ascii.eqb "." NL) with false. cbv iota. auto.
  - cbn [matches]. rewrite Ascii.eqb_refl. auto.
Qed.

Lemma lits_inv s r : forall t, ~ In "."%char s -> matches (map lit_item s ++ r) t <> [] ->
  exists t', t = s ++ t' /\ matches r t' <> [].
Proof.
  induction s as [|c s IH]; intros t N M; [exists t; auto|]. cbn [map app] in M. unfold lit_item at 1 in M.
  destruct (Ascii.eqb_spec c ".") as [->|]; [exfalso; apply N; simpl; auto|]. cbn [matches] in M.
  destruct t as [|d t]; [congruence|]. destruct (Ascii.eqb_spec c d) as [->|]; [|congruence].
  destruct (IH t) as (t' & -> & M'); auto; [intros I; apply N; simpl; auto|]. exists t'. auto.
Qed.

Lemma flat_map_nonempty {A B} (f : A -> list B) l : flat_map f l <> [] -> exists x, In x l /\ f x <> [].
Proof.
  induction l as [|x l IH]; simpl; [congruence|]. intros N. destruct (f x) as [|y ys] eqn:E.
  - destruct IH as (z & I & M); auto. eauto.
  - exists x. split; auto. congruence.
Qed.

Lemma run_len_prefix f s : forall k, k <= run_len f s -> k <= length s /\ Forall (fun c => f c = true) (firstn k s).
Proof.
  induction s as [|c s IH]; intros k L; simpl in L.
  - assert (k = 0) by lia. subst. simpl. auto.
  - destruct (f c) eqn:E; [|assert (k = 0) by lia; subst; simpl; split; [lia|constructor]].
    destruct k as [|k]; [simpl; split; [lia|constructor]|]. destruct (IH k) as (L1 & L2); [lia|]. simpl. split; [lia|constructor; auto].
Qed.

Lemma group_inv g r t : matches (RGroup g :: r) t <> [] ->
  exists d t', t = d ++ t' /\ d <> [] /\ all_digits d /\ matches r t' <> [].
Proof.
  intros M. cbn [matches] in M. apply flat_map_nonempty in M. destruct M as (k & I & M).
  apply in_rev, in_seq in I. exists (firstn k t), (skipn k t). rewrite firstn_skipn. split; auto.
  destruct (run_len_prefix is_digit t k) as (L1 & L2); [lia|].
  split; [|split; auto].
  - intros E. apply (f_equal (@length ascii)) in E. rewrite firstn_length in E. simpl in E. lia.
  - intros E. apply M. rewrite E. auto.
Qed.

(** ** Sequences of groups and literals *)
Definition pitems (ps : list (str * str)) : list item :=
  flat_map (fun p => RGroup (fst p) :: map lit_item (snd p)) ps ++ END_ITEMS.
Definition ptext (ts : list (str * str)) : str := concat (map (fun t => fst t ++ snd t) ts).

Lemma pitems_cons g l ps : pitems ((g, l) :: ps) = RGroup g :: map lit_item l ++ pitems ps.
Proof. unfold pitems. cbn [flat_map fst snd app]. rewrite <- app_assoc. auto. Qed.

(** Values are digits; literals separate them. *)
Fixpoint values_ok (ts : list (str * str)) : Prop :=
  match ts with
  | [] => True
  | (v, m) :: ts' => v <> [] /\ all_digits v /\ no_digits m /\ (ts' <> [] -> m <> []) /\ values_ok ts'
  end.

Lemma ptext_head ts : values_ok ts -> ptext ts = [] \/ head_digit (ptext ts).
Proof.
  destruct ts as [|(v, m) ts]; simpl; auto. intros (N & D & _). right. destruct v as [|c v]; [congruence|].
  inversion D; subst. exists c. eexists. split; [reflexivity|auto].
Qed.

Lemma no_digits_head m t : no_digits m -> m <> [] -> head_other (m ++ t).
Proof. destruct m as [|c m]; [congruence|]. intros N _. inversion N; subst. exists c. eexists. split; [reflexivity|auto]. Qed.

(** A pattern with more groups than the text has numbers does not match. *)
Lemma too_many_groups ts : forall ps, values_ok ts -> separated ps -> length ts < length ps ->
  matches (pitems ps) (ptext ts) = [].
Proof.
  induction ts as [|(v, m) ts IH]; intros [|(g, l) ps] V S L; simpl in L; try lia.
  - reflexivity.
  - destruct (matches (pitems ((g, l) :: ps)) (ptext ((v, m) :: ts))) eqn:E; auto. exfalso.
    assert (M : matches (pitems ((g, l) :: ps)) (ptext ((v, m) :: ts)) <> []) by congruence. clear E.
    destruct ps as [|(g2, l2) ps]; [simpl in L; lia|]. destruct S as (Nl & (Ql & Dl) & S).
    rewrite pitems_cons in M. apply group_inv in M. destruct M as (d & t' & E & Nd & Dd & M).
    apply lits_inv in M; auto. destruct M as (t'' & -> & M).
    assert (H2 : head_digit t'').
    { rewrite pitems_cons in M. apply group_inv in M. destruct M as (d2 & r & -> & N2 & D2 & _).
      destruct d2 as [|c d2]; [congruence|]. inversion D2; subst. exists c. eexists. split; [reflexivity|auto]. }
    destruct V as (Nv & Dv & Nm & Sm & V). unfold ptext in E. cbn [map concat fst snd] in E. fold (ptext ts) in E.
    rewrite <- app_assoc in E. apply quiet_no_digits in Ql.
    destruct (split_digits d v (l ++ t'') (m ++ ptext ts)) as (-> & E2); auto.
    { apply no_digits_head; auto. }
    { destruct ts as [|t0 ts]; [|right; apply no_digits_head; auto; apply Sm; discriminate].
      unfold ptext. simpl. rewrite app_nil_r. destruct m as [|c m]; auto. right. inversion Nm; subst. exists c, m. auto. }
    destruct (split_others l m t'' (ptext ts)) as (-> & ->); auto; [apply ptext_head; auto|].
    apply M. apply IH; auto. simpl in *. lia.
Qed.

(** The pattern preceded by a literal matches at no place after the first one. *)
Lemma suffix_none l0 ps : l0 <> [] -> plain l0 -> ps <> [] -> separated ps ->
  forall ts j, values_ok ts -> length ts <= length ps ->
  matches (map lit_item l0 ++ pitems ps) (skipn j (ptext ts)) = [].
Proof.
  intros N0 (Q0 & D0) NP S. assert (ND := quiet_no_digits l0 Q0).
  assert (Hgo : forall t, (forall t', t = l0 ++ t' -> head_digit t' -> matches (pitems ps) t' = []) ->
    matches (map lit_item l0 ++ pitems ps) t = []).
  { intros t H. destruct (matches (map lit_item l0 ++ pitems ps) t) eqn:E; auto. exfalso.
    assert (M : matches (map lit_item l0 ++ pitems ps) t <> []) by congruence. apply lits_inv in M; auto.
    destruct M as (t' & -> & M). apply M. apply H; auto.
    destruct ps as [|(g9, l9) ps]; [congruence|]. rewrite pitems_cons in M. apply group_inv in M.
    destruct M as (d & r & -> & Nd & Dd & _). destruct d as [|c d]; [congruence|]. inversion Dd; subst.
    exists c. eexists. split; [reflexivity|auto]. }
  induction ts as [|(v, m) ts IH]; intros j V L.
  - unfold ptext. simpl. rewrite skipn_nil. destruct l0 as [|c l0]; [congruence|]. apply Hgo. intros t' E. discriminate.
  - destruct V as (Nv & Dv & Nm & Sm & V). unfold ptext. cbn [map concat fst snd]. fold (ptext ts). rewrite <- app_assoc.
    destruct (le_lt_dec (length v) j) as [Lj|Lj].
    + rewrite skipn_app. rewrite (skipn_all2 v) by auto. cbn [app].
      set (j1 := j - length v). destruct (le_lt_dec (length m) j1) as [Lm|Lm].
      * rewrite skipn_app. rewrite (skipn_all2 m) by auto. cbn [app]. apply IH; auto. simpl in L. lia.
      * apply Hgo. intros t' E H. rewrite skipn_app in E. replace (j1 - length m) with 0 in E by lia. cbn [skipn] in E.
        destruct (split_others l0 (skipn j1 m) t' (ptext ts)) as (_ & ->); auto.
        { apply Forall_forall. intros c I. rewrite <- (firstn_skipn j1 m) in Nm. apply Forall_app in Nm.
          destruct Nm as (_ & Nm). rewrite Forall_forall in Nm. auto. }
        { apply ptext_head; auto. }
        apply too_many_groups; auto.
    + apply Hgo. intros t' E H. exfalso. rewrite skipn_app in E. destruct (skipn j v) as [|c u] eqn:Ev.
      * apply (f_equal (@length ascii)) in Ev. rewrite skipn_length in Ev. simpl in Ev. lia.
      * destruct l0 as [|c0 l0]; [congruence|]. simpl in E. inversion E; subst. assert (HD := Forall_inv ND). simpl in HD.
        assert (I : In c0 v) by (rewrite <- (firstn_skipn j v), Ev; apply in_app_iff; right; simpl; auto).
        unfold all_digits in Dv. rewrite Forall_forall in Dv. rewrite (Dv c0 I) in HD. discriminate.
Qed.

Lemma later_none l0 ps ts j : l0 <> [] -> plain l0 -> ps <> [] -> separated ps -> values_ok ts -> length ts <= length ps -> 1 <= j ->
  matches (map lit_item l0 ++ pitems ps) (skipn j (l0 ++ ptext ts)) = [].
Proof.
  intros N0 P0 NP S V L Lj. destruct (le_lt_dec (length l0) j) as [Ll|Ll].
  - rewrite skipn_app. rewrite (skipn_all2 l0) by auto. cbn [app]. apply suffix_none; auto.
  - destruct (matches (map lit_item l0 ++ pitems ps) (skipn j (l0 ++ ptext ts))) eqn:E; auto. exfalso.
    assert (M : matches (map lit_item l0 ++ pitems ps) (skipn j (l0 ++ ptext ts)) <> []) by congruence.
    destruct P0 as (Q0 & D0). apply lits_inv in M; auto. destruct M as (t' & Et & M).
    rewrite skipn_app in Et. replace (j - length l0) with 0 in Et by lia. cbn [skipn] in Et.
    assert (ND := quiet_no_digits l0 Q0).
    destruct ps as [|(g9, l9) ps]; [congruence|]. rewrite pitems_cons in M. apply group_inv in M.
    destruct M as (d & r & Er & Nd & Dd & _). destruct d as [|c d]; [congruence|].
    assert (HD : head_digit t'). { exists c. eexists. split; [exact Er|]. inversion Dd; auto. }
    destruct (split_others l0 (skipn j l0) t' (ptext ts)) as (El & _); auto.
    + apply Forall_forall. intros x I. unfold no_digits in ND. rewrite <- (firstn_skipn j l0) in ND. apply Forall_app in ND.
      destruct ND as (_ & ND). rewrite Forall_forall in ND. auto.
    + apply ptext_head; auto.
    + apply (f_equal (@length ascii)) in El. rewrite skipn_length in El. lia.
Qed.

(** ** The first match *)
Lemma hd_flat_map {A B} (f : A -> list B) x l y : hd_error (f x) = Some y -> hd_error (flat_map f (x :: l)) = Some y.
Proof. simpl. destruct (f x); simpl; [discriminate|auto]. Qed.

Lemma hd_group g r d t gs : d <> [] -> all_digits d -> (t = [] \/ head_other t) -> hd_error (matches r t) = Some gs ->
  hd_error (matches (RGroup g :: r) (d ++ t)) = Some ((g, d) :: gs).
Proof.
  intros N D T M. cbn [matches]. rewrite run_len_app by exact D.
  assert (Z : run_len is_digit t = 0) by (destruct T as [->|(c & u & -> & C)]; simpl; auto; rewrite C; auto).
  rewrite Z, Nat.add_0_r. destruct (length d) as [|n] eqn:L; [apply length_zero_iff_nil in L; congruence|].
  rewrite seq_S, rev_app_distr. cbn [rev app]. apply hd_flat_map. replace (1 + n) with (length d) by lia.
  rewrite firstn_app, skipn_app, firstn_all, skipn_all, Nat.sub_diag. cbn [firstn skipn app]. rewrite app_nil_r.
  destruct (matches r t); [discriminate|]. simpl in *. inversion M; subst. auto.
Qed.

Lemma hd_items (l : list (str * str * str)) : values_ok (map (fun x => (snd (fst x), snd x)) l) ->
  hd_error (matches (pitems (map (fun x => (fst (fst x), snd x)) l)) (ptext (map (fun x => (snd (fst x), snd x)) l))) =
  Some (map fst l).
Proof.
  induction l as [|((g, v), m) l IH]; intros V; [reflexivity|].
  cbn [map fst snd] in V. destruct V as (Nv & Dv & Nm & Sm & V).
  cbn [map fst snd]. rewrite pitems_cons. unfold ptext. cbn [map concat fst snd]. rewrite <- !app_assoc.
  apply hd_group; auto.
  - destruct l as [|x l]; [|right; apply no_digits_head; auto; apply Sm; discriminate].
    simpl. rewrite app_nil_r. destruct m as [|c m]; auto. right. inversion Nm; subst. exists c, m. auto.
  - rewrite lits_match. apply IH. auto.
Qed.

Lemma hd_prefix r pre s gs : ~ In NL pre -> hd_error (matches r s) = Some gs ->
  (forall j, 1 <= j -> matches r (skipn j s) = []) ->
  hd_error (matches (RStarAny :: r) (pre ++ s)) = Some gs.
Proof.
  intros N M H. cbn [matches].
  assert (F : Forall (fun c => negb (Ascii.eqb c NL) = true) pre).
  { apply Forall_forall. intros c I. destruct (Ascii.eqb_spec c NL) as [->|]; auto. }
  rewrite run_len_app by exact F. set (n := run_len _ s).
  replace (S (length pre + n)) with (S (length pre) + n) by lia. rewrite seq_app, rev_app_distr, flat_map_app.
  assert (Z : flat_map (fun k => matches r (skipn k (pre ++ s))) (rev (seq (0 + S (length pre)) n)) = []).
  { assert (G : forall ks, (forall k, In k ks -> length pre < k) -> flat_map (fun k => matches r (skipn k (pre ++ s))) ks = []).
    { induction ks as [|k ks IH]; intros Hk; auto. cbn [flat_map]. rewrite IH by (intros; apply Hk; simpl; auto).
      rewrite app_nil_r. rewrite skipn_app. rewrite skipn_all2 by (specialize (Hk k (or_introl eq_refl)); lia). cbn [app].
      apply H. specialize (Hk k (or_introl eq_refl)). lia. }
    apply G. intros k I. apply in_rev, in_seq in I. lia. }
  rewrite Z. cbn [app]. rewrite seq_S, rev_app_distr. cbn [rev app]. apply hd_flat_map.
  rewrite Nat.add_0_l, skipn_app, skipn_all, Nat.sub_diag. auto.
Qed.

Lemma no_groups_matches r : groups r = [] -> forall s gs, In gs (matches r s) -> gs = [].
Proof.
  induction r as [|it r IH]; intros G s gs I; [simpl in I; intuition|].
  destruct it as [c| |c| | |g]; simpl in G; try discriminate; cbn [matches] in I.
  - destruct s as [|d s]; [destruct I|]. destruct (Ascii.eqb c d); [|destruct I]. eauto.
  - destruct s as [|d s]; [destruct I|]. destruct (Ascii.eqb d NL); [destruct I|]. eauto.
  - apply in_flat_map in I. destruct I as (k & _ & I). eauto.
  - apply in_flat_map in I. destruct I as (k & _ & I). eauto.
  - destruct (_ || _); [|destruct I]. eauto.
Qed.

Lemma hd_prefix_nogroups r pre s : groups r = [] -> ~ In NL pre -> matches r s <> [] ->
  hd_error (matches (RStarAny :: r) (pre ++ s)) = Some [].
Proof.
  intros G N M.
  assert (X : matches (RStarAny :: r) (pre ++ s) <> []).
  { cbn [matches]. intros E. apply M.
    assert (F : Forall (fun c => negb (Ascii.eqb c NL) = true) pre).
    { apply Forall_forall. intros c I. destruct (Ascii.eqb_spec c NL) as [->|]; auto. }
    assert (Z : forall gs, ~ In gs (matches r s)).
    { intros gs I. assert (J : In gs (flat_map (fun k => matches r (skipn k (pre ++ s)))
         (rev (seq 0 (S (run_len (fun c => negb (Ascii.eqb c NL)) (pre ++ s))))))).
      { apply in_flat_map. exists (length pre). split.
        - apply -> in_rev. apply in_seq. rewrite run_len_app by exact F. lia.
        - rewrite skipn_app, skipn_all, Nat.sub_diag. auto. }
      rewrite E in J. destruct J. }
    destruct (matches r s) as [|gs l]; auto. exfalso. apply (Z gs). simpl. auto. }
  destruct (matches (RStarAny :: r) (pre ++ s)) as [|gs l] eqn:E; [congruence|]. simpl.
  f_equal. apply (no_groups_matches (RStarAny :: r) G (pre ++ s)). rewrite E. simpl. auto.
Qed.

(** ** Templates *)

(** The groups of a template with their values and following literals. *)
Fixpoint triples (seen : str -> nat) (val : str -> str) (segs : list (str * str)) : list (str * str * str) :=
  match segs with
  | [] => []
  | (w, l) :: segs' => (group_name w (seen w), val w, l) :: triples (bump seen w) val segs'
  end.

Lemma template_items segs val : forall seen,
  flat_map gitems (numbered seen (flat_map (fun wl => [Wild (fst wl); Lit (snd wl)]) segs)) ++ END_ITEMS =
  pitems (map (fun x => (fst (fst x), snd x)) (triples seen val segs)).
Proof.
  unfold pitems. intros seen. f_equal. revert seen. induction segs as [|(w, l) segs IH]; intros seen; auto.
  cbn [flat_map fst snd app numbered triples map gitems]. rewrite IH. auto.
Qed.

Lemma template_text segs val : forall seen,
  filled val (flat_map (fun wl => [Wild (fst wl); Lit (snd wl)]) segs) =
  ptext (map (fun x => (snd (fst x), snd x)) (triples seen val segs)).
Proof.
  unfold filled, ptext. induction segs as [|(w, l) segs IH]; intros seen; auto.
  cbn [flat_map fst snd app triples map concat]. rewrite (IH (bump seen w)), <- app_assoc. auto.
Qed.

Lemma triples_length seen val segs : length (triples seen val segs) = length segs.
Proof. revert seen. induction segs as [|(w, l) segs IH]; intros seen; simpl; auto. Qed.

Lemma separated_triples val segs : separated segs -> forall seen, separated (map (fun x => (fst (fst x), snd x)) (triples seen val segs)).
Proof.
  induction segs as [|(w, l) segs IH]; intros S seen; auto. cbn [triples map fst snd].
  destruct segs as [|(w2, l2) segs]; [exact S|]. destruct S as (S1 & S2 & S3). specialize (IH S3 (bump seen w)).
  cbn [triples map fst snd] in *. split; [exact S1|split; [exact S2|exact IH]].
Qed.

Lemma values_triples val segs : separated segs -> (forall w, In w (map fst segs) -> val w <> [] /\ all_digits (val w)) ->
  forall seen, values_ok (map (fun x => (snd (fst x), snd x)) (triples seen val segs)).
Proof.
  induction segs as [|(w, l) segs IH]; intros S V seen; [exact I|]. cbn [triples map fst snd values_ok].
  destruct (V w) as (V1 & V2); [simpl; auto|].
  assert (V' : forall w0, In w0 (map fst segs) -> val w0 <> [] /\ all_digits (val w0)) by (intros x Ix; apply V; simpl; auto).
  destruct segs as [|(w2, l2) segs].
  - split; [auto|]. split; [auto|]. split; [apply quiet_no_digits; exact S|]. split; [simpl; congruence|exact I].
  - destruct S as (S1 & S2 & S3). split; auto. split; auto. split; [apply quiet_no_digits; apply S2|]. split; [auto|].
    apply IH; auto.
Qed.

Lemma template_match L0 segs val pre : L0 <> [] -> plain L0 -> separated segs ->
  (forall w, In w (map fst segs) -> val w <> [] /\ all_digits (val w)) -> ~ In NL pre ->
  re_match (RStarAny :: flat_map gitems (numbered (fun _ => 0) (template L0 segs)) ++ END_ITEMS) (pre ++ filled val (template L0 segs)) =
  Some (map fst (triples (fun _ => 0) val segs)).
Proof.
  intros N0 P0 S V N. unfold re_match, template. cbn [numbered flat_map gitems]. rewrite <- app_assoc.
  unfold filled. cbn [map concat]. fold (filled val (flat_map (fun wl => [Wild (fst wl); Lit (snd wl)]) segs)).
  rewrite (template_items segs val), (template_text segs val (fun _ => 0)).
  assert (VT := values_triples val segs S V (fun _ => 0)).
  assert (H0 : hd_error (matches (map lit_item L0 ++ pitems (map (fun x => (fst (fst x), snd x)) (triples (fun _ => 0) val segs)))
      (L0 ++ ptext (map (fun x => (snd (fst x), snd x)) (triples (fun _ => 0) val segs)))) = Some (map fst (triples (fun _ => 0) val segs))).
  { rewrite lits_match. apply hd_items. auto. }
  destruct segs as [|wl segs].
  - apply hd_prefix_nogroups; auto.
    + simpl. rewrite groups_app, groups_lits. auto.
    + intros E. rewrite E in H0. discriminate.
  - apply hd_prefix; auto. intros j L. apply later_none; auto.
    + destruct wl. simpl. discriminate.
    + apply separated_triples; auto.
    + rewrite !map_length. auto.
Qed.

(** ** The dictionary *)
Lemma read_groups_ok num (gs : list (str * str)) : forall d, 
  (forall g v, In (g, v) gs -> int_of v = num (strip_index g)) ->
  NoDup (dkeys d) -> (forall w n, In (w, n) d -> n = num w) ->
  exists d', foldM (fun d g => let wname := strip_index (fst g) in
      match dget d wname with
      | None => Ok (dset d wname (int_of (snd g)))
      | Some v => if int_of (snd g) =? v then Ok d else Err AssertionError
      end) gs d = Ok d' /\ NoDup (dkeys d') /\ (forall w n, In (w, n) d' -> n = num w) /\
    (forall w, In w (dkeys d') <-> In w (dkeys d) \/ In w (map (fun g => strip_index (fst g)) gs)).
Proof.
  induction gs as [|(g, v) gs IH]; intros d G ND D.
  - exists d. simpl. intuition.
  - cbn [foldM fst snd]. cbv zeta. assert (Ev := G g v (or_introl eq_refl)).
    destruct (dget d (strip_index g)) as [u|] eqn:E.
    + assert (Eu : u = num (strip_index g)).
      { apply D. clear - E. induction d as [|(k, x) d IHd]; simpl in *; [discriminate|].
        destruct (eq_dec (strip_index g) k) as [->|]; [inversion E; auto|auto]. }
      rewrite Ev, Eu, Nat.eqb_refl. cbn [rbind]. destruct (IH d) as (d' & E' & R1 & R2 & R3); auto.
      { intros; apply G; simpl; auto. }
      exists d'. split; auto. split; auto. split; auto. intros w. rewrite R3. simpl. split; [tauto|].
      intros [I|[<-|I]]; auto. left. destruct (in_dec eq_dec (strip_index g) (dkeys d)) as [I|NI]; auto.
      apply dget_None in NI. congruence.
    + apply dget_None in E. rewrite dset_new by auto. cbn [rbind].
      destruct (IH (d ++ [(strip_index g, int_of v)])) as (d' & E' & R1 & R2 & R3).
      { intros; apply G; simpl; auto. }
      { unfold dkeys. rewrite map_app. simpl. apply NoDup_snoc; auto. }
      { intros w n I. apply in_app_iff in I. destruct I as [I|[I|[]]]; auto. inversion I; subst. auto. }
      exists d'. split; auto. split; auto. split; auto. intros w. rewrite R3. unfold dkeys. rewrite map_app, in_app_iff. simpl. tauto.
Qed.
