(** Proofs for made directories: reading a listing. *)
From Coq Require Import Ascii String List Arith Bool Lia.
From Verif Require Import Prelude TreeModel MeshModel IoModel StlModel WildModel WildSpec WildProofs WildProofs2 WildProofs3 WildProofs4 DirModel DirSpec DirProofs DirProofs2.
Import ListNotations.

Definition items (ts : list tok) : list item := RStarAny :: flat_map gitems (numbered (fun _ => 0) ts) ++ END_ITEMS.
Definition no_meta (ts : list tok) : Prop := forall s, In (Lit s) ts -> forall c, In c s -> ~ meta_char c.

Lemma bare_no_meta ts : bare ts -> no_meta ts.
Proof. intros B s I c J. apply (B s I c J). Qed.

Lemma dict_values_loop name_ok ts wp listing : Forall tok_ok ts -> no_index_clash (wild_names ts) -> no_meta ts ->
  new_wpath name_ok (render ts) = Ok wp -> dict_values wp listing = foldM (loop (items ts)) listing [].
Proof.
  intros T C M W. destruct (new_wpath_render name_ok ts wp T W) as (_ & _ & R).
  unfold dict_values. rewrite R, compile_ok by auto. reflexivity.
Qed.

(** ** The groups of a match *)
Lemma in_names r : forall t gs, In gs (matches r t) -> map fst gs = groups r.
Proof.
  induction r as [|[c| |c| | |g] r IH]; intros t gs M.
  - destruct M as [<-|[]]. auto.
  - cbn [matches] in M. destruct t as [|d t]; [destruct M|]. destruct (Ascii.eqb c d); [eapply IH; eauto|destruct M].
  - cbn [matches] in M. destruct t as [|d t]; [destruct M|]. destruct (Ascii.eqb d NL); [destruct M|eapply IH; eauto].
  - cbn [matches] in M. apply in_flat_map in M. destruct M as (k & _ & M). eapply IH; eauto.
  - cbn [matches] in M. apply in_flat_map in M. destruct M as (k & _ & M). eapply IH; eauto.
  - cbn [matches] in M. match type of M with In _ (if ?b then _ else _) => destruct b; [|destruct M] end. eapply IH; eauto.
  - cbn [matches] in M. apply in_flat_map in M. destruct M as (k & _ & M). apply in_map_iff in M. destruct M as (gs' & <- & M).
    cbn [map fst groups]. f_equal. eapply IH; eauto.
Qed.
Lemma groups_gnames ts : forall seen, groups (flat_map gitems (numbered seen ts)) = gnames seen (wild_names ts).
Proof.
  induction ts as [|[s|w] ts IH]; intros seen; auto; cbn [numbered flat_map gitems]; rewrite groups_app, IH.
  - rewrite groups_lits. auto.
  - auto.
Qed.
Lemma items_names ts t gs : In gs (matches (items ts) t) -> map (fun g => strip_index (fst g)) gs = wild_names ts.
Proof.
  intros M. apply in_names in M. rewrite <- (map_map fst strip_index), M. unfold items. cbn [groups].
  rewrite numbered_groups, groups_gnames, gnames_strip. auto.
Qed.

Lemma read_groups_total gs : forall d, NoDup (map (fun g : str * str => strip_index (fst g)) gs) ->
  (forall g, In g gs -> dget d (strip_index (fst g)) = None) ->
  exists d', foldM (fun d g => let wname := strip_index (fst g) in
      match dget d wname with
      | None => Ok (dset d wname (int_of (snd g)))
      | Some v => if int_of (snd g) =? v then Ok d else Err AssertionError
      end) gs d = Ok d'.
Proof.
  induction gs as [|g gs IH]; intros d ND N; [eexists; reflexivity|]. cbn [foldM]. cbv zeta.
  rewrite (N g) by (left; auto). cbn [rbind]. cbn [map] in ND. inversion ND as [|? ? NI ND']; subst. apply IH; auto.
  intros h I. rewrite dget_dset_other.
  - apply N. right. auto.
  - intros E. apply NI. rewrite <- E. apply (in_map (fun g => strip_index (fst g))). auto.
Qed.

Lemma re_match_in r t gs : re_match r t = Some gs -> In gs (matches r t).
Proof. unfold re_match. destruct (matches r t); simpl; intros E; inversion E; auto. Qed.

Lemma read_total ts p : NoDup (wild_names ts) -> exists m, read_path (items ts) p = Ok m.
Proof.
  intros ND. unfold read_path. destruct (re_match (items ts) p) as [gs|] eqn:E; [|eauto].
  apply re_match_in in E. destruct (read_groups_total gs []) as (d & R); [rewrite (items_names ts p); auto|auto|].
  assert (R' : read_groups gs = Ok d) by exact R. rewrite R'. cbn [rbind]. eauto.
Qed.

(** ** What is read *)
Lemma read_sound ts p d : bare ts -> read_path (items ts) p = Ok (Some d) ->
  (exists pre t tl, p = pre ++ t ++ tl /\ ~ In NL pre /\ reads d ts t /\ only_slashes tl) /\
  NoDup (dkeys d) /\ forall w, In w (dkeys d) <-> In w (wild_names ts).
Proof.
  intros B E. unfold read_path in E. destruct (re_match (items ts) p) as [gs|] eqn:M; [|discriminate].
  apply re_match_in in M. destruct (read_groups gs) as [d'|] eqn:R; cbn [rbind] in E; [|discriminate]. inversion E; subst d'. clear E.
  assert (G := items_names ts p gs M). apply in_star in M. destruct M as (pre & t' & -> & N & M).
  destruct (in_template ts B _ _ _ M) as (vs & t1 & t2 & -> & S & P & -> & L).
  unfold read_groups in R. apply read_groups_get in R; [|constructor]. destruct R as (R0 & _ & R1 & R2). split; [|split; auto].
  - exists pre, t1, t2. split; auto. split; auto. split; auto. apply (spells_reads d ts vs t1 P (fun _ => 0)). auto.
  - intros w. rewrite R2, G. simpl. tauto.
Qed.

(** The other way: such a text matches. *)
Lemma in_star_intro r pre t gs : ~ In NL pre -> In gs (matches r t) -> In gs (matches (RStarAny :: r) (pre ++ t)).
Proof.
  intros N M. cbn [matches]. apply in_flat_map. exists (length pre). split.
  - apply -> in_rev. apply in_seq. rewrite run_len_app; [lia|]. apply Forall_forall. intros c I.
    destruct (Ascii.eqb_spec c NL) as [->|]; auto.
  - rewrite skipn_app, skipn_all, Nat.sub_diag. auto.
Qed.
Lemma in_group_intro g r v t gs : v <> [] -> Forall (fun c => is_digit c = true) v -> In gs (matches r t) ->
  In ((g, v) :: gs) (matches (RGroup g :: r) (v ++ t)).
Proof.
  intros N F M. cbn [matches]. apply in_flat_map. exists (length v). split.
  - apply -> in_rev. apply in_seq. rewrite run_len_app by auto. destruct v; [congruence|]. simpl. lia.
  - rewrite skipn_app, skipn_all, Nat.sub_diag, firstn_app, firstn_all, Nat.sub_diag. cbn [firstn skipn app]. rewrite app_nil_r.
    apply in_map_iff. eauto.
Qed.
Lemma in_end_intro t : only_slashes t -> In [] (matches END_ITEMS t).
Proof.
  intros (m & H). unfold END_ITEMS. cbn [matches]. apply in_flat_map. exists m.
  assert (F : Forall (fun c => Ascii.eqb "/" c = true) (repeat "/"%char m)) by (apply Forall_forall; intros c I; apply repeat_spec in I; subst; auto).
  assert (R : forall tl, In m (rev (seq 0 (S (run_len (Ascii.eqb "/") (repeat "/"%char m ++ tl))))) /\ skipn m (repeat "/"%char m ++ tl) = tl).
  { intros tl. split.
    - apply -> in_rev. apply in_seq. rewrite run_len_app by auto. rewrite repeat_length. lia.
    - rewrite skipn_app, repeat_length, Nat.sub_diag. rewrite skipn_all2 by (rewrite repeat_length; lia). auto. }
  destruct H as [->| ->].
  - destruct (R []) as (R1 & R2). rewrite app_nil_r in *. rewrite R2. split; [exact R1|]. left. auto.
  - destruct (R [NL]) as (R1 & R2). change ["010"%char] with [NL]. split; [exact R1|]. rewrite R2. left. auto.
Qed.

Lemma reads_matches d ts t tl : reads d ts t -> only_slashes tl -> forall seen,
  exists gs, In gs (matches (flat_map gitems (numbered seen ts) ++ END_ITEMS) (t ++ tl)).
Proof.
  intros R S. induction R as [|s ts t R IH|w k n ts t G R IH]; intros seen.
  - exists []. apply in_end_intro. auto.
  - destruct (IH seen) as (gs & M). exists gs. cbn [numbered flat_map gitems]. rewrite <- !app_assoc, lits_match. auto.
  - destruct (IH (bump seen w)) as (gs & M). exists ((group_name w (seen w), repeat "0"%char k ++ decimal n) :: gs).
    cbn [numbered flat_map gitems app].
    replace ((repeat "0"%char k ++ decimal n ++ t) ++ tl) with ((repeat "0"%char k ++ decimal n) ++ t ++ tl) by (rewrite <- !app_assoc; auto).
    apply in_group_intro; auto.
    + pose proof (decimal_nonempty n). destruct (decimal n); [congruence|]. destruct (repeat "0"%char k); discriminate.
    + apply Forall_app. split; [|apply decimal_digits]. apply Forall_forall. intros c I. apply repeat_spec in I. subst. reflexivity.
Qed.

Lemma read_complete d ts pre t tl m : ~ In NL pre -> reads d ts t -> only_slashes tl ->
  read_path (items ts) (pre ++ t ++ tl) = Ok m -> m <> None.
Proof.
  intros N R S E. destruct (reads_matches d ts t tl R S (fun _ => 0)) as (gs & M).
  apply (in_star_intro _ pre) in M; auto. unfold read_path, re_match in E.
  fold (items ts) in M. destruct (matches (items ts) (pre ++ t ++ tl)) as [|x l]; [destruct M|]. simpl in E.
  destruct (read_groups x); cbn [rbind] in E; inversion E. discriminate.
Qed.

(** ** Listings *)
Section Names.
  Context (name_ok : str -> bool).

  Lemma never_raises ts wp listing : Forall tok_ok ts -> no_index_clash (wild_names ts) -> no_meta ts -> NoDup (wild_names ts) ->
    new_wpath name_ok (render ts) = Ok wp -> exists D, dict_values wp listing = Ok D.
  Proof.
    intros T C M ND W. rewrite (dict_values_loop name_ok ts) by auto. apply loop_total. intros p _. apply read_total. auto.
  Qed.

  Lemma found_iff ts wp listing D : Forall tok_ok ts -> no_index_clash (wild_names ts) -> bare ts ->
    new_wpath name_ok (render ts) = Ok wp -> dict_values wp listing = Ok D ->
    (forall p, In p (dkeys D) <-> In p listing /\ exists d pre t tl, p = pre ++ t ++ tl /\ ~ In NL pre /\ reads d ts t /\ only_slashes tl) /\
    (forall p d, dget D p = Some d -> (exists pre t tl, p = pre ++ t ++ tl /\ ~ In NL pre /\ reads d ts t /\ only_slashes tl) /\
       NoDup (dkeys d) /\ forall w, In w (dkeys d) <-> In w (wild_names ts)).
  Proof.
    intros T C B W E. rewrite (dict_values_loop name_ok ts) in E by (auto using bare_no_meta).
    destruct (loop_get _ _ _ _ E) as (H1 & H2).
    assert (H3 : forall p d, dget D p = Some d -> In p listing /\ read_path (items ts) p = Ok (Some d)).
    { intros p d G. destruct (H2 p d G) as [X|(_ & X)]; auto. discriminate. }
    split.
    - intros p. split.
      + intros I. destruct (dget D p) as [d|] eqn:G; [|apply dget_None in G; contradiction].
        destruct (H3 p d G) as (Il & R). split; auto. destruct (read_sound ts p d B R) as ((pre & t & tl & X) & _). exists d, pre, t, tl. auto.
      + intros (Il & d & pre & t & tl & -> & N & R & S). destruct (H1 _ Il) as (m & Em & G).
        assert (Nm := read_complete d ts pre t tl m N R S Em). destruct m as [d'|]; [|congruence]. apply dget_Some_key with (v := d'). auto.
    - intros p d G. destruct (H3 p d G) as (_ & R). apply read_sound; auto.
  Qed.

  (** A directory that was made. *)
  Lemma made_found L0 segs wp parent fs fs' kw num s ns :
    L0 <> [] -> plain L0 -> separated segs -> good_names (map fst segs) -> ~ In NL parent ->
    new_wpath name_ok (render (template L0 segs)) = Ok wp -> fs_ok fs ->
    assigns kw (fun w => decimal (num w)) (map fst segs) ->
    tidy (filled (fun w => decimal (num w)) (template L0 segs)) ns ->
    mkdir fs wp parent kw = Ok (Done (s, fs')) ->
    In s (glob fs' parent) /\
    forall D, find_dirs fs' wp parent = Ok D -> exists d, dget D s = Some d /\ reads_back d num (map fst segs).
  Proof.
    intros N0 P0 S G NP W F A T M.
    assert (TT := template_toks L0 segs P0 S G).
    assert (NA : forall w, In w (wild_names (template L0 segs)) -> no_angle (decimal (num w))).
    { intros w _. pose proof (decimal_digits (num w)) as D. rewrite Forall_forall in D.
      split; intros I; apply D in I; apply digit_facts in I; destruct I as (I1 & I2 & _); auto. }
    assert (Fl : fill wp parent kw = Ok (if 0 <? length parent then path_join parent (filled (fun w => decimal (num w)) (template L0 segs)) else filled (fun w => decimal (num w)) (template L0 segs))).
    { apply (fill_ok name_ok (template L0 segs) wp kw (fun w => decimal (num w)) parent); auto. rewrite template_names. auto. }
    destruct (mkdir_outcome fs wp parent kw _ F Fl) as [(Nf & fs2 & E2 & W2 & M1 & M2)|[(K & E2)|(q & L & K & E2)]]; rewrite M in E2; try discriminate.
    inversion E2; subst fs2 s. clear E2. rewrite (parts_join parent _ ns T) in *.
    assert (In1 : In (str_path (parts parent ++ ns)) (glob fs' parent)).
    { unfold glob. apply in_map. apply in_below. split.
      - assert (K := M1 (parts parent ++ ns) (proj2 (leads_cases _ _) (or_introl eq_refl))).
        destruct (in_dec eq_dec (parts parent ++ ns) (dkeys fs')) as [I|NI]; auto. apply dget_None in NI.
        destruct (fixed_dec (parts parent ++ ns)) as [[X|X]|(X & Y)].
        + apply tidy_nonempty in T. apply app_eq_nil in X. destruct X; congruence.
        + exfalso. destruct (parts parent) as [|a [|b l]]; simpl in X.
          * subst ns. apply tidy_noslash in T. inversion T; subst. apply H1. simpl. auto.
          * inversion X. subst. eapply tidy_nonempty; eauto.
          * discriminate.
        + rewrite kind_listed in K by auto. congruence.
      - destruct ns as [|n ns]; [apply tidy_nonempty in T; congruence|]. exists n, ns. auto. }
    split; auto. intros D ED. unfold find_dirs in ED.
    rewrite (dict_values_loop name_ok (template L0 segs)) in ED; auto.
    2:{ rewrite template_names. apply G. }
    2:{ exact (template_lits L0 segs P0 S). }
    destruct (loop_get _ _ _ _ ED) as (H1 & _). destruct (H1 _ In1) as (m & Em & Gm).
    destruct (str_app (parts parent) _ ns T) as (pre & Es & Cs).
    assert (Np : ~ In NL pre).
    { intros I. apply Cs in I. destruct I as [I|(p & I1 & I2)]; [discriminate|]. apply NP. apply (parts_chars parent p); auto. }
    destruct (template_read L0 segs num pre N0 P0 S Np) as (d & Ed & Rd).
    assert (Em' : Ok m = Ok (Some d)) by (rewrite <- Em, Es; exact Ed). inversion Em'; subst m. exists d. auto.
  Qed.

  (** A template that ends with a slash. *)
  Lemma last_char_path fs p : names_ok fs -> In p (dkeys fs) -> exists pre c, str_path p = pre ++ [c] /\ c <> "/"%char /\ c <> NL.
  Proof.
    intros NM I. destruct (NM p I) as (root & ns & -> & R & N & F).
    destruct (exists_last N) as (ns' & n & ->). apply Forall_app in F. destruct F as (_ & F). inversion F as [|? ? (A & B & C) _]; subst.
    destruct (exists_last A) as (n' & c & ->).
    assert (Cc : c <> "/"%char /\ c <> NL).
    { split; intros ->; [apply B|apply C]; apply in_app_iff; simpl; auto. }
    assert (J : forall l, exists pre, join_slash (l ++ [n' ++ [c]]) = pre ++ [c]).
    { intros l. destruct (join_app l [n' ++ [c]]) as (pre & E & _); [discriminate|]. exists (pre ++ n').
      transitivity (pre ++ n' ++ [c]); [exact E|apply app_assoc]. }
    assert (X : exists pre, str_path (root ++ ns' ++ [n' ++ [c]]) = pre ++ [c]).
    { rewrite app_assoc. unfold str_path. destruct ((root ++ ns') ++ [n' ++ [c]]) as [|p ps] eqn:E; [destruct (root ++ ns'); discriminate|].
      destruct (eqb p (str_of "/")) eqn:Ep.
      - apply (proj1 (eqb_true _ _)) in Ep. subst p. destruct (root ++ ns') as [|a l].
        + exfalso. simpl in E. inversion E. apply B. rewrite H0. simpl. auto.
        + cbn [app] in E. injection E as E1 E2. destruct (J l) as (pre & EJ). exists (str_of "/" ++ pre).
          transitivity (str_of "/" ++ pre ++ [c]); [|apply app_assoc]. f_equal. rewrite <- E2. exact EJ.
      - rewrite <- E. apply J. }
    destruct X as (pre & E). exists pre, c. auto.
  Qed.

  Lemma slashes_last u tl : only_slashes tl -> exists q c, u ++ ["/"%char] ++ tl = q ++ [c] /\ (c = "/"%char \/ c = NL).
  Proof.
    intros (m & [->| ->]).
    - destruct m.
      + exists u, "/"%char. auto.
      + exists (u ++ ["/"%char] ++ repeat "/"%char m), "/"%char. rewrite <- !app_assoc. change (repeat "/"%char (S m)) with ("/"%char :: repeat "/"%char m). rewrite repeat_cons. auto.
    - exists (u ++ ["/"%char] ++ repeat "/"%char m), NL. rewrite <- !app_assoc. auto.
  Qed.

  Lemma spells_reads_any ts vs t : spells ts vs t -> forall l ts', ts = ts' ++ [Lit (l ++ ["/"%char])] -> exists u, t = u ++ ["/"%char].
  Proof.
    induction 1 as [|s ts vs t P IH|w v ts vs t N F P IH]; intros l ts' E.
    - destruct ts'; discriminate.
    - destruct ts' as [|x ts']; simpl in E; inversion E; subst.
      + inversion P; subst. rewrite app_nil_r. eauto.
      + destruct (IH l ts' eq_refl) as (u & ->). exists (s ++ u). apply app_assoc.
    - destruct ts' as [|x ts']; simpl in E; inversion E; subst.
      destruct (IH l ts' eq_refl) as (u & ->). exists (v ++ u). apply app_assoc.
  Qed.

  Lemma ends_in_slash ts l wp fs parent : Forall tok_ok (ts ++ [Lit (l ++ ["/"%char])]) ->
    no_index_clash (wild_names (ts ++ [Lit (l ++ ["/"%char])])) -> bare (ts ++ [Lit (l ++ ["/"%char])]) -> names_ok fs ->
    new_wpath name_ok (render (ts ++ [Lit (l ++ ["/"%char])])) = Ok wp -> find_dirs fs wp parent = Ok [].
  Proof.
    intros T C B NM W. unfold find_dirs. rewrite (dict_values_loop name_ok (ts ++ [Lit (l ++ ["/"%char])])) by (auto using bare_no_meta).
    assert (R : forall p, In p (glob fs parent) -> read_path (items (ts ++ [Lit (l ++ ["/"%char])])) p = Ok None).
    { intros p I. unfold glob in I. apply in_map_iff in I. destruct I as (q & <- & I). apply in_below in I. destruct I as (I & _).
      destruct (last_char_path fs q NM I) as (pre & c & E & N1 & N2).
      unfold read_path. destruct (re_match (items (ts ++ [Lit (l ++ ["/"%char])])) (str_path q)) as [gs|] eqn:M; auto. exfalso.
      apply re_match_in in M. apply in_star in M. destruct M as (pre' & t' & Ep & N & M).
      destruct (in_template _ B _ _ _ M) as (vs & t1 & t2 & -> & S & P & _ & _).
      destruct (spells_reads_any _ _ _ P l ts eq_refl) as (u & ->).
      destruct (slashes_last (pre' ++ u) t2 S) as (q' & c' & E' & Cc).
      rewrite E in Ep. rewrite <- !app_assoc in Ep. rewrite <- app_assoc in E'. rewrite E' in Ep. apply app_inj_tail in Ep.
      destruct Ep as (_ & <-). destruct Cc; congruence. }
    revert R. generalize (glob fs parent). intros g R. induction g as [|p g IH]; [reflexivity|].
    cbn [foldM]. unfold loop at 1. rewrite (R p) by (left; auto). cbn [rbind]. apply IH. intros q I. apply R. right. auto.
  Qed.
End Names.
