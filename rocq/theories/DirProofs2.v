(** Proofs for made directories: they are found again. *)
From Coq Require Import Ascii String List Arith Bool Lia.
From Coq Require Import DecimalString.
From Coq Require DecimalNat.
From Verif Require Import Prelude TreeModel MeshModel IoModel StlModel WildModel WildSpec WildProofs WildProofs2 WildProofs3 WildProofs4 DirModel DirSpec DirProofs.
Import ListNotations.

(** ** Names and paths *)
Lemma split_nonempty s : split_slash s <> [].
Proof. destruct s as [|c s]; simpl; [discriminate|]. destruct (Ascii.eqb c "/"); [discriminate|]. destruct (split_slash s); discriminate. Qed.
Lemma split_app a b : split_slash (a ++ "/"%char :: b) = split_slash a ++ split_slash b.
Proof.
  induction a as [|c a IH]; [reflexivity|]. cbn [app split_slash]. rewrite IH.
  destruct (Ascii.eqb c "/"); [reflexivity|].
  pose proof (split_nonempty a). destruct (split_slash a); [congruence|]. reflexivity.
Qed.
Lemma split_name n : ~ In "/"%char n -> split_slash n = [n].
Proof.
  induction n as [|c n IH]; intros N; [reflexivity|]. cbn [split_slash].
  destruct (Ascii.eqb_spec c "/") as [->|]; [exfalso; apply N; simpl; auto|].
  rewrite IH; auto. intros I. apply N. simpl. auto.
Qed.

Definition real_name (c : str) : bool := negb (eqb c [] || eqb c (str_of ".")).
Lemma real_true c : c <> [] -> c <> str_of "." -> real_name c = true.
Proof. intros A B. unfold real_name. rewrite (eqb_neq c []), (eqb_neq c (str_of ".")) by auto. auto. Qed.

Lemma tidy_split s ns : tidy s ns -> filter real_name (split_slash s) = ns.
Proof.
  induction 1 as [n A B C|n s ns A B C T IH].
  - rewrite split_name by auto. cbn [filter]. rewrite real_true by auto. auto.
  - rewrite split_app, split_name by auto. cbn [app filter]. rewrite real_true by auto. rewrite IH. auto.
Qed.
Lemma tidy_start s ns : tidy s ns -> exists c t, s = c :: t /\ c <> "/"%char.
Proof.
  intros T. destruct T as [n A B C|n s ns A B C T]; destruct n as [|c n]; try congruence; simpl; exists c; eexists; split; eauto;
    intros ->; apply C; simpl; auto.
Qed.
Lemma tidy_join s ns : tidy s ns -> join_slash ns = s.
Proof.
  induction 1 as [n A B C|n s ns A B C T IH]; auto. cbn [join_slash]. destruct ns as [|m ns]; [inversion T|].
  rewrite IH. reflexivity.
Qed.
Lemma tidy_nonempty s ns : tidy s ns -> ns <> [].
Proof. destruct 1; discriminate. Qed.
Lemma tidy_noslash s ns : tidy s ns -> Forall (fun n => ~ In "/"%char n) ns.
Proof. induction 1; auto. Qed.

(** Joined to a parent. *)
Lemma parts_join parent s ns : tidy s ns ->
  parts (if 0 <? length parent then path_join parent s else s) = parts parent ++ ns.
Proof.
  intros T. destruct (tidy_start s ns T) as (c & t & Es & Nc).
  assert (S0 : starts_with (str_of "/") s = false) by (rewrite Es; apply (starts_head "/"%char [] c t); congruence).
  destruct parent as [|d parent].
  - cbn [length]. change (0 <? 0) with false. cbv iota. unfold parts. rewrite S0. cbn [app]. fold real_name.
    change (filter (fun c0 => negb (eqb c0 [] || eqb c0 (str_of "."))) (split_slash s)) with (filter real_name (split_slash s)).
    rewrite (tidy_split s ns T). reflexivity.
  - change (0 <? length (d :: parent)) with true. cbv iota. unfold path_join. rewrite S0.
    assert (P : exists q, (q = d :: parent \/ d :: parent = q ++ str_of "/") /\
      (if starts_with (str_of "/") (rev (d :: parent)) then (d :: parent) ++ s else (d :: parent) ++ str_of "/" ++ s) = q ++ "/"%char :: s).
    { destruct (starts_with (str_of "/") (rev (d :: parent))) eqn:E.
      - apply ends_slash in E. destruct E as (q & E). exists q. split; [right; auto|]. rewrite E, <- app_assoc. auto.
      - exists (d :: parent). auto. }
    destruct P as (q & Q & EQ). transitivity (parts (q ++ "/"%char :: s)); [f_equal; exact EQ|]. clear EQ. unfold parts at 1. rewrite split_app.
    change (fun c0 => negb (eqb c0 [] || eqb c0 (str_of "."))) with real_name. rewrite filter_app, (tidy_split s ns T), app_assoc. f_equal.
    unfold parts. change (fun c0 => negb (eqb c0 [] || eqb c0 (str_of "."))) with real_name.
    destruct Q as [->|Q].
    + reflexivity.
    + rewrite Q. change (str_of "/") with ["/"%char]. rewrite (split_app q []), filter_app. cbn [split_slash filter]. change (real_name []) with false. cbv iota. rewrite app_nil_r.
      f_equal. destruct q as [|c0 q]; auto.
Qed.

Lemma filter_real_chars s : forall p c, In p (split_slash s) -> In c p -> In c s.
Proof.
  induction s as [|x s IH]; intros p c I J.
  - destruct I as [<-|[]]. destruct J.
  - cbn [split_slash] in I. destruct (Ascii.eqb x "/").
    + destruct I as [<-|I]; [destruct J|]. right. apply (IH p); auto.
    + destruct (split_slash s) as [|y ys].
      * destruct I as [<-|[]]. destruct J as [->|[]]. left. auto.
      * destruct I as [<-|I]; [|right; apply (IH p); simpl; auto].
        destruct J as [->|J]; [left; auto|]. right. apply (IH y); simpl; auto.
Qed.
Lemma parts_chars s p c : In p (parts s) -> In c p -> In c s.
Proof.
  unfold parts. intros I J. apply in_app_iff in I. destruct I as [I|I].
  - destruct (starts_with (str_of "/") s) eqn:E; [|destruct I]. destruct I as [<-|[]]. destruct J as [<-|[]].
    apply starts_slash in E. destruct E as (t & ->). left. auto.
  - apply filter_In in I. apply (filter_real_chars s p); tauto.
Qed.

Lemma join_app ps ns : ns <> [] -> exists pre, join_slash (ps ++ ns) = pre ++ join_slash ns /\
  forall c, In c pre -> c = "/"%char \/ exists p, In p ps /\ In c p.
Proof.
  intros N. induction ps as [|p ps (pre & E & C)]; [exists []; split; auto; intros c []|].
  exists (p ++ str_of "/" ++ pre). split.
  - cbn [app]. destruct (ps ++ ns) as [|q qs] eqn:Q; [destruct ps; [contradiction|discriminate]|].
    change (join_slash (p :: q :: qs)) with (p ++ str_of "/" ++ join_slash (q :: qs)). rewrite E, <- !app_assoc. auto.
  - intros c I. apply in_app_iff in I. destruct I as [I|I]; [right; exists p; simpl; auto|].
    apply in_app_iff in I. destruct I as [[<-|[]]|I]; auto. destruct (C c I) as [|(q & I1 & I2)]; auto. right. exists q. simpl. auto.
Qed.
Lemma str_app ps s ns : tidy s ns -> exists pre, str_path (ps ++ ns) = pre ++ s /\
  forall c, In c pre -> c = "/"%char \/ exists p, In p ps /\ In c p.
Proof.
  intros T. assert (N := tidy_nonempty s ns T). rewrite <- (tidy_join s ns T). destruct ps as [|p ps].
  - exists []. split; [|intros c []]. cbn [app]. destruct ns as [|n ns]; [congruence|]. unfold str_path.
    rewrite eqb_neq; auto. intros ->. apply tidy_noslash in T. inversion T; subst. apply H1. simpl. auto.
  - cbn [app str_path]. destruct (eqb p (str_of "/")) eqn:E.
    + destruct (join_app ps ns N) as (pre & J & C). exists (str_of "/" ++ pre). rewrite J, app_assoc. split; auto.
      intros c I. apply in_app_iff in I. destruct I as [[<-|[]]|I]; auto. destruct (C c I) as [|(q & I1 & I2)]; auto. right. exists q. simpl. auto.
    + destruct (join_app (p :: ps) ns N) as (pre & J & C). exists pre. auto.
Qed.

(** ** Listing *)
Lemma in_below fs p q : In q (below fs p) <-> In q (dkeys fs) /\ leads_above p q.
Proof.
  unfold below. rewrite filter_In, andb_true_iff, Nat.ltb_lt, eqb_true. split; intros (I & H); split; auto.
  - destruct H as (L & E). destruct (skipn (length p) q) as [|x r] eqn:S.
    + apply (f_equal (@length str)) in S. rewrite skipn_length in S. simpl in S. lia.
    + exists x, r. rewrite <- E at 1. rewrite <- S. symmetry. apply firstn_skipn.
  - destruct H as (x & r & ->). rewrite app_length. simpl. split; [lia|].
    rewrite firstn_app, Nat.sub_diag, firstn_all. apply app_nil_r.
Qed.

(** The loop, for any listing. *)
Definition loop (r : list item) := fun paths f => do m <- read_path r f;
  Ok (match m with Some d => dset paths f d | None => paths end).
Lemma loop_get r listing : forall acc D, foldM (loop r) listing acc = Ok D ->
  (forall p, In p listing -> exists m, read_path r p = Ok m /\ forall d, m = Some d -> dget D p = Some d) /\
  (forall p d, dget D p = Some d -> (In p listing /\ read_path r p = Ok (Some d)) \/ (~ (In p listing /\ exists e, read_path r p = Ok (Some e)) /\ dget acc p = Some d)).
Proof.
  induction listing as [|f l IH]; intros acc D E.
  - cbn [foldM] in E. inversion E; subst. split; [intros p []|]. intros p d G. right. split; auto. intros ([] & _).
  - cbn [foldM] in E. unfold loop at 1 in E. destruct (read_path r f) as [m|e] eqn:R; cbn [rbind] in E; [|discriminate].
    destruct (IH _ _ E) as (H1 & H2). split.
    + intros p [->|I]; [|apply H1; auto]. exists m. split; auto. intros d ->.
      destruct (in_dec eq_dec p l) as [I|NI].
      * destruct (H1 p I) as (m & R' & G). rewrite R in R'. inversion R'; subst. apply G. auto.
      * destruct (dget D p) as [d'|] eqn:G.
        -- destruct (H2 p d' G) as [(I & _)|(_ & G')]; [contradiction|]. rewrite dget_dset_same in G'. congruence.
        -- exfalso. clear - E G. assert (K : In p (dkeys (dset acc p d))) by (apply dkeys_dset; auto).
           revert K G E. generalize (dset acc p d). clear. induction l as [|g l IH]; intros acc K G E.
           ++ cbn [foldM] in E. inversion E; subst. apply dget_None in G. contradiction.
           ++ cbn [foldM] in E. unfold loop at 1 in E. destruct (read_path r g) as [[m|]|e]; cbn [rbind] in E; [|eapply IH; eauto|discriminate].
              eapply IH; [|exact G|exact E]. apply dkeys_dset. auto.
    + intros p d G. destruct (H2 p d G) as [(I & R')|(NI & G')]; [left; simpl; auto|].
      destruct m as [d0|].
      * destruct (eq_dec p f) as [->|N].
        -- rewrite dget_dset_same in G'. inversion G'; subst. left. simpl. auto.
        -- rewrite dget_dset_other in G' by auto. right. split; auto. intros ([->|I] & e & X); [congruence|]. apply NI. eauto.
      * right. split; auto. intros ([->|I] & e & X); [congruence|]. apply NI. eauto.
Qed.

Lemma loop_total r listing : (forall p, In p listing -> exists m, read_path r p = Ok m) -> forall acc, exists D, foldM (loop r) listing acc = Ok D.
Proof.
  induction listing as [|f l IH]; intros H acc; [eexists; reflexivity|]. cbn [foldM]. unfold loop at 1.
  destruct (H f) as (m & ->); [simpl; auto|]. cbn [rbind]. apply IH. intros p I. apply H. simpl. auto.
Qed.

(** ** What a match says *)
Lemma in_lits s r : forall t gs, ~ In "."%char s -> In gs (matches (map lit_item s ++ r) t) ->
  exists t', t = s ++ t' /\ In gs (matches r t').
Proof.
  induction s as [|c s IH]; intros t gs N M; [exists t; auto|]. cbn [map app] in M. unfold lit_item at 1 in M.
  destruct (Ascii.eqb_spec c ".") as [->|]; [exfalso; apply N; simpl; auto|]. cbn [matches] in M.
  destruct t as [|d t]; [destruct M|]. destruct (Ascii.eqb_spec c d) as [->|]; [|destruct M].
  destruct (IH t gs) as (t' & -> & M'); auto; [intros I; apply N; simpl; auto|]. exists t'. auto.
Qed.
Lemma in_group g r t gs : In gs (matches (RGroup g :: r) t) ->
  exists v t' gs', t = v ++ t' /\ v <> [] /\ Forall (fun c => is_digit c = true) v /\ gs = (g, v) :: gs' /\ In gs' (matches r t').
Proof.
  cbn [matches]. rewrite in_flat_map. intros (k & I & M). apply in_rev in I. apply in_seq in I. apply in_map_iff in M. destruct M as (gs' & <- & M).
  destruct (run_len_prefix is_digit t k) as (L & F); [lia|]. exists (firstn k t), (skipn k t), gs'.
  split; [symmetry; apply firstn_skipn|]. split; [|auto].
  intros E. apply (f_equal (@length ascii)) in E. rewrite firstn_length in E. simpl in E. lia.
Qed.
Lemma run_slashes k t : k <= run_len (Ascii.eqb "/") t -> firstn k t = repeat "/"%char k.
Proof.
  revert k. induction t as [|c t IH]; intros k L; [simpl in L; destruct k; auto; lia|]. destruct k; auto. cbn [run_len] in L.
  destruct (Ascii.eqb_spec "/" c) as [<-|]; [|lia]. simpl. f_equal. apply IH. lia.
Qed.
Lemma in_end t gs : In gs (matches END_ITEMS t) -> gs = [] /\ only_slashes t.
Proof.
  unfold END_ITEMS. cbn [matches]. rewrite in_flat_map. intros (k & I & M). apply in_rev in I. apply in_seq in I.
  match type of M with In _ (if ?b then _ else _) => destruct b eqn:E; [|destruct M] end. destruct M as [<-|[]]. split; auto.
  assert (F := run_slashes k t). exists k. rewrite <- F by lia. apply orb_true_iff in E. destruct E as [E|E]; apply (proj1 (eqb_true _ _)) in E.
  - left. rewrite <- (firstn_skipn k t) at 1. rewrite E. apply app_nil_r.
  - right. rewrite <- (firstn_skipn k t) at 1. rewrite E. auto.
Qed.

Lemma in_star r t gs : In gs (matches (RStarAny :: r) t) -> exists pre t', t = pre ++ t' /\ ~ In NL pre /\ In gs (matches r t').
Proof.
  cbn [matches]. rewrite in_flat_map. intros (k & I & M). apply in_rev in I. apply in_seq in I.
  exists (firstn k t), (skipn k t). split; [symmetry; apply firstn_skipn|]. split; auto.
  destruct (run_len_prefix (fun c => negb (Ascii.eqb c NL)) t k) as (L & F); [lia|]. rewrite Forall_forall in F.
  intros J. apply F in J. rewrite Ascii.eqb_refl in J. discriminate.
Qed.

(** ** Digits and numbers *)
Lemma digits_uint v : Forall (fun c => is_digit c = true) v -> exists u, v = str_of (NilEmpty.string_of_uint u).
Proof.
  induction 1 as [|c v C F (u & ->)]; [exists Decimal.Nil; auto|].
  apply is_digit_char in C. unfold digit_char in C. simpl in C.
  repeat (destruct C as [<-|C]; [|]); try destruct C;
    [exists (Decimal.D0 u)|exists (Decimal.D1 u)|exists (Decimal.D2 u)|exists (Decimal.D3 u)|exists (Decimal.D4 u)
    |exists (Decimal.D5 u)|exists (Decimal.D6 u)|exists (Decimal.D7 u)|exists (Decimal.D8 u)|exists (Decimal.D9 u)]; reflexivity.
Qed.
Lemma uint_zeros u : u <> Decimal.Nil -> exists k, str_of (NilEmpty.string_of_uint u) = repeat "0"%char k ++ str_of (NilEmpty.string_of_uint (Decimal.unorm u)).
Proof.
  induction u as [|u IH|u IH|u IH|u IH|u IH|u IH|u IH|u IH|u IH|u IH]; intros N; [congruence| | | | | | | | | |]; try (exists 0; reflexivity).
  destruct u as [|u|u|u|u|u|u|u|u|u|u]; [exists 0; reflexivity| | | | | | | | | |];
    (destruct IH as (k & E); [discriminate|]; exists (S k); exact (f_equal (cons "0"%char) E)).
Qed.
Lemma digits_number v : v <> [] -> Forall (fun c => is_digit c = true) v -> exists k, v = repeat "0"%char k ++ decimal (int_of v).
Proof.
  intros N F. destruct (digits_uint v F) as (u & ->).
  assert (I : int_of (str_of (NilEmpty.string_of_uint u)) = Nat.of_uint u) by (apply (of_uint_acc_str u 0)).
  rewrite I. unfold decimal. rewrite DecimalNat.Unsigned.to_of. apply uint_zeros. intros ->. apply N. reflexivity.
Qed.

(** ** Groups and the dictionary *)
Fixpoint gnames (seen : str -> nat) (ws : list str) : list str :=
  match ws with [] => [] | w :: ws' => group_name w (seen w) :: gnames (bump seen w) ws' end.

Inductive spells : list tok -> list str -> str -> Prop :=
| sp_nil : spells [] [] []
| sp_lit s ts vs t : spells ts vs t -> spells (Lit s :: ts) vs (s ++ t)
| sp_wild w v ts vs t : v <> [] -> Forall (fun c => is_digit c = true) v -> spells ts vs t -> spells (Wild w :: ts) (v :: vs) (v ++ t).

Lemma in_template ts : bare ts -> forall seen t gs, In gs (matches (flat_map gitems (numbered seen ts) ++ END_ITEMS) t) ->
  exists vs t1 t2, t = t1 ++ t2 /\ only_slashes t2 /\ spells ts vs t1 /\ gs = combine (gnames seen (wild_names ts)) vs /\ length vs = length (wild_names ts).
Proof.
  induction ts as [|[s|w] ts IH]; intros B seen t gs M.
  - apply in_end in M. destruct M as (-> & S). exists [], [], t. split; auto. split; auto. split; [constructor|]. auto.
  - cbn [numbered flat_map gitems] in M. rewrite <- app_assoc in M. apply in_lits in M.
    2:{ intros I. apply (B s (or_introl eq_refl)) in I. destruct I as (_ & I). congruence. }
    destruct M as (t' & -> & M). destruct (IH (fun x I => B x (or_intror I)) _ _ _ M) as (vs & t1 & t2 & -> & S & P & E & L).
    exists vs, (s ++ t1), t2. rewrite app_assoc. split; auto. split; auto. split; [constructor; auto|]. auto.
  - cbn [numbered flat_map gitems app] in M. apply in_group in M. destruct M as (v & t' & gs' & -> & N & F & -> & M).
    destruct (IH (fun x I => B x (or_intror I)) _ _ _ M) as (vs & t1 & t2 & -> & S & P & E & L).
    exists (v :: vs), (v ++ t1), t2. rewrite app_assoc. split; auto. split; auto. split; [constructor; auto|].
    change (wild_names (Wild w :: ts)) with (w :: wild_names ts). cbn [gnames combine length]. rewrite E, L. auto.
Qed.

Lemma read_groups_get gs : forall d0 d, NoDup (dkeys d0) ->
  foldM (fun d g => let wname := strip_index (fst g) in
      match dget d wname with
      | None => Ok (dset d wname (int_of (snd g)))
      | Some v => if int_of (snd g) =? v then Ok d else Err AssertionError
      end) gs d0 = Ok d ->
  NoDup (dkeys d) /\ (forall w n, dget d0 w = Some n -> dget d w = Some n) /\
  (forall g v, In (g, v) gs -> dget d (strip_index g) = Some (int_of v)) /\
  (forall w, In w (dkeys d) <-> In w (dkeys d0) \/ In w (map (fun g => strip_index (fst g)) gs)).
Proof.
  induction gs as [|(g, v) gs IH]; intros d0 d ND E.
  - cbn [foldM] in E. inversion E; subst. split; auto. split; auto. split; [intros g v []|]. intros w. simpl. tauto.
  - cbn [foldM fst snd] in E. cbv zeta in E. destruct (dget d0 (strip_index g)) as [u|] eqn:G.
    + destruct (Nat.eqb_spec (int_of v) u) as [<-|]; cbn [rbind] in E; [|discriminate].
      destruct (IH _ _ ND E) as (H0 & H1 & H2 & H3). split; auto. split; auto. split.
      * intros g' v' [X|I]; [inversion X; subst; auto|auto].
      * intros w. rewrite H3. simpl. apply dget_Some_key in G. split; [tauto|]. intros [I|[<-|I]]; auto.
    + cbn [rbind] in E. destruct (IH _ _ (NoDup_dset d0 _ _ ND) E) as (H0 & H1 & H2 & H3). split; auto. split; [|split].
      * intros w n X. apply H1. rewrite dget_dset_other; auto. congruence.
      * intros g' v' [X|I]; [|auto]. inversion X; subst. apply H1. apply dget_dset_same.
      * intros w. rewrite H3, dkeys_dset. simpl. split; intros H; repeat destruct H as [H|H]; auto.
Qed.

Lemma gnames_strip ws : forall seen, map strip_index (gnames seen ws) = ws.
Proof. induction ws as [|w ws IH]; intros seen; simpl; auto. rewrite strip_group, IH. auto. Qed.
Lemma gnames_length ws : forall seen, length (gnames seen ws) = length ws.
Proof. intros seen. rewrite <- (gnames_strip ws seen) at 2. rewrite map_length. auto. Qed.

Lemma spells_reads d ts vs t : spells ts vs t -> forall seen,
  (forall g v, In (g, v) (combine (gnames seen (wild_names ts)) vs) -> dget d (strip_index g) = Some (int_of v)) -> reads d ts t.
Proof.
  induction 1 as [|s ts vs t P IH|w v ts vs t N F P IH]; intros seen H.
  - constructor.
  - constructor. apply (IH seen). exact H.
  - destruct (digits_number v N F) as (k & E). rewrite E, <- app_assoc. constructor.
    + rewrite <- (strip_group w (seen w)). apply H. left. auto.
    + apply (IH (bump seen w)). intros g u I. apply H. right. auto.
Qed.
