(** Proofs: paths keyed by their wildcard values. *)
From Coq Require Import Ascii String List Arith Bool Lia.
From Verif Require Import Prelude MeshModel StlModel WildModel WildSpec WildProofs WildProofs2 WildProofs4.
Import ListNotations.

Lemma foldM_dset {K V X} `{EqDec K} (f : X -> result K) (g : X -> V) l : forall d0 d, foldM (fun d x => do c <- f x; Ok (dset d c (g x))) l d0 = Ok d ->
  (forall x, In x l -> exists k, f x = Ok k) /\
  forall k v, dget d k = Some v <-> (exists l1 x l2, l = l1 ++ x :: l2 /\ f x = Ok k /\ g x = v /\ forall y, In y l2 -> f y <> Ok k) \/ (dget d0 k = Some v /\ forall y, In y l -> f y <> Ok k).
Proof.
  induction l as [|x l IH]; intros d0 d E; cbn [foldM] in E.
  - inversion E; subst. split; [intros x []|]. intros k v. split; [intros D; right; split; auto; intros y []|].
    intros [(l1 & x & l2 & C & _)|(D & _)]; auto. destruct l1; discriminate.
  - destruct (f x) as [c|] eqn:F; cbn [rbind] in E; [|discriminate]. destruct (IH _ _ E) as (T & G). split.
    { intros y [<-|I]; eauto. }
    intros k v. rewrite G. split.
    + intros [(l1 & y & l2 & -> & A)|(D & N)]; [left; exists (x :: l1), y, l2; auto|]. destruct (eq_dec k c) as [->|Q].
      * rewrite dget_dset_same in D. inversion D; subst. left. exists [], x, l. auto.
      * rewrite dget_dset_other in D by auto. right. split; auto. intros y [<-|I]; [congruence|auto].
    + intros [(l1 & y & l2 & A & Fy & Gy & N)|(D & N)].
      * destruct l1 as [|z l1]; cbn [app] in A; injection A; intros; subst.
        -- right. rewrite Fy in F. inversion F; subst. rewrite dget_dset_same. auto.
        -- left. exists l1, y, l2. auto.
      * right. split; [|intros y I; apply N; right; auto]. rewrite dget_dset_other; auto. intros ->. apply (N x); [left; auto|auto].
Qed.
Lemma case_spec wp wd c : case_of wp wd = Ok c <-> length wd = length (wp_wildcards wp) /\ Forall2 (fun w v => dget wd w = Some v) (wp_wildcards wp) c.
Proof.
  unfold case_of. destruct (Nat.eqb_spec (length wd) (length (wp_wildcards wp))) as [L|L]; [|split; [discriminate|intros (Q & _); contradiction]].
  assert (G : forall ws c, mapM (fun w => match dget wd w with Some v => Ok v | None => Err TypeError end) ws = Ok c <-> Forall2 (fun w v => dget wd w = Some v) ws c).
  { clear c. intros ws. induction ws as [|w ws IH]; intros c; cbn [mapM].
    - split; [intros E; inversion E; constructor|intros F; inversion F; auto].
    - destruct (dget wd w) as [v|] eqn:D; cbn [rbind]; [|split; [discriminate|intros F; inversion F; congruence]].
      destruct (mapM _ ws) as [vs|] eqn:M; cbn [rbind].
      + split; [intros E; inversion E; subst; constructor; auto; apply IH; auto|]. intros F. inversion F as [|? ? ? ? D' F']; subst. apply IH in F'. inversion F'; subst. congruence.
      + split; [discriminate|]. intros F. inversion F as [|? ? ? ? D' F']; subst. apply IH in F'. discriminate. }
  rewrite G. split; [auto|intros (_ & F); auto].
Qed.
Lemma namedtuple_spec wp listing R : namedtuple_keys wp listing = Ok R -> exists D, dict_values wp listing = Ok D /\
  (forall path wd, In (path, wd) D -> length wd = length (wp_wildcards wp) /\ exists c, Forall2 (fun w v => dget wd w = Some v) (wp_wildcards wp) c) /\
  forall c path, dget R c = Some path <-> exists l1 wd l2, D = l1 ++ (path, wd) :: l2 /\ Forall2 (fun w v => dget wd w = Some v) (wp_wildcards wp) c /\
    forall path' wd', In (path', wd') l2 -> ~ Forall2 (fun w v => dget wd' w = Some v) (wp_wildcards wp) c.
Proof.
  unfold namedtuple_keys. destruct (dict_values wp listing) as [D|] eqn:E; [|discriminate]. cbn [rbind]. intros H. exists D. split; auto.
  apply (foldM_dset (fun pw => case_of wp (snd pw)) fst) in H. destruct H as (T & G).
  assert (T' : forall path wd, In (path, wd) D -> exists c, case_of wp wd = Ok c) by (intros path wd I; apply (T (path, wd) I)).
  split; [intros path wd I; destruct (T' _ _ I) as (c & C); apply case_spec in C; destruct C; eauto|].
  intros c path. rewrite G. split.
  - intros [(l1 & (p, wd) & l2 & -> & C & <- & N)|(Q & _)]; [|discriminate]. cbn [fst snd] in *. exists l1, wd, l2. split; auto. apply case_spec in C. split; [apply C|].
    intros path' wd' I F. apply (N _ I). cbn [snd]. apply case_spec. split; auto. destruct (T' path' wd') as (c' & C'); [apply in_app_iff; right; right; auto|]. apply case_spec in C'. apply C'.
  - intros (l1 & wd & l2 & -> & F & N). left. exists l1, (path, wd), l2. split; auto. cbn [fst snd]. split.
    + apply case_spec. split; auto. destruct (T' path wd) as (c' & C'); [apply in_app_iff; right; left; auto|]. apply case_spec in C'. apply C'.
    + split; auto. intros (p', wd') I C. cbn [snd] in C. apply case_spec in C. apply (N p' wd' I). apply C.
Qed.
Lemma foldM_total {X S} (f : S -> X -> result S) l : (forall s x, In x l -> exists s', f s x = Ok s') -> forall s, exists s', foldM f l s = Ok s'.
Proof. induction l as [|x l IH]; intros H s; [eexists; reflexivity|]. cbn [foldM]. destruct (H s x (or_introl eq_refl)) as (s' & ->). cbn [rbind]. apply IH. intros; apply H; right; auto. Qed.
Lemma namedtuple_total wp listing D : dict_values wp listing = Ok D ->
  (forall path wd, In (path, wd) D -> length wd = length (wp_wildcards wp) /\ exists c, Forall2 (fun w v => dget wd w = Some v) (wp_wildcards wp) c) -> exists R, namedtuple_keys wp listing = Ok R.
Proof.
  intros E H. unfold namedtuple_keys. rewrite E. cbn [rbind]. apply foldM_total. intros s (p, wd) I. destruct (H p wd I) as (L & c & F). cbn [fst snd]. rewrite (proj2 (case_spec wp wd c)) by auto. cbn [rbind]. eauto.
Qed.

(** ** Paths without digits *)
Lemma match_has_digit r : forall t gs, In gs (matches r t) -> groups r <> [] -> exists c, In c t /\ is_digit c = true.
Proof.
  assert (SK : forall k (t : str) c, In c (skipn k t) -> In c t) by (intros k t c I; rewrite <- (firstn_skipn k t); apply in_app_iff; auto).
  induction r as [|[c| |c| | |g] r IH]; intros t gs M G; cbn [matches groups] in *.
  - congruence.
  - destruct t as [|d t]; [destruct M|]. destruct (Ascii.eqb c d); [|destruct M]. destruct (IH _ _ M G) as (x & I & D). exists x. split; [right|]; auto.
  - destruct t as [|d t]; [destruct M|]. destruct (Ascii.eqb d NL); [destruct M|]. destruct (IH _ _ M G) as (x & I & D). exists x. split; [right|]; auto.
  - apply in_flat_map in M. destruct M as (k & _ & M). destruct (IH _ _ M G) as (x & I & D). eauto.
  - apply in_flat_map in M. destruct M as (k & _ & M). destruct (IH _ _ M G) as (x & I & D). eauto.
  - destruct (eqb t [] || eqb t [NL]); [|destruct M]. eauto.
  - apply in_flat_map in M. destruct M as (k & I & _). apply in_rev, in_seq in I. destruct t as [|d t]; cbn [run_len] in I; [lia|]. destruct (is_digit d) eqn:D; [|lia]. exists d. split; [left|]; auto.
Qed.
Lemma numbered_some ts : wild_names ts <> [] -> forall seen, groups (flat_map gitems (numbered seen ts)) <> [].
Proof.
  induction ts as [|[s|w] ts IH]; intros N seen; cbn [numbered flat_map gitems]; [exfalso; apply N; reflexivity| |].
  - rewrite groups_app, groups_lits. apply IH. exact N.
  - cbn [app groups]. discriminate.
Qed.
Lemma foldM_append {A B} (f : B -> A -> result B) l l' : forall b, foldM f (l ++ l') b = do x <- foldM f l b; foldM f l' x.
Proof. induction l as [|a l IH]; intros b; cbn [app foldM rbind]; auto. destruct (f b a); cbn [rbind]; auto. Qed.
Lemma no_digits_skipped name_ok ts wp before p after : Forall tok_ok ts -> no_index_clash (wild_names ts) -> (forall s, In (Lit s) ts -> forall c, In c s -> ~ meta_char c) ->
  wild_names ts <> [] -> new_wpath name_ok (render ts) = Ok wp -> (forall c, In c p -> ~ digit_char c) -> dict_values wp (before ++ p :: after) = dict_values wp (before ++ after).
Proof.
  intros T C M N W D. destruct (new_wpath_render name_ok ts wp T W) as (_ & _ & R). unfold dict_values. rewrite R, compile_ok by auto. cbn [rbind]. rewrite !foldM_append.
  match goal with |- rbind ?a _ = _ => destruct a as [x|e] end; cbn [rbind]; auto. cbn [foldM]. unfold read_path at 1. destruct (re_match _ p) as [gs|] eqn:E; [exfalso|reflexivity].
  unfold re_match in E. destruct (matches _ p) as [|g gl] eqn:Q; [discriminate|]. destruct (match_has_digit (RStarAny :: flat_map gitems (numbered (fun _ => 0) ts) ++ END_ITEMS) p g) as (c & I & Dc); [rewrite Q; left; reflexivity| |].
  - cbn [groups]. rewrite numbered_groups. apply numbered_some. auto.
  - apply (D c I). apply is_digit_char. auto.
Qed.
