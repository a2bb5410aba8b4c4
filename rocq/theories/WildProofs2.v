(** Proofs: the regular expression of a template and what it matches. *)
From Coq Require Import Ascii String List Arith Bool Lia DecimalString DecimalNat DecimalFacts.
From Verif Require Import Prelude TreeModel MeshModel IoModel StlModel WildModel WildSpec WildProofs.
Import ListNotations.

(** ** Decimal numbers *)
Lemma digits_of_uint u : Forall (fun c => is_digit c = true) (str_of (NilEmpty.string_of_uint u)).
Proof. induction u; simpl; constructor; auto. Qed.

Lemma of_uint_acc_str u : forall acc, fold_left (fun n c => 10 * n + digit_val c) (list_ascii_of_string (NilEmpty.string_of_uint u)) acc = Nat.of_uint_acc u acc.
Proof.
  induction u as [|u IH|u IH|u IH|u IH|u IH|u IH|u IH|u IH|u IH|u IH]; intros acc; auto;
    cbn [NilEmpty.string_of_uint list_ascii_of_string fold_left Nat.of_uint_acc]; rewrite IH; f_equal;
    rewrite Nat.tail_mul_spec;
    match goal with |- context [digit_val ?c] => let v := eval vm_compute in (digit_val c) in change (digit_val c) with v end; lia.
Qed.

Lemma int_of_decimal n : int_of (decimal n) = n.
Proof. unfold int_of, decimal, str_of. rewrite of_uint_acc_str. apply DecimalNat.Unsigned.of_to. Qed.

Lemma decimal_digits n : Forall (fun c => is_digit c = true) (decimal n).
Proof. apply digits_of_uint. Qed.

Lemma decimal_nonempty n : decimal n <> [].
Proof.
  unfold decimal. intros E. assert (U : Nat.to_uint n = Decimal.Nil).
  { destruct (Nat.to_uint n); try discriminate. auto. }
  assert (Z : n = 0) by (rewrite <- (DecimalNat.Unsigned.of_to n), U; auto). subst. discriminate.
Qed.

Lemma digit_facts c : is_digit c = true -> c <> LT /\ c <> GT /\ c <> "_"%char /\ c <> NL.
Proof. intros D. repeat split; intros ->; discriminate. Qed.

Lemma is_digit_char c : is_digit c = true -> digit_char c.
Proof.
  destruct c as [[] [] [] [] [] [] [] []]; intros D; try discriminate D; unfold digit_char; simpl; tauto.
Qed.

Lemma digit_char_is c : digit_char c -> is_digit c = true.
Proof. intros D. unfold digit_char in D. cbv in D. repeat (destruct D as [<-|D]; [reflexivity|]). destruct D. Qed.

(** ** Placing the groups *)
Inductive gtok : Type := GLit (s : str) | GWild (w : str) | GGrp (g : str).

Definition gtext (t : gtok) : str :=
  match t with GLit s => s | GWild w => wrap w | GGrp g => group_text g end.
Definition grender (ts : list gtok) : str := concat (map gtext ts).

Fixpoint put_group (k g : str) (ts : list gtok) : list gtok :=
  match ts with
  | [] => []
  | GWild w :: ts' => if eqb w k then GGrp g :: ts' else GWild w :: put_group k g ts'
  | t :: ts' => t :: put_group k g ts'
  end.

Lemma replace_one_lit k v s rest : ~ In LT s -> replace_one (wrap k) v (s ++ rest) = s ++ replace_one (wrap k) v rest.
Proof.
  induction s as [|c s IH]; intros N; auto. cbn [app replace_one].
  rewrite starts_wrap_head by (intros ->; apply N; simpl; auto). rewrite IH; auto. intros I. apply N. simpl. auto.
Qed.

Lemma replace_one_wild k v w rest : ~ In GT k -> no_angle w ->
  replace_one (wrap k) v (wrap w ++ rest) = if eqb w k then v ++ rest else wrap w ++ replace_one (wrap k) v rest.
Proof.
  intros Nk (Nl & Ng). destruct (eqb w k) eqn:E.
  - rewrite eqb_true in E. subst. unfold wrap at 2. cbn [app replace_one].
    change (LT :: (k ++ [GT]) ++ rest) with (wrap k ++ rest). rewrite starts_with_app. f_equal.
    rewrite skipn_app, skipn_all, Nat.sub_diag. auto.
  - rewrite eqb_false in E. unfold wrap at 2. cbn [app replace_one].
    assert (S : starts_with (wrap k) (LT :: (w ++ [GT]) ++ rest) = false).
    { unfold wrap. cbn [app starts_with]. rewrite Ascii.eqb_refl. cbn [andb].
      destruct (starts_with (k ++ [GT]) ((w ++ [GT]) ++ rest)) eqn:S; auto. exfalso. apply E. symmetry.
      apply (starts_wrap k w rest); auto. rewrite <- app_assoc in S. auto. }
    rewrite S. unfold wrap at 2. cbn [app]. f_equal.
    apply (replace_one_lit k v (w ++ [GT]) rest). intros I. apply in_app_iff in I.
    destruct I as [I|[I|[]]]; [auto|discriminate].
Qed.

Definition gok (k : str) (t : gtok) : Prop :=
  match t with GLit s => ~ In LT s | GWild w => no_angle w | GGrp g => no_angle g /\ g <> k end.

Lemma replace_one_group k g ts : ~ In GT k -> Forall (gok k) ts ->
  replace_one (wrap k) (group_text g) (grender ts) = grender (put_group k g ts).
Proof.
  intros Nk F. unfold grender. induction F as [|t ts T F IH]; auto. cbn [map concat put_group]. destruct t as [s|w|h]; cbn [gtext].
  - rewrite replace_one_lit by exact T. cbn [map concat gtext]. rewrite IH. auto.
  - rewrite replace_one_wild by auto. destruct (eqb w k); auto. cbn [map concat gtext]. rewrite IH. auto.
  - destruct T as (T & N). unfold group_text at 2.
    replace ((str_of "(?P<" ++ h ++ str_of ">\d+)") ++ concat (map gtext ts))
      with (str_of "(?P" ++ wrap h ++ str_of "\d+)" ++ concat (map gtext ts))
      by (unfold wrap; rewrite <- !app_assoc; auto).
    rewrite replace_one_lit by (simpl; intuition discriminate).
    rewrite replace_one_wild by auto. rewrite eqb_neq by auto.
    rewrite replace_one_lit by (simpl; intuition discriminate). rewrite IH.
    cbn [map concat gtext]. unfold group_text, wrap. rewrite <- !app_assoc. auto.
Qed.

Definition bump (f : str -> nat) (k : str) : str -> nat := fun x => if eqb x k then S (f x) else f x.

Fixpoint stage (f seen : str -> nat) (ts : list tok) : list gtok :=
  match ts with
  | [] => []
  | Lit s :: ts' => GLit s :: stage f seen ts'
  | Wild w :: ts' => (if seen w <? f w then GGrp (group_name w (seen w)) else GWild w) :: stage f (bump seen w) ts'
  end.

Lemma stage_ext f f' seen ts : (forall w, f w = f' w) -> stage f seen ts = stage f' seen ts.
Proof. intros E. revert seen. induction ts as [|[s|w] ts IH]; intros seen; simpl; auto; rewrite IH; auto. rewrite E. auto. Qed.

Lemma bump_same f k : bump f k k = S (f k).
Proof. unfold bump. rewrite eqb_refl. auto. Qed.
Lemma bump_other f k w : w <> k -> bump f k w = f w.
Proof. intros N. unfold bump. rewrite eqb_neq by auto. auto. Qed.
Lemma bump_le f k w : f w <= bump f k w.
Proof. unfold bump. destruct (eqb w k); lia. Qed.

Lemma stage_past f k ts : forall seen, f k < seen k -> stage f seen ts = stage (bump f k) seen ts.
Proof.
  induction ts as [|[s|w] ts IH]; intros seen L; simpl; auto; [rewrite IH; auto|].
  rewrite <- IH by (pose proof (bump_le seen w k); lia). f_equal.
  destruct (eq_dec w k) as [->|N].
  - rewrite bump_same. destruct (Nat.ltb_spec (seen k) (f k)), (Nat.ltb_spec (seen k) (S (f k))); auto; lia.
  - rewrite bump_other by auto. auto.
Qed.

Lemma occ_cons k w ws : occurrences k (w :: ws) = (if eqb k w then 1 else 0) + occurrences k ws.
Proof. unfold occurrences. simpl. destruct (eqb k w); auto. Qed.

Lemma stage_step f k ts : forall seen, seen k <= f k -> f k < seen k + occurrences k (wild_names ts) ->
  put_group k (group_name k (f k)) (stage f seen ts) = stage (bump f k) seen ts.
Proof.
  induction ts as [|[s|w] ts IH]; intros seen L1 L2; cbn [stage].
  - unfold occurrences in L2. simpl in L2. lia.
  - cbn [put_group]. rewrite IH; auto.
  - cbn [wild_names flat_map app] in L2. rewrite occ_cons in L2.
    destruct (eq_dec w k) as [->|N].
    + rewrite bump_same. destruct (Nat.ltb_spec (seen k) (f k)).
      * cbn [put_group]. rewrite IH; [|rewrite bump_same; lia|rewrite bump_same; rewrite eqb_refl in L2; unfold wild_names; lia].
        destruct (Nat.ltb_spec (seen k) (S (f k))); [auto|lia].
      * cbn [put_group]. rewrite eqb_refl. destruct (Nat.ltb_spec (seen k) (S (f k))); [|lia].
        replace (seen k) with (f k) by lia. f_equal. apply stage_past. rewrite bump_same. lia.
    + rewrite (bump_other f) by auto. rewrite eqb_neq in L2 by auto.
      destruct (seen w <? f w); cbn [put_group]; [|rewrite eqb_neq by auto];
        (rewrite IH; [auto|rewrite bump_other; auto|rewrite bump_other by auto; unfold wild_names; lia]).
Qed.

Lemma group_no_angle w i : no_angle w -> no_angle (group_name w i).
Proof.
  intros (N1 & N2). unfold group_name.
  assert (D : forall c, In c (decimal i) -> c <> LT /\ c <> GT).
  { intros c I. pose proof (decimal_digits i) as F. rewrite Forall_forall in F. apply F in I. apply digit_facts in I. tauto. }
  split; intros I; apply in_app_iff in I; destruct I as [I|I]; auto; simpl in I; destruct I as [I|I]; try discriminate I;
    apply D in I; unfold LT, GT in I; tauto.
Qed.

Lemma stage_gok f k ts0 : no_index_clash (wild_names ts0) -> In k (wild_names ts0) -> forall ts seen,
  Forall tok_ok ts -> incl (wild_names ts) (wild_names ts0) -> Forall (gok k) (stage f seen ts).
Proof.
  intros NC Ik. induction ts as [|[s|w] ts IH]; intros seen F I; cbn [stage]; constructor; inversion F; subst; auto.
  - destruct H1. auto.
  - destruct H1 as (Nw & A). destruct (seen w <? f w); simpl; auto. split; [apply group_no_angle; auto|].
    intros E. apply (NC w k (seen w)); auto. apply I. simpl. auto.
  - apply IH; auto. intros x Ix. apply I. simpl. auto.
Qed.

Lemma inner_fold ts k : Forall tok_ok ts -> no_index_clash (wild_names ts) -> In k (wild_names ts) ->
  forall n i f, f k = i -> i + n <= occurrences k (wild_names ts) ->
  fold_left (fun s i => replace_one (wrap k) (group_text (group_name k i)) s) (seq i n) (grender (stage f (fun _ => 0) ts)) =
  grender (stage (fun x => if eqb x k then i + n else f x) (fun _ => 0) ts).
Proof.
  intros F NC Ik. assert (Nk : ~ In GT k).
  { unfold wild_names in Ik. apply in_flat_map in Ik. destruct Ik as ([s|w] & It & I); simpl in I; [destruct I|].
    destruct I as [<-|[]]. rewrite Forall_forall in F. apply F in It. apply It. }
  induction n as [|n IH]; intros i f E L; cbn [seq fold_left].
  - f_equal. apply stage_ext. intros w. destruct (eqb w k) eqn:W; auto. rewrite eqb_true in W. subst. lia.
  - rewrite replace_one_group; [|auto|apply (stage_gok f k ts); auto; apply incl_refl]. rewrite <- E, stage_step by (simpl; lia).
    rewrite (IH (S (f k)) (bump f k)); [|apply bump_same|lia].
    f_equal. apply stage_ext. intros w. destruct (eqb w k) eqn:W; [lia|]. unfold bump. rewrite W. auto.
Qed.

Lemma outer_fold ts : Forall tok_ok ts -> no_index_clash (wild_names ts) ->
  forall ks f, NoDup ks -> incl ks (wild_names ts) -> (forall k, In k ks -> f k = 0) ->
  fold_left (fun s w => fold_left (fun s i => replace_one (wrap w) (group_text (group_name w i)) s) (seq 0 (occurrences w (wild_names ts))) s)
    ks (grender (stage f (fun _ => 0) ts)) =
  grender (stage (fun x => if memb x ks then occurrences x (wild_names ts) else f x) (fun _ => 0) ts).
Proof.
  intros F NC. induction ks as [|k ks IH]; intros f ND I Z; cbn [fold_left].
  - f_equal.
  - inversion ND; subst. rewrite (inner_fold ts k F NC); [|apply I; simpl; auto|apply Z; simpl; auto|lia].
    rewrite IH; auto.
    + f_equal. apply stage_ext. intros w. simpl. destruct (eq_dec w k) as [->|N].
      * rewrite eqb_refl. simpl. destruct (memb k ks); auto.
      * rewrite (eqb_neq w k) by auto. simpl. destruct (memb w ks); auto.
    + intros x Ix. apply I. simpl. auto.
    + intros x Ix. rewrite eqb_neq by (intros ->; auto). apply Z. simpl. auto.
Qed.

(** The numbered template: the i-th occurrence of w becomes the group "w_i". *)
Fixpoint numbered (seen : str -> nat) (ts : list tok) : list gtok :=
  match ts with
  | [] => []
  | Lit s :: ts' => GLit s :: numbered seen ts'
  | Wild w :: ts' => GGrp (group_name w (seen w)) :: numbered (bump seen w) ts'
  end.

Lemma stage_zero ts : forall seen, grender (stage (fun _ => 0) seen ts) = render ts.
Proof.
  unfold grender, render. induction ts as [|[s|w] ts IH]; intros seen; simpl; auto; rewrite IH; auto.
Qed.

Lemma stage_full f ts : forall seen, (forall w, In w (wild_names ts) -> seen w + occurrences w (wild_names ts) <= f w) ->
  stage f seen ts = numbered seen ts.
Proof.
  induction ts as [|[s|w] ts IH]; intros seen L; cbn [stage numbered]; auto.
  - rewrite IH; auto.
  - assert (Lw := L w (or_introl eq_refl)). cbn [wild_names flat_map app] in Lw. rewrite occ_cons, eqb_refl in Lw.
    assert (E : seen w <? f w = true) by (apply Nat.ltb_lt; lia). rewrite E. rewrite IH; auto.
    intros x Ix. assert (Lx := L x (or_intror Ix)). cbn [wild_names flat_map app] in Lx. rewrite occ_cons in Lx.
    unfold bump. fold (wild_names ts) in *. destruct (eqb x w); lia.
Qed.

Lemma regex_render ts : Forall tok_ok ts -> no_index_clash (wild_names ts) ->
  regex_text (render ts) = str_of ".*" ++ grender (numbered (fun _ => 0) ts) ++ str_of "/*$".
Proof.
  intros F NC. unfold regex_text. rewrite findall_render by auto.
  rewrite <- (stage_zero ts (fun _ => 0)). rewrite outer_fold; auto.
  - rewrite stage_full; auto. intros w I. simpl.
    assert (M : memb (A := str) w (sorted_set (wild_names ts)) = true) by (apply memb_true; apply (proj2 (sorted_set_in _ _)); auto).
    rewrite M. lia.
  - apply sorted_set_nodup.
  - intros x I. apply (proj1 (sorted_set_in _ _)) in I. auto.
Qed.

(** ** Parsing it *)
Definition lit_item (c : ascii) : item := if Ascii.eqb c "." then RAny else RChar c.
Definition gitems (t : gtok) : list item :=
  match t with GLit s => map lit_item s | GWild _ => [] | GGrp g => [RGroup g] end.

Definition starless (s : str) : Prop := starts_with (str_of "*") s = false.

Lemma starless_head c s : c <> "*"%char -> starless (c :: s).
Proof. intros N. unfold starless. apply (starts_head "*"%char [] c s). congruence. Qed.

Lemma meta_not c : ~ meta_char c -> memb c META = false /\ c <> "*"%char /\ c <> "("%char /\ c <> "$"%char.
Proof.
  intros N. split; [apply memb_false; exact N|].
  repeat split; intros ->; apply N; unfold meta_char; simpl; tauto.
Qed.

Lemma parse_lit s rest : (forall c, In c s -> ~ meta_char c) -> starless rest ->
  parse_aux (s ++ rest) 0 = do r <- parse_aux rest 0; Ok (map lit_item s ++ r).
Proof.
  intros Q S. induction s as [|c s IH]; [simpl; destruct (parse_aux rest 0); auto|].
  destruct (meta_not c (Q c (or_introl eq_refl))) as (M & N1 & N2 & N3).
  assert (S' : starless (s ++ rest)).
  { destruct s as [|d s]; auto. apply starless_head. apply meta_not. apply Q. simpl. auto. }
  cbn [app parse_aux]. unfold item_at. change (str_of "(?P<") with ("("%char :: str_of "?P<"). rewrite starts_head by congruence.
  destruct (Ascii.eqb_spec c "$"); [congruence|]. rewrite M. unfold starless in S'. rewrite S'.
  change (1 - 1) with 0. rewrite IH by (intros d I; apply Q; simpl; auto).
  unfold lit_item at 2. destruct (parse_aux rest 0); auto.
Qed.

Lemma take_until_gt g s : ~ In GT g -> take_until GT (g ++ GT :: s) = g.
Proof.
  induction g as [|c g IH]; intros N; cbn [app take_until]; [rewrite Ascii.eqb_refl; auto|].
  destruct (Ascii.eqb_spec c GT) as [->|]; [exfalso; apply N; simpl; auto|]. rewrite IH; auto.
  intros I. apply N. simpl. auto.
Qed.

Lemma parse_skip s rest : parse_aux (s ++ rest) (length s) = parse_aux rest 0.
Proof. induction s; simpl; auto. Qed.

Lemma parse_group g rest : ~ In GT g -> parse_aux (group_text g ++ rest) 0 = do r <- parse_aux rest 0; Ok (RGroup g :: r).
Proof.
  intros N.
  assert (E : item_at (group_text g ++ rest) = Some (RGroup g, length (group_text g))).
  { unfold item_at, group_text. rewrite <- !app_assoc.
    change (starts_with (str_of "(?P<") (str_of "(?P<" ++ g ++ str_of ">\d+)" ++ rest)) with true. cbv iota.
    change (skipn 4 (str_of "(?P<" ++ g ++ str_of ">\d+)" ++ rest)) with (g ++ GT :: str_of "\d+)" ++ rest).
    rewrite take_until_gt by auto. change (4 + length g) with (S (S (S (S (length g))))).
    change (skipn (S (S (S (S (length g))))) (str_of "(?P<" ++ g ++ str_of ">\d+)" ++ rest))
      with (skipn (length g) (g ++ str_of ">\d+)" ++ rest)).
    rewrite skipn_app, skipn_all, Nat.sub_diag. cbn [app skipn]. rewrite starts_with_app.
    rewrite !app_length. f_equal. }
  change (group_text g ++ rest) with ("("%char :: (str_of "?P<" ++ g ++ str_of ">\d+)") ++ rest) in *.
  cbn [parse_aux]. rewrite E.
  replace (length (group_text g) - 1) with (length (str_of "?P<" ++ g ++ str_of ">\d+)")) by (unfold group_text; rewrite !app_length; simpl; lia).
  rewrite parse_skip. auto.
Qed.

Lemma parse_gtoks ts rest : starless rest ->
  Forall (fun t => match t with GLit s => forall c, In c s -> ~ meta_char c | GWild _ => False | GGrp g => ~ In GT g end) ts ->
  starless (grender ts ++ rest) /\
  parse_aux (grender ts ++ rest) 0 = do r <- parse_aux rest 0; Ok (flat_map gitems ts ++ r).
Proof.
  intros S F. unfold grender. induction F as [|t ts T F (IH1 & IH2)]; [split; [exact S|simpl; destruct (parse_aux rest 0); auto]|].
  cbn [map concat]. rewrite <- app_assoc. destruct t as [s|w|g]; cbn [gtext flat_map gitems]; [|destruct T|].
  - split.
    + destruct s as [|c s]; auto. apply starless_head. apply meta_not. apply T. simpl. auto.
    + rewrite parse_lit by auto. rewrite IH2. destruct (parse_aux rest 0); auto. simpl. rewrite <- app_assoc. auto.
  - split; [apply (starless_head "("%char); discriminate|]. rewrite parse_group by auto. rewrite IH2.
    destruct (parse_aux rest 0); auto.
Qed.

Definition END_ITEMS : list item := [RStar "/"; REnd].

Lemma compile_render ts : Forall tok_ok ts -> no_index_clash (wild_names ts) ->
  (forall s, In (Lit s) ts -> forall c, In c s -> ~ meta_char c) ->
  parse_aux (regex_text (render ts)) 0 = Ok (RStarAny :: flat_map gitems (numbered (fun _ => 0) ts) ++ END_ITEMS).
Proof.
  intros F NC Q. rewrite regex_render by auto.
  assert (G : forall seen, Forall (fun t => match t with GLit s => forall c, In c s -> ~ meta_char c | GWild _ => False | GGrp g => ~ In GT g end) (numbered seen ts)).
  { clear NC. induction ts as [|[s|w] ts IH]; intros seen; cbn [numbered]; constructor; inversion F; subst.
    - intros c I. apply (Q s); simpl; auto.
    - apply IH; auto. intros s' I. apply Q. simpl. auto.
    - apply (group_no_angle w (seen w)). apply H1.
    - apply IH; auto. intros s' I. apply Q. simpl. auto. }
  change (str_of ".*" ++ grender (numbered (fun _ => 0) ts) ++ str_of "/*$")
    with ("."%char :: "*"%char :: grender (numbered (fun _ => 0) ts) ++ str_of "/*$").
  cbn [parse_aux]. unfold item_at at 1. change (starts_with (str_of "(?P<") ("."%char :: "*"%char :: grender (numbered (fun _ => 0) ts) ++ str_of "/*$")) with false.
  cbv iota. change (Ascii.eqb "." "$") with false. change (memb "."%char META) with false.
  change (starts_with (str_of "*") ("*"%char :: grender (numbered (fun _ => 0) ts) ++ str_of "/*$")) with true.
  change (Ascii.eqb "." ".") with true. cbv iota. cbn [Nat.sub].
  destruct (parse_gtoks (numbered (fun _ => 0) ts) (str_of "/*$")) as (_ & E); [reflexivity|apply G|].
  rewrite E. reflexivity.
Qed.

(** ** Group names *)
Lemma run_len_app f a b : Forall (fun c => f c = true) a -> run_len f (a ++ b) = length a + run_len f b.
Proof. induction 1 as [|c a C F IH]; simpl; auto. rewrite C, IH. auto. Qed.

Lemma strip_group w i : strip_index (group_name w i) = w.
Proof.
  unfold strip_index, group_name. rewrite !rev_app_distr, <- app_assoc. change (rev (str_of "_")) with ["_"%char].
  pose proof (decimal_digits i) as D.
  assert (Dr : Forall (fun c => is_digit c = true) (rev (decimal i))) by (apply Forall_rev; auto).
  rewrite run_len_app by auto. cbn [app run_len]. change (is_digit "_") with false. cbv iota. rewrite Nat.add_0_r.
  rewrite skipn_app, skipn_all, Nat.sub_diag. cbn [app skipn]. rewrite rev_length.
  destruct (length (decimal i)) eqn:L; [exfalso; apply (decimal_nonempty i); apply length_zero_iff_nil; auto|].
  cbn. apply rev_involutive.
Qed.

Lemma group_name_inj w w' i j : group_name w i = group_name w' j -> w = w' /\ i = j.
Proof.
  intros E. assert (W : w = w') by (rewrite <- (strip_group w i), E; apply strip_group). subst. split; auto.
  unfold group_name in E. apply app_inv_head in E. apply (app_inv_head (str_of "_")) in E.
  rewrite <- (int_of_decimal i), E. apply int_of_decimal.
Qed.

Lemma numbered_groups ts : forall seen, 
  groups (flat_map gitems (numbered seen ts) ++ END_ITEMS) = groups (flat_map gitems (numbered seen ts)).
Proof.
  intros seen. generalize (flat_map gitems (numbered seen ts)). induction l as [|[c| |c| | |g] l IH]; simpl; auto. rewrite IH. auto.
Qed.

Lemma groups_app a b : groups (a ++ b) = groups a ++ groups b.
Proof. induction a as [|[c| |c| | |g] a IH]; simpl; auto. rewrite IH. auto. Qed.

Lemma groups_lits s : groups (map lit_item s) = [].
Proof. induction s as [|c s IH]; simpl; auto. unfold lit_item at 1. destruct (Ascii.eqb c "."); auto. Qed.

Lemma numbered_fresh ts : forall seen w i, i < seen w -> ~ In (group_name w i) (groups (flat_map gitems (numbered seen ts))).
Proof.
  induction ts as [|[s|x] ts IH]; intros seen w i L; cbn [numbered flat_map gitems]; [tauto| |].
  - rewrite groups_app, groups_lits. apply IH. auto.
  - cbn [app groups]. intros [E|I].
    + apply group_name_inj in E. destruct E as (-> & <-). lia.
    + apply (IH (bump seen x) w i); auto. pose proof (bump_le seen x w). lia.
Qed.

Lemma numbered_nodup ts : forall seen, NoDup (groups (flat_map gitems (numbered seen ts))).
Proof.
  induction ts as [|[s|x] ts IH]; intros seen; cbn [numbered flat_map gitems]; [constructor| |].
  - rewrite groups_app, groups_lits. apply IH.
  - cbn [app groups]. constructor; auto. apply numbered_fresh. rewrite bump_same. lia.
Qed.

Lemma distinct_nodup {A} `{EqDec A} (l : list A) : NoDup l -> distinct l = true.
Proof.
  induction 1 as [|x l N ND IH]; simpl; auto. rewrite IH. apply memb_false in N. rewrite N. auto.
Qed.

Lemma compile_ok ts : Forall tok_ok ts -> no_index_clash (wild_names ts) ->
  (forall s, In (Lit s) ts -> forall c, In c s -> ~ meta_char c) ->
  compile (regex_text (render ts)) = Ok (RStarAny :: flat_map gitems (numbered (fun _ => 0) ts) ++ END_ITEMS).
Proof.
  intros F NC Q. unfold compile. rewrite compile_render by auto. cbn [rbind groups].
  rewrite numbered_groups. rewrite distinct_nodup by apply numbered_nodup. auto.
Qed.
