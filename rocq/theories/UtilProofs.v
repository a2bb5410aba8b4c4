(** Lemmas about the utilities. *)
From Coq Require Import Ascii String List Arith ZArith Reals Lia Lra.
From Verif Require Import Prelude UtilModel.
Import ListNotations.

(** ** Specification vocabulary *)

(** The last [n] elements of a list. *)
Definition last_n {A} (n : nat) (l : list A) : list A := skipn (length l - n) l.

Section Cyclic.
  Context {A : Type}.
  Implicit Types (b : list A).

  (** Invariant: the window read from [tail] to [head] is [w], with at most
      N-1 elements, addressed modulo N. *)
  Definition window b h t (w : list A) : Prop :=
    h < length b /\ t < length b /\ length w < length b /\
    h = (t + length w) mod length b /\
    forall i, i < length w -> nth_error b ((t + i) mod length b) = nth_error w i.

  Lemma mod_small_or n k : n <> 0 -> k < 2 * n ->
    (k mod n = k /\ k < n) \/ (k mod n = k - n /\ n <= k).
  Proof.
    intros Hn Hk. destruct (lt_dec k n).
    - left. split; auto. apply Nat.mod_small; auto.
    - right. split; [|lia]. symmetry. apply (Nat.mod_unique k n 1); lia.
  Qed.

  Lemma window_contiguous b h t w : window b h t w -> convert_to_contiguous b h t = w.
  Proof.
    intros (Hh & Ht & Hw & Eh & Hn).
    assert (N0 : length b <> 0) by lia.
    unfold convert_to_contiguous.
    destruct (mod_small_or (length b) (t + length w) N0 ltac:(lia)) as [(E & B)|(E & B)];
      rewrite E in Eh; subst h.
    - destruct (Nat.eqb_spec (t + length w) t).
      + assert (length w = 0) by lia. destruct w; simpl in *; auto; lia.
      + assert (Hlt : (t <? t + length w) = true) by (apply Nat.ltb_lt; lia). rewrite Hlt.
        replace (t + length w - t) with (length w) by lia.
        apply nth_error_ext. intros i. destruct (lt_dec i (length w)) as [L|L].
        * rewrite <- Hn by exact L.
          rewrite Nat.mod_small by lia.
          rewrite nth_error_firstn_lt by exact L. apply nth_error_skipn_add.
        * rewrite !(proj2 (nth_error_None _ _)); auto; try lia.
          rewrite firstn_length, skipn_length. lia.
    - destruct (Nat.eqb_spec (t + length w - length b) t); [lia|].
      assert (Hlt : (t <? t + length w - length b) = false) by (apply Nat.ltb_ge; lia). rewrite Hlt.
      apply nth_error_ext. intros i. destruct (lt_dec i (length w)) as [L|L].
      + rewrite <- Hn by exact L. destruct (lt_dec i (length b - t)).
        * rewrite Nat.mod_small by lia. rewrite nth_error_app1 by (rewrite skipn_length; lia).
          apply nth_error_skipn_add.
        * destruct (mod_small_or (length b) (t + i) N0 ltac:(lia)) as [(E' & B')|(E' & B')]; [lia|].
          rewrite E'. rewrite nth_error_app2 by (rewrite skipn_length; lia).
          rewrite skipn_length. replace (i - (length b - t)) with (t + i - length b) by lia.
          apply nth_error_firstn_lt. lia.
      + rewrite !(proj2 (nth_error_None _ _)); auto; try lia.
        rewrite app_length, firstn_length, skipn_length. lia.
  Qed.

  Lemma window_push b h t w e : window b h t w ->
    exists b' h' t', cyclic_buf b h t e (length b) = Ok (b', h', t') /\
      length b' = length b /\
      window b' h' t' (last_n (length b - 1) (w ++ [e])).
  Proof.
    intros (Hh & Ht & Hw & Eh & Hn).
    assert (N0 : length b <> 0) by lia.
    unfold cyclic_buf. rewrite (proj2 (Nat.ltb_lt _ _) Hh).
    destruct (Nat.eqb_spec (length b) 0); [lia|].
    assert (E1 : (h + 1) mod length b = (t + (length w + 1)) mod length b).
    { rewrite Eh. rewrite Nat.add_mod_idemp_l by exact N0. f_equal. lia. }
    rewrite E1.
    assert (Hnew : forall i, i <= length w ->
        nth_error (set_nth b h e) ((t + i) mod length b) = nth_error (w ++ [e]) i).
    { intros i Hi. rewrite nth_error_set_nth. destruct (Nat.eq_dec _ h) as [E|E].
      - destruct (lt_dec h (length b)); [|lia].
        assert (i = length w).
        { destruct (mod_small_or (length b) (t + i) N0 ltac:(lia)) as [(Ea & Ba)|(Ea & Ba)];
          destruct (mod_small_or (length b) (t + length w) N0 ltac:(lia)) as [(Eb & Bb)|(Eb & Bb)];
          rewrite Ea in E; rewrite Eb in Eh; lia. }
        subst i. rewrite nth_error_app2 by lia. rewrite Nat.sub_diag. reflexivity.
      - assert (i <> length w) by (intros ->; congruence).
        rewrite nth_error_app1 by lia. apply Hn. lia. }
    destruct (Nat.eqb_spec ((t + (length w + 1)) mod length b) t) as [Ef|Ef].
    - (* full *)
      assert (Lw : length w = length b - 1).
      { destruct (mod_small_or (length b) (t + (length w + 1)) N0 ltac:(lia)) as [(Ea & Ba)|(Ea & Ba)];
          rewrite Ea in Ef; lia. }
      eexists _, _, _. split; [reflexivity|]. split; [apply set_nth_length|].
      unfold window. rewrite set_nth_length, Ef.
      unfold last_n. rewrite app_length, Lw. simpl (length [e]).
      replace (length b - 1 + 1 - (length b - 1)) with 1 by lia.
      rewrite skipn_length, app_length. simpl (length [e]).
      split; [exact Ht|].
      split; [apply Nat.mod_upper_bound; auto|].
      split; [lia|]. split.
      + rewrite Nat.add_mod_idemp_l by exact N0.
        match goal with |- _ = ?x mod _ => replace x with (t + 1 * length b) by lia end.
        rewrite Nat.mod_add by exact N0. symmetry. apply Nat.mod_small; auto.
      + intros i Hi. rewrite Nat.add_mod_idemp_l by exact N0.
        replace (t + 1 + i) with (t + (i + 1)) by lia.
        rewrite Hnew by lia.
        rewrite nth_error_skipn_add. f_equal. lia.
    - eexists _, _, _. split; [reflexivity|]. split; [apply set_nth_length|].
      assert (Lw : length w + 1 < length b).
      { destruct (mod_small_or (length b) (t + (length w + 1)) N0 ltac:(lia)) as [(Ea & Ba)|(Ea & Ba)];
          rewrite Ea in Ef; lia. }
      unfold window. rewrite set_nth_length.
      unfold last_n. rewrite app_length. simpl (length [e]).
      replace (length w + 1 - (length b - 1)) with 0 by lia. simpl (skipn 0 _).
      rewrite app_length. simpl (length [e]).
      split; [apply Nat.mod_upper_bound; auto|].
      split; [exact Ht|]. split; [lia|]. split; [reflexivity|].
      intros i Hi. apply Hnew. lia.
  Qed.

  Lemma last_n_app n (l1 l2 : list A) : last_n n (last_n n l1 ++ l2) = last_n n (l1 ++ l2).
  Proof.
    unfold last_n. rewrite !app_length, skipn_length.
    rewrite !skipn_app. rewrite skipn_skipn_add, skipn_length.
    f_equal; f_equal; lia.
  Qed.

  Lemma push_all_window els : forall b h t w, window b h t w ->
    exists b' h' t', push_all (b, h, t) els (length b) = Ok (b', h', t') /\
      length b' = length b /\ window b' h' t' (last_n (length b - 1) (w ++ els)).
  Proof.
    induction els as [|e es IH]; intros b h t w W; simpl.
    - exists b, h, t. split; [reflexivity|]. split; [reflexivity|].
      rewrite app_nil_r. unfold last_n. destruct W as (? & ? & ? & W).
      replace (length w - (length b - 1)) with 0 by lia. simpl.
      unfold window. auto.
    - destruct (window_push b h t w e W) as (b1 & h1 & t1 & E & L & W1).
      rewrite E. simpl.
      destruct (IH b1 h1 t1 _ W1) as (b2 & h2 & t2 & E2 & L2 & W2).
      rewrite L in E2. exists b2, h2, t2. split; [exact E2|]. split; [lia|].
      rewrite L, last_n_app, <- app_assoc in W2. exact W2.
  Qed.

  Lemma cyclic_contents b els : length b <> 0 ->
    exists b' h t, push_all (b, 0, 0) els (length b) = Ok (b', h, t) /\
      length b' = length b /\
      convert_to_contiguous b' h t = last_n (length b - 1) els.
  Proof.
    intros N. destruct (push_all_window els b 0 0 []) as (b' & h & t & E & L & W).
    { unfold window. simpl. repeat split; try lia. rewrite Nat.mod_0_l; lia. }
    exists b', h, t. split; [exact E|]. split; [exact L|].
    apply window_contiguous. exact W.
  Qed.
End Cyclic.

Section Roll.
  Context {A : Type}.

  Lemma roll_forward_snoc (l : list A) x : roll_forward (l ++ [x]) = x :: l.
  Proof.
    unfold roll_forward. destruct (l ++ [x]) as [|p0 q] eqn:E; [destruct l; discriminate|].
    rewrite <- E. rewrite app_length. simpl (length [x]).
    rewrite Nat.add_1_r. simpl (seq 0 _). simpl map. f_equal.
    - rewrite app_nth2 by lia. match goal with |- nth ?k _ _ = _ => replace k with 0 by lia end. reflexivity.
    - rewrite <- seq_shift, map_map. clear E.
      apply nth_error_ext. intros i. destruct (lt_dec i (length l)) as [L|L].
      + rewrite nth_error_map, (nth_error_nth' _ 0) by (rewrite seq_length; exact L).
        rewrite seq_nth by exact L. simpl. rewrite app_nth1 by exact L.
        symmetry. apply nth_error_nth'. exact L.
      + rewrite !(proj2 (nth_error_None _ _)); auto; try lia. rewrite map_length, seq_length. lia.
  Qed.

  Lemma roll_forward_back (x : list A) y : roll_back x = Ok y -> roll_forward y = x.
  Proof.
    destruct x as [|x0 xs]; simpl; [discriminate|]. intros E. inversion E; subst.
    apply roll_forward_snoc.
  Qed.

  Lemma roll_back_forward (x : list A) : x <> [] -> roll_back (roll_forward x) = Ok x.
  Proof.
    intros N. destruct (exists_last N) as (l & a & ->). rewrite roll_forward_snoc. reflexivity.
  Qed.

  Fixpoint roll_back_n (n : nat) (x : list A) : result (list A) :=
    match n with O => Ok x | S n' => do y <- roll_back x; roll_back_n n' y end.

  Lemma roll_back_n_app (l1 l2 : list A) : roll_back_n (length l1) (l1 ++ l2) = Ok (l2 ++ l1).
  Proof.
    revert l2. induction l1 as [|a l1 IH]; intros l2; simpl.
    - rewrite app_nil_r. reflexivity.
    - rewrite <- app_assoc. rewrite IH. rewrite <- app_assoc. reflexivity.
  Qed.

  Lemma iter_succ_right (f : list A -> list A) n x : Nat.iter (S n) f x = Nat.iter n f (f x).
  Proof. induction n; simpl; auto. simpl in IHn. rewrite IHn. reflexivity. Qed.

  Lemma roll_forward_n_app (l2 : list A) : forall l1,
    Nat.iter (length l2) roll_forward (l1 ++ l2) = l2 ++ l1.
  Proof.
    induction l2 as [|a l2 IH] using rev_ind; intros l1; simpl.
    - rewrite app_nil_r. reflexivity.
    - rewrite app_length, Nat.add_1_r. rewrite iter_succ_right.
      rewrite app_assoc, roll_forward_snoc. change (a :: l1 ++ l2) with ((a :: l1) ++ l2).
      rewrite IH. rewrite <- app_assoc. reflexivity.
  Qed.

  Lemma roll_forward_Permutation_len (l : list A) : length (roll_forward l) = length l.
  Proof.
    destruct l as [|a l]; auto. unfold roll_forward. rewrite map_length, seq_length. reflexivity.
  Qed.
End Roll.

Lemma random_id_spec (uid : str) (s : Z) :
  length (filter (fun c => negb (Ascii.eqb c hyphen)) uid) = 32 ->
  (forall v, random_id uid (Some s) = Ok v ->
     (1 <= s <= 32)%Z /\ Z.of_nat (length v) = s /\ ~ In hyphen v /\
     exists rest, filter (fun c => negb (Ascii.eqb c hyphen)) uid = v ++ rest) /\
  (random_id uid (Some s) = Err ValueError <-> (s > 32 \/ s <= 0)%Z).
Proof.
  intros L. unfold random_id. split.
  - intros v. destruct (Z.ltb_spec 32 s); [discriminate|]. destruct (Z.leb_spec s 0); [discriminate|].
    intros E. inversion E; subst. split; [lia|]. split.
    + rewrite firstn_length, L. lia.
    + split.
      * intros I. assert (I' : In hyphen (filter (fun c => negb (Ascii.eqb c hyphen)) uid)).
        { rewrite <- (firstn_skipn (Z.to_nat s)). apply in_or_app. left. exact I. }
        apply filter_In in I'. destruct I' as (_ & I'). rewrite Ascii.eqb_refl in I'. discriminate.
      * exists (skipn (Z.to_nat s) (filter (fun c => negb (Ascii.eqb c hyphen)) uid)).
        symmetry. apply firstn_skipn.
  - destruct (Z.ltb_spec 32 s); [split; intros; auto; lia|].
    destruct (Z.leb_spec s 0); split; intros; auto; try lia; discriminate.
Qed.

Local Open Scope R_scope.

Lemma random_within_range lim u : 0 <= u < 1 ->
  (0 < lim -> - lim <= random_within lim u < lim) /\ random_within 0 u = 0.
Proof.
  intros U. unfold random_within. split.
  - intros L. destruct (Req_EM_T lim 0); [lra|]. nra.
  - destruct (Req_EM_T 0 0); lra.
Qed.

Lemma random_between_range lo hi u : 0 <= u < 1 -> lo <> hi ->
  Rmin lo hi <= random_between lo hi u < Rmax lo hi.
Proof.
  intros U N. unfold random_between. destruct (Rgt_dec lo hi).
  - rewrite Rmin_right, Rmax_left by lra. nra.
  - rewrite Rmin_left, Rmax_right by lra. nra.
Qed.

Lemma random_between_sym lo hi u : random_between lo hi u = random_between hi lo u.
Proof.
  unfold random_between. destruct (Rgt_dec lo hi), (Rgt_dec hi lo); try lra.
  assert (lo = hi) by lra. subst. reflexivity.
Qed.
