(** Shared vocabulary: Python exceptions as values, decidable equality,
    insertion-ordered dictionaries, text as lists of characters. *)
From Coq Require Import Ascii String List Bool Arith Lia ZArith.
Import ListNotations.

(** Python exception classes that the modelled code can raise.  [OutOfFuel]
    is not a Python exception: it marks the end of the fuel of a
    non-structural recursion and is always excluded by the theorems. *)
Inductive pyerr : Type :=
| KeyError | ValueError | IndexError | TypeError | RuntimeError
| AssertionError | GeometryError | TriangulationError | FileExistsError
| ZeroDivisionError | AttributeError | FileNotFoundError | RecursionError
| ReError | NotImplementedError | MeshError
| OutOfFuel.

Inductive result (A : Type) : Type :=
| Ok (a : A)
| Err (e : pyerr).
Arguments Ok {A} a.
Arguments Err {A} e.

Definition rbind {A B} (x : result A) (f : A -> result B) : result B :=
  match x with Ok a => f a | Err e => Err e end.

Definition rmap {A B} (f : A -> B) (x : result A) : result B :=
  match x with Ok a => Ok (f a) | Err e => Err e end.

Declare Scope py_scope.
Delimit Scope py_scope with py.
Notation "'do' x <- e ; f" := (rbind e (fun x => f))
  (at level 200, x name, e at level 100, f at level 200) : py_scope.
Open Scope py_scope.

Fixpoint mapM {A B} (f : A -> result B) (l : list A) : result (list B) :=
  match l with
  | [] => Ok []
  | x :: xs => do y <- f x; do ys <- mapM f xs; Ok (y :: ys)
  end.

(** Decidable equality. *)
Class EqDec (A : Type) := eq_dec : forall x y : A, {x = y} + {x <> y}.

#[global] Instance EqDec_nat : EqDec nat := Nat.eq_dec.
#[global] Instance EqDec_Z : EqDec Z := Z.eq_dec.
#[global] Instance EqDec_ascii : EqDec ascii := ascii_dec.
#[global] Instance EqDec_string : EqDec string := string_dec.
#[global] Instance EqDec_bool : EqDec bool := bool_dec.
#[global] Instance EqDec_list {A} `{EqDec A} : EqDec (list A) :=
  list_eq_dec eq_dec.
#[global] Instance EqDec_prod {A B} `{EqDec A} `{EqDec B} : EqDec (A * B).
Proof. intros [a b] [c d]. destruct (eq_dec a c), (eq_dec b d); subst; auto; right; congruence. Defined.
#[global] Instance EqDec_option {A} `{EqDec A} : EqDec (option A).
Proof. intros [a|] [b|]; auto; try (right; congruence). destruct (eq_dec a b); subst; auto; right; congruence. Defined.

Definition eqb {A} `{EqDec A} (x y : A) : bool := if eq_dec x y then true else false.

Lemma eqb_true {A} `{EqDec A} (x y : A) : eqb x y = true <-> x = y.
Proof. unfold eqb. destruct (eq_dec x y); split; intros; auto; discriminate. Qed.
Lemma eqb_false {A} `{EqDec A} (x y : A) : eqb x y = false <-> x <> y.
Proof. unfold eqb. destruct (eq_dec x y); split; intros; auto; try discriminate. contradiction. Qed.
Lemma eqb_refl {A} `{EqDec A} (x : A) : eqb x x = true.
Proof. apply eqb_true. reflexivity. Qed.
Lemma eqb_sym {A} `{EqDec A} (x y : A) : eqb x y = eqb y x.
Proof. unfold eqb. destruct (eq_dec x y), (eq_dec y x); congruence. Qed.
Lemma eqb_neq {A} `{EqDec A} (x y : A) : x <> y -> eqb x y = false.
Proof. apply eqb_false. Qed.

(** Python [x in list]. *)
Definition memb {A} `{EqDec A} (x : A) (l : list A) : bool := existsb (eqb x) l.

Lemma memb_true {A} `{EqDec A} (x : A) l : memb x l = true <-> In x l.
Proof.
  unfold memb. rewrite existsb_exists. split.
  - intros (y & Hy & E). rewrite eqb_true in E. subst. exact Hy.
  - intros Hin. exists x. split; [exact Hin | apply eqb_refl].
Qed.
Lemma memb_false {A} `{EqDec A} (x : A) l : memb x l = false <-> ~ In x l.
Proof. rewrite <- memb_true. destruct (memb x l); split; intros; try congruence; auto. Qed.

(** Insertion-ordered dictionaries (Python >= 3.7). *)
Definition dict (K V : Type) : Type := list (K * V).

Section Dict.
  Context {K V : Type} `{EqDec K}.

  (** [d[k]] without the KeyError. *)
  Fixpoint dget (d : dict K V) (k : K) : option V :=
    match d with
    | [] => None
    | (k', v) :: d' => if eq_dec k k' then Some v else dget d' k
    end.

  (** [d[k] = v]: an existing key keeps its position. *)
  Fixpoint dset (d : dict K V) (k : K) (v : V) : dict K V :=
    match d with
    | [] => [(k, v)]
    | (k', v') :: d' => if eq_dec k k' then (k', v) :: d' else (k', v') :: dset d' k v
    end.

  (** [d.pop(k)] / [del d[k]] without the KeyError. *)
  Fixpoint ddel (d : dict K V) (k : K) : dict K V :=
    match d with
    | [] => []
    | (k', v') :: d' => if eq_dec k k' then d' else (k', v') :: ddel d' k
    end.

  Definition dkeys (d : dict K V) : list K := map fst d.
  Definition dvals (d : dict K V) : list V := map snd d.

  Lemma dget_None d k : dget d k = None <-> ~ In k (dkeys d).
  Proof.
    induction d as [|[k' v] d IH]; simpl; [tauto|].
    destruct (eq_dec k k'); subst.
    - split; [discriminate | intros C; exfalso; apply C; auto].
    - rewrite IH. split; intros C; [intros [E|E]; subst; auto | intros E; apply C; auto].
  Qed.

  Lemma dget_Some_in d k v : dget d k = Some v -> In (k, v) d.
  Proof.
    induction d as [|[k' v'] d IH]; simpl; [discriminate|].
    destruct (eq_dec k k'); subst; intros E; [left; congruence | right; auto].
  Qed.

  Lemma dget_Some_key d k v : dget d k = Some v -> In k (dkeys d).
  Proof. intros E. apply dget_Some_in in E. apply (in_map fst) in E. exact E. Qed.

  Lemma dget_in d k v : NoDup (dkeys d) -> In (k, v) d -> dget d k = Some v.
  Proof.
    induction d as [|[k' v'] d IH]; simpl; [tauto|].
    intros ND [E|E].
    - inversion E; subst. destruct (eq_dec k k); congruence.
    - inversion ND; subst. destruct (eq_dec k k') as [->|]; auto.
      exfalso. apply H2. apply (in_map fst) in E. exact E.
  Qed.

  Lemma dget_dset_same d k v : dget (dset d k v) k = Some v.
  Proof.
    induction d as [|[k' v'] d IH]; simpl.
    - destruct (eq_dec k k); congruence.
    - destruct (eq_dec k k') as [->|]; simpl.
      + destruct (eq_dec k' k'); congruence.
      + destruct (eq_dec k k'); congruence.
  Qed.

  Lemma dget_dset_other d k v k' : k' <> k -> dget (dset d k v) k' = dget d k'.
  Proof.
    intros N. induction d as [|[k0 v0] d IH]; simpl.
    - destruct (eq_dec k' k); congruence.
    - destruct (eq_dec k k0) as [->|]; simpl.
      + destruct (eq_dec k' k0); congruence.
      + destruct (eq_dec k' k0); congruence.
  Qed.

  Lemma dset_new d k v : ~ In k (dkeys d) -> dset d k v = d ++ [(k, v)].
  Proof.
    induction d as [|[k' v'] d IH]; simpl; intros N; auto.
    destruct (eq_dec k k') as [->|]; [exfalso; auto|]. rewrite IH; auto.
  Qed.

  Lemma dkeys_dset_old d k v : In k (dkeys d) -> dkeys (dset d k v) = dkeys d.
  Proof.
    unfold dkeys. induction d as [|[k' v'] d IH]; simpl; [tauto|].
    intros [E|E]; destruct (eq_dec k k'); subst; simpl; try congruence.
    f_equal. auto.
  Qed.

  Lemma dkeys_dset d k v x : In x (dkeys (dset d k v)) <-> x = k \/ In x (dkeys d).
  Proof.
    destruct (in_dec eq_dec k (dkeys d)) as [I|I].
    - rewrite dkeys_dset_old by exact I. split; [auto | intros [->|]; auto].
    - rewrite dset_new by exact I. unfold dkeys. rewrite map_app, in_app_iff. simpl. intuition.
  Qed.

  Lemma NoDup_dset d k v : NoDup (dkeys d) -> NoDup (dkeys (dset d k v)).
  Proof.
    intros ND. destruct (in_dec eq_dec k (dkeys d)) as [I|I].
    - rewrite dkeys_dset_old; auto.
    - rewrite dset_new by exact I. unfold dkeys. rewrite map_app. simpl.
      apply NoDup_Add with (a := k) (l := map fst d).
      + rewrite <- (app_nil_r (map fst d)) at 1. apply Add_app.
      + split; auto.
  Qed.

  Lemma ddel_notin d k : ~ In k (dkeys d) -> ddel d k = d.
  Proof.
    induction d as [|[k' v'] d IH]; simpl; intros N; auto.
    destruct (eq_dec k k') as [->|]; [exfalso; auto|]. rewrite IH; auto.
  Qed.

  Lemma in_ddel d k x : In x (ddel d k) -> In x d.
  Proof.
    induction d as [|[k' v'] d IH]; simpl; auto.
    destruct (eq_dec k k'); simpl; intuition.
  Qed.

  Lemma NoDup_ddel d k : NoDup (dkeys d) -> NoDup (dkeys (ddel d k)).
  Proof.
    induction d as [|[k' v'] d IH]; simpl; intros ND; auto.
    inversion ND; subst. destruct (eq_dec k k'); auto. simpl. constructor; auto.
    intros C. apply H2. apply in_map_iff in C. destruct C as ((a, b) & E & I).
    apply in_ddel in I. apply (in_map fst) in I. simpl in *. subst. exact I.
  Qed.

  Lemma dkeys_ddel d k x : NoDup (dkeys d) ->
    (In x (dkeys (ddel d k)) <-> x <> k /\ In x (dkeys d)).
  Proof.
    induction d as [|[k' v'] d IH]; simpl; intros ND; [tauto|].
    inversion ND; subst. destruct (eq_dec k k') as [->|N].
    - split; [intros I; split; auto; intros ->; auto | intros (A & [B|B]); [congruence|auto]].
    - simpl. rewrite IH by assumption. split; intros; [|tauto]. destruct H0; subst; intuition.
  Qed.

  Lemma dget_ddel_same d k : NoDup (dkeys d) -> dget (ddel d k) k = None.
  Proof.
    intros ND. apply dget_None. rewrite dkeys_ddel by exact ND. tauto.
  Qed.

  Lemma dget_ddel_other d k k' : k' <> k -> dget (ddel d k) k' = dget d k'.
  Proof.
    intros N. induction d as [|[k0 v0] d IH]; simpl; auto.
    destruct (eq_dec k k0) as [->|]; simpl.
    - destruct (eq_dec k' k0); congruence.
    - destruct (eq_dec k' k0); congruence.
  Qed.

  Lemma ddel_filter d k : NoDup (dkeys d) -> ddel d k = filter (fun e => negb (eqb (fst e) k)) d.
  Proof.
    induction d as [|[k' v'] d IH]; simpl; intros ND; auto.
    inversion ND; subst. destruct (eq_dec k k') as [->|N].
    - rewrite eqb_refl. simpl. clear IH ND H3. induction d as [|[a b] d IH]; simpl; auto.
      rewrite eqb_neq; simpl; [|intros ->; apply H2; simpl; auto].
      f_equal. apply IH. intros C. apply H2. simpl. auto.
    - rewrite eqb_neq by congruence. simpl. f_equal. auto.
  Qed.
End Dict.

(** Text: Python [str] as a list of characters (8-bit characters; the code
    never inspects anything beyond ASCII). *)
Definition str : Type := list ascii.
Definition str_of (s : string) : str := list_ascii_of_string s.
Coercion str_of : string >-> str.

(** Dictionary lookup raising KeyError. *)
Definition dlookup {K V} `{EqDec K} (d : dict K V) (k : K) : result V :=
  match dget d k with Some v => Ok v | None => Err KeyError end.

(** Small list helpers with their specifications. *)
Fixpoint set_nth {A} (l : list A) (n : nat) (x : A) : list A :=
  match l, n with
  | [], _ => []
  | _ :: l', O => x :: l'
  | y :: l', S n' => y :: set_nth l' n' x
  end.

Lemma set_nth_length {A} (l : list A) n x : length (set_nth l n x) = length l.
Proof. revert n. induction l; destruct n; simpl; auto. Qed.

Lemma nth_error_set_nth {A} (l : list A) n x m :
  nth_error (set_nth l n x) m =
  if Nat.eq_dec m n then (if lt_dec n (length l) then Some x else None) else nth_error l m.
Proof.
  revert n m. induction l; intros n m.
  - simpl. destruct (Nat.eq_dec m n); destruct (lt_dec n 0); auto; try lia; destruct m; auto.
  - destruct n, m; simpl; auto.
    rewrite IHl. destruct (Nat.eq_dec m n), (Nat.eq_dec (S m) (S n)); try lia; auto.
    destruct (lt_dec n (length l)), (lt_dec (S n) (S (length l))); auto; lia.
Qed.

Lemma nth_error_ext {A} (l1 l2 : list A) :
  (forall i, nth_error l1 i = nth_error l2 i) -> l1 = l2.
Proof.
  revert l2. induction l1 as [|a l1 IH]; intros [|b l2] Hx; auto.
  - specialize (Hx 0). discriminate.
  - specialize (Hx 0). discriminate.
  - f_equal. { specialize (Hx 0). simpl in Hx. congruence. }
    apply IH. intros i. exact (Hx (S i)).
Qed.

Lemma nth_error_skipn_add {A} (l : list A) n i : nth_error (skipn n l) i = nth_error l (n + i).
Proof.
  revert n. induction l as [|a l IH]; intros [|n]; simpl; auto. destruct i; auto.
Qed.

Lemma nth_error_firstn_lt {A} (l : list A) n i : i < n -> nth_error (firstn n l) i = nth_error l i.
Proof.
  revert n i. induction l as [|a l IH]; intros [|n] [|i] L; simpl; auto; try lia. apply IH. lia.
Qed.

Lemma skipn_skipn_add {A} (l : list A) n m : skipn n (skipn m l) = skipn (m + n) l.
Proof.
  apply nth_error_ext. intros i. rewrite !nth_error_skipn_add. f_equal. lia.
Qed.
