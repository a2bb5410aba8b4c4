(** Property theorems C01-C03. *)
From Coq Require Import Ascii String List Arith ZArith Reals Permutation.
From Verif Require Import Prelude UtilModel UtilProofs.
Import ListNotations.

(** C01: after pushing [els] into an empty buffer of size N >= 1, no push
    fails, the array keeps its size and reading it out gives the newest
    min(k, N-1) elements, oldest first. *)
Theorem C01_cyclic_buffer_contents :
  forall (A : Type) (init : list A) (els : list A), length init <> 0 ->
  exists buf head tail,
    push_all (init, 0, 0) els (length init) = Ok (buf, head, tail) /\
    length buf = length init /\
    convert_to_contiguous buf head tail = skipn (length els - (length init - 1)) els.
Proof. exact @cyclic_contents. Qed.
Print Assumptions C01_cyclic_buffer_contents.

Example C01_instance :
  exists buf head tail,
    push_all ([0; 0; 0], 0, 0) [1; 2; 3; 4; 5] 3 = Ok (buf, head, tail) /\
    convert_to_contiguous buf head tail = [4; 5].
Proof. vm_compute. eauto. Qed.

(** C01, finding: the buffer never holds [buffer_size] elements although the
    docstring says the oldest element is overwritten "when the buffer is
    full": with N pushes into a buffer of size N one element is already gone. *)
Theorem C01_capacity_refuted :
  ~ (forall (init els : list nat) buf head tail,
       length init <> 0 -> length els = length init ->
       push_all (init, 0, 0) els (length init) = Ok (buf, head, tail) ->
       convert_to_contiguous buf head tail = els).
Proof.
  exact (fun H => ltac:(discriminate (H [0; 0] [7; 8] [7; 8] 0 1 ltac:(discriminate) eq_refl eq_refl))).
Qed.
Print Assumptions C01_capacity_refuted.

(** C02: rolling. *)
Theorem C02_roll_back_characterised :
  forall (A : Type) (x : A) (l : list A),
    roll_back (x :: l) = Ok (l ++ [x]) /\ roll_forward (l ++ [x]) = x :: l /\
    @roll_back A [] = Err IndexError.
Proof. exact (fun A x l => conj eq_refl (conj (roll_forward_snoc l x) eq_refl)). Qed.
Print Assumptions C02_roll_back_characterised.

Theorem C02_rolls_are_inverse :
  forall (A : Type) (x : list A), x <> [] ->
    roll_back (roll_forward x) = Ok x /\
    (forall y, roll_back x = Ok y -> roll_forward y = x).
Proof. exact (fun A x N => conj (roll_back_forward x N) (roll_forward_back x)). Qed.
Print Assumptions C02_rolls_are_inverse.

Theorem C02_full_turn_is_identity :
  forall (A : Type) (x : list A),
    roll_back_n (length x) x = Ok x /\ Nat.iter (length x) roll_forward x = x.
Proof.
  exact (fun A x => conj
    (eq_trans (f_equal (roll_back_n (length x)) (eq_sym (app_nil_r x))) (roll_back_n_app x []))
    (eq_trans (roll_forward_n_app x []) (app_nil_r x))).
Qed.
Print Assumptions C02_full_turn_is_identity.

Example C02_instance : roll_back [1; 2; 3] = Ok [2; 3; 1] /\ roll_forward [1; 2; 3] = [3; 1; 2].
Proof. split; reflexivity. Qed.

(** C03: random helpers.  A UUID text without hyphens has 32 characters. *)
Theorem C03_random_id :
  forall (uid : str) (s : Z),
  length (filter (fun c => negb (Ascii.eqb c hyphen)) uid) = 32 ->
  (forall v, random_id uid (Some s) = Ok v ->
     (1 <= s <= 32)%Z /\ Z.of_nat (length v) = s /\ ~ In hyphen v /\
     exists rest, filter (fun c => negb (Ascii.eqb c hyphen)) uid = v ++ rest) /\
  (random_id uid (Some s) = Err ValueError <-> (s > 32 \/ s <= 0)%Z).
Proof. exact random_id_spec. Qed.
Print Assumptions C03_random_id.

Example C03_instance :
  random_id (str_of "123e4567-e89b-12d3-a456-426614174000") (Some 10%Z)
    = Ok (str_of "123e4567e8").
Proof. reflexivity. Qed.

Theorem C03_random_within :
  forall lim u : R, (0 <= u < 1)%R ->
  ((0 < lim)%R -> (- lim <= random_within lim u < lim)%R) /\ random_within 0 u = 0%R.
Proof. exact random_within_range. Qed.
Print Assumptions C03_random_within.

Theorem C03_random_between :
  forall lo hi u : R, (0 <= u < 1)%R -> lo <> hi ->
  (Rmin lo hi <= random_between lo hi u < Rmax lo hi)%R.
Proof. exact random_between_range. Qed.
Print Assumptions C03_random_between.
