(** Small utilities: cyclic buffer, list rolling, random ids. *)
From Coq Require Import Ascii String List Arith ZArith Reals.
From Verif Require Import Prelude.
Import ListNotations.

Section Cyclic.
  Context {A : Type}.

  (** building3d/types/cyclic_buffer.py:6-64 [cyclic_buf].
      The state is (buffer, head, tail); [buffer[head, :] = element] raises
      IndexError when head is not an index of the buffer and the modulo by a
      zero [buffer_size] raises ZeroDivisionError.
      Simplification: a row of the array is an abstract element; dtype
      conversion of the element is not modelled. *)
  Definition cyclic_buf (buffer : list A) (head tail : nat) (element : A)
      (buffer_size : nat) : result (list A * nat * nat) :=
    if head <? length buffer then
      let buffer := set_nth buffer head element in
      if buffer_size =? 0 then Err ZeroDivisionError else
      let head := (head + 1) mod buffer_size in
      let tail := if head =? tail then (tail + 1) mod buffer_size else tail in
      Ok (buffer, head, tail)
    else Err IndexError.

  (** building3d/types/cyclic_buffer.py:68-90 [convert_to_contiguous].
      Python slices: [buffer[tail:head]], [buffer[tail:]], [buffer[:head]]. *)
  Definition convert_to_contiguous (buffer : list A) (head tail : nat) : list A :=
    if head =? tail then []
    else if tail <? head then firstn (head - tail) (skipn tail buffer)
    else skipn tail buffer ++ firstn head buffer.

  (** Repeated insertion, as in the usage loop cyclic_buffer.py:99-101 and in
      the callers: feed the triple returned by one call into the next. *)
  Fixpoint push_all (st : list A * nat * nat) (els : list A) (buffer_size : nat)
      : result (list A * nat * nat) :=
    match els with
    | [] => Ok st
    | e :: es =>
        let '(b, h, t) := st in
        do st' <- cyclic_buf b h t e buffer_size; push_all st' es buffer_size
    end.
End Cyclic.

Section Roll.
  Context {A : Type}.

  (** building3d/util/roll_back.py:1-5 [roll_back]. [x[0]] raises IndexError on
      an empty list. *)
  Definition roll_back (x : list A) : result (list A) :=
    match x with
    | [] => Err IndexError
    | x0 :: xs => Ok (xs ++ [x0])
    end.

  (** building3d/geom/points/__init__.py:49-68 [roll_forward].
      [new_pts] starts as zeros and row i receives [pts[-1]] if i = 0 and
      [pts[i-1]] otherwise.  Row i exists for every i in range(num_pts); the
      [match] default is never reached (rows are defined for i < length). *)
  Definition roll_forward (pts : list A) : list A :=
    match pts with
    | [] => []
    | p0 :: _ =>
        map (fun i => match i with
                      | O => nth (length pts - 1) pts p0
                      | S i' => nth i' pts p0
                      end) (seq 0 (length pts))
    end.
End Roll.

(** building3d/random/__init__.py:6-27 [random_id]; [uid] is the string
    returned by [str(uuid.uuid4())] (oracle).  [uid.replace("-", "")] removes
    every hyphen. *)
Definition hyphen : ascii := "-"%char.

(** random_id (random/__init__.py:6-27). *)
Definition random_id (uid : str) (size : option Z) : result str :=
  match size with
  | Some s =>
      if (32 <? s)%Z then Err ValueError
      else if (s <=? 0)%Z then Err ValueError
      else Ok (firstn (Z.to_nat s) (filter (fun c => negb (Ascii.eqb c hyphen)) uid))
  | None => Ok uid
  end.

(** building3d/random/__init__.py:30-35 [random_within]; [u] is the draw of
    [np.random.random()] in [0,1). *)
Definition random_within (lim u : R) : R :=
  if Req_EM_T lim 0 then 0%R else (2 * lim * (u - 1 / 2))%R.

(** building3d/random/__init__.py:38-47 [random_between]. *)
Definition random_between (lo hi u : R) : R :=
  let '(lo, hi) := if Rgt_dec lo hi then (hi, lo) else (lo, hi) in
  (u * (hi - lo) + lo)%R.
