(** Specification vocabulary for saved states. *)
From Coq Require Import Ascii String List Arith Bool Permutation.
From Verif Require Import Prelude IoModel WildModel WildSpec BufModel.
Import ListNotations.

(** The pattern "L<step>.npy". *)
Definition step_pattern (L : str) : str := L ++ str_of "<step>.npy".

(** A usable literal: plain, not empty, no directory separator. *)
Definition file_stem (L : str) : Prop := L <> [] /\ plain L /\ ~ In "/"%char L.

(** What a glob in the directory may return for the given files: every file
    once, in any order, the directory written in some normalised form. *)
Definition glob_of {A} (dir : str) (fs : dict str A) (listing : list str) : Prop :=
  exists pre names, ~ In "010"%char pre /\
    Forall2 (fun p n => joins_to dir n p /\ ~ (exists t, n = "/"%char :: t)) (dkeys fs) names /\
    Permutation listing (map (fun n => pre ++ n) names).

(** [a] is the state last written for the step: it comes from batch i at
    offset j and no later batch has this step. *)
Definition last_written {A} (size : nat) (bufs : list (list A)) (step : nat) (a : A) : Prop :=
  exists i j buf, nth_error bufs i = Some buf /\ nth_error buf j = Some a /\ step = i * size + j /\
    forall i', i < i' < length bufs -> step < i' * size.

(** Each batch starts with the last state of the previous one. *)
Definition chained {A} (size : nat) (bufs : list (list A)) : Prop :=
  forall i b1 b2, nth_error bufs i = Some b1 -> nth_error bufs (S i) = Some b2 -> nth_error b1 size = nth_error b2 0.

(** The listing has a file of this pattern for some step, and m is one more
    than the highest such step. *)
Definition listed_up_to (name_ok : str -> bool) (listing : list str) (file : str) (m : nat) : Prop :=
  exists wp D, new_wpath name_ok file = Ok wp /\ dict_values wp listing = Ok D /\
    (forall path wd, In (path, wd) D -> exists k, dget wd STEP = Some k /\ k < m) /\
    exists path wd k, In (path, wd) D /\ dget wd STEP = Some k /\ m = S k.
(** The path of the file of this pattern and step. *)
Definition step_path (name_ok : str -> bool) (dir file : str) (step : nat) (path : str) : Prop :=
  exists wp, new_wpath name_ok file = Ok wp /\ fill wp dir [(STEP, decimal step)] = Ok path.
