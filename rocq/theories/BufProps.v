(** Property C27: saved simulation states. *)
From Coq Require Import Ascii String List Arith Bool Lia Permutation.
From Verif Require Import Prelude IoModel StlModel WildModel WildSpec WildProofs4 BufModel BufSpec BufProofs2 BufProofs3.
Import ListNotations.

(** C27: the directory of a run holds exactly the states 0..num_steps in three
    files each, and reading gives for every step the state last written. *)
Theorem C27_dump_then_read : forall A (same_shape : A -> A -> bool) name_ok, name_ok STEP = true ->
  forall dir Lp Le Lh, file_stem Lp -> file_stem Le -> file_stem Lh -> Lp <> Le -> Lp <> Lh -> Le <> Lh ->
  let pat := mkPat (step_pattern Lp) (step_pattern Le) (step_pattern Lh) in
  forall size (batches : list (list A * list A * list A)), 0 < size -> batches <> [] ->
  Forall (fun b => length (fst (fst b)) = S size /\ length (snd (fst b)) = S size /\ length (snd b) = S size) batches ->
  ~ In NL dir ->
  (forall b b' a a', In b batches -> In b' batches -> In a (fst (fst b)) -> In a' (fst (fst b')) -> same_shape a a' = true) ->
  (forall b b' a a', In b batches -> In b' batches -> In a (snd (fst b)) -> In a' (snd (fst b')) -> same_shape a a' = true) ->
  (forall b b' a a', In b batches -> In b' batches -> In a (snd b) -> In a' (snd b') -> same_shape a a' = true) ->
  exists fs, run_dumps name_ok dir pat size batches 0 [] = Ok fs /\
    NoDup (dkeys fs) /\ length fs = 3 * (length batches * size + 1) /\
    forall listing, glob_of dir fs listing -> exists pos enr hit,
      read_buffers same_shape name_ok fs listing dir pat = Ok (pos, enr, hit) /\
      length pos = length batches * size + 1 /\ length enr = length batches * size + 1 /\ length hit = length batches * size + 1 /\
      (forall n a, nth_error pos n = Some a -> last_written size (map (fun b => fst (fst b)) batches) n a) /\
      (forall n a, nth_error enr n = Some a -> last_written size (map (fun b => snd (fst b)) batches) n a) /\
      (forall n a, nth_error hit n = Some a -> last_written size (map snd batches) n a).
Proof. exact @run_read. Qed.
Print Assumptions C27_dump_then_read.

(** If every batch starts where the previous one ended, the state read for a
    step is the one in every batch that has this step. *)
Theorem C27_chained_batches_lose_nothing : forall A size (bufs : list (list A)) n a i j buf, 0 < size -> chained size bufs ->
  (forall b, In b bufs -> length b = S size) -> last_written size bufs n a ->
  nth_error bufs i = Some buf -> j <= size -> n = i * size + j -> nth_error buf j = Some a.
Proof. exact @chained_lossless. Qed.
Print Assumptions C27_chained_batches_lose_nothing.

Definition buf_pat : patterns := mkPat (step_pattern (str_of "position_")) (step_pattern (str_of "energy_")) (step_pattern (str_of "hits_")).
(** Two batches of five steps (so that step 10 is listed before step 2 by
    name); the second starts with the last state of the first. *)
Definition buf_batches : list (list nat * list nat * list nat) :=
  [([0; 1; 2; 3; 4; 5], [100; 101; 102; 103; 104; 105], [200; 201; 202; 203; 204; 205]);
   ([5; 6; 7; 8; 9; 10], [105; 106; 107; 108; 109; 110], [205; 206; 207; 208; 209; 210])].
Definition buf_fs : result (files (A := nat)) := run_dumps (fun _ => true) (str_of "out/states") buf_pat 5 buf_batches 0 [].

Example C27_instance :
  file_stem (str_of "position_") /\ file_stem (str_of "energy_") /\ file_stem (str_of "hits_") /\
  chained 5 (map (fun b => fst (fst b)) buf_batches) /\
  match buf_fs with
  | Ok fs => length fs = 33 /\ read_buffers (fun _ _ => true) (fun _ => true) fs (rev (dkeys fs)) (str_of "out/states") buf_pat =
               Ok (seq 0 11, seq 100 11, seq 200 11)
  | Err _ => False
  end.
Proof.
  assert (F : forall s, negb (length s =? 0) && quiet_b s && negb (memb "."%char s) && negb (memb "/"%char s) = true -> file_stem s).
  { intros s H. apply andb_true_iff in H. destruct H as (H & H4). apply andb_true_iff in H. destruct H as (H & H3).
    apply andb_true_iff in H. destruct H as (H1 & H2). split; [|split].
    - intros ->. discriminate.
    - apply plain_check; auto. apply negb_true_iff. auto.
    - apply memb_false. apply negb_true_iff. auto. }
  split; [apply F; vm_compute; reflexivity|]. split; [apply F; vm_compute; reflexivity|]. split; [apply F; vm_compute; reflexivity|].
  split.
  - intros [|[|i]] b1 b2 E1 E2; simpl in E1, E2; try discriminate; inversion E1; inversion E2; reflexivity.
  - vm_compute. split; reflexivity.
Qed.

(** A pattern without the ".npy" extension is saved under another name and
    never read back. *)
Theorem C27_other_extension_refuted :
  exists pat fs, run_dumps (A := nat) (fun _ => true) (str_of "o") pat 1 [([0; 1], [0; 1], [0; 1])] 0 [] = Ok fs /\
    length fs = 6 /\ read_buffers (fun _ _ => true) (fun _ => true) fs (dkeys fs) (str_of "o") pat = Err RuntimeError.
Proof.
  exists (mkPat (str_of "p_<step>.dat") (str_of "e_<step>.dat") (str_of "h_<step>.dat")). eexists.
  split; [vm_compute; reflexivity|]. split; vm_compute; reflexivity.
Qed.
Print Assumptions C27_other_extension_refuted.

(** Whatever the directory holds: what is read has one state per step up to
    the highest listed one in each of the three buffers, each state is the
    content of the file of its step, and all states of a buffer have the shape
    of its first. *)
Theorem C27_read_sound : forall A (same_shape : A -> A -> bool) name_ok (fs : files (A := A)) listing dir pat pos enr hit,
  read_buffers same_shape name_ok fs listing dir pat = Ok (pos, enr, hit) ->
  length pos = length enr /\ length enr = length hit /\
  forall file buf, In (file, buf) [(position_file pat, pos); (energy_file pat, enr); (hits_file pat, hit)] ->
    listed_up_to name_ok listing file (length buf) /\
    (forall n a, nth_error buf n = Some a -> exists path, step_path name_ok dir file n path /\ dget fs path = Some a) /\
    (forall a b, nth_error buf 0 = Some a -> In b buf -> same_shape a b = true).
Proof. exact @read_sound. Qed.
Print Assumptions C27_read_sound.

(** The three kinds of files must reach the same step. *)
Theorem C27_lengths_differ : forall A (same_shape : A -> A -> bool) name_ok (fs : files (A := A)) listing dir pat m1 m2 m3,
  listed_up_to name_ok listing (position_file pat) m1 -> listed_up_to name_ok listing (energy_file pat) m2 ->
  listed_up_to name_ok listing (hits_file pat) m3 -> ~ (m1 = m2 /\ m2 = m3) ->
  read_buffers same_shape name_ok fs listing dir pat = Err AssertionError.
Proof. exact @read_lengths_differ. Qed.
Print Assumptions C27_lengths_differ.

(** A missing file below the highest step is an error: no step is skipped. *)
Theorem C27_missing_file : forall A (same_shape : A -> A -> bool) name_ok (fs : files (A := A)) listing dir Lp Le Lh m k L path,
  file_stem Lp -> file_stem Le -> file_stem Lh ->
  let pat := mkPat (step_pattern Lp) (step_pattern Le) (step_pattern Lh) in
  (forall L, In L [Lp; Le; Lh] -> listed_up_to name_ok listing (step_pattern L) m) ->
  In L [Lp; Le; Lh] -> k < m -> step_path name_ok dir (step_pattern L) k path -> dget fs path = None ->
  read_buffers same_shape name_ok fs listing dir pat = Err FileNotFoundError.
Proof. exact @read_missing. Qed.
Print Assumptions C27_missing_file.

Theorem C27_no_files : forall A (same_shape : A -> A -> bool) name_ok (fs : files (A := A)) listing dir pat,
  (forall file, In file [position_file pat; energy_file pat; hits_file pat] ->
     exists wp D, new_wpath name_ok file = Ok wp /\ dict_values wp listing = Ok D) ->
  (exists file wp, In file [position_file pat; energy_file pat; hits_file pat] /\ new_wpath name_ok file = Ok wp /\ dict_values wp listing = Ok []) ->
  read_buffers same_shape name_ok fs listing dir pat = Err RuntimeError.
Proof. exact @read_no_files. Qed.
Print Assumptions C27_no_files.

(** Three steps saved; the energies of step 1 removed, the hits of the last
    step removed, all positions removed, the hits of step 2 of another shape. *)
Definition gap_dir : str := str_of "o".
Definition gap_file (L : str) (n : nat) : str := str_of "o/" ++ L ++ decimal n ++ str_of ".npy".
Definition gap_fs (skip : list str) : files (A := nat) :=
  filter (fun kv => negb (memb (fst kv) skip))
    (flat_map (fun n => map (fun L => (gap_file L n, n)) [str_of "position_"; str_of "energy_"; str_of "hits_"]) [0; 1; 2]).
Definition gap_read (skip : list str) (same : nat -> nat -> bool) : result (list nat * list nat * list nat) :=
  read_buffers same (fun _ => true) (gap_fs skip) (dkeys (gap_fs skip)) gap_dir buf_pat.
Lemma gap_listed skip file wp D m : new_wpath (fun _ => true) file = Ok wp -> dict_values wp (dkeys (gap_fs skip)) = Ok D ->
  forallb (fun pw => match dget (snd pw) STEP with Some k => k <? m | None => false end) D = true ->
  existsb (fun pw => match dget (snd pw) STEP with Some k => m =? S k | None => false end) D = true ->
  listed_up_to (fun _ => true) (dkeys (gap_fs skip)) file m.
Proof.
  intros W E F X. exists wp, D. split; auto. split; auto. split.
  - intros p w J. rewrite forallb_forall in F. specialize (F _ J). cbn [snd] in F. destruct (dget w STEP) as [n|]; [|discriminate]. exists n. split; auto. apply Nat.ltb_lt; auto.
  - apply existsb_exists in X. destruct X as ((p, w) & J & G). cbn [snd] in G. destruct (dget w STEP) as [n|] eqn:Q; [|discriminate]. exists p, w, n. split; auto. split; auto. apply Nat.eqb_eq; auto.
Qed.
Ltac listed := eapply gap_listed; vm_compute; reflexivity.
Example C27_gap_instance :
  gap_read [] (fun _ _ => true) = Ok ([0; 1; 2], [0; 1; 2], [0; 1; 2]) /\
  gap_read [gap_file (str_of "energy_") 1] (fun _ _ => true) = Err FileNotFoundError /\
  gap_read [gap_file (str_of "hits_") 2] (fun _ _ => true) = Err AssertionError /\
  gap_read (map (gap_file (str_of "position_")) [0; 1; 2]) (fun _ _ => true) = Err RuntimeError /\
  gap_read [] (fun a b => b <? 2) = Err ValueError.
Proof. repeat split; vm_compute; reflexivity. Qed.
Example C27_missing_file_instance : let s := [gap_file (str_of "energy_") 1] in
  (forall L, In L [str_of "position_"; str_of "energy_"; str_of "hits_"] -> listed_up_to (fun _ => true) (dkeys (gap_fs s)) (step_pattern L) 3) /\
  step_path (fun _ => true) gap_dir (step_pattern (str_of "energy_")) 1 (gap_file (str_of "energy_") 1) /\ dget (gap_fs s) (gap_file (str_of "energy_") 1) = None.
Proof.
  intros s. split; [intros L [<-|[<-|[<-|[]]]]; unfold s; listed|]. split; [eexists; split; vm_compute; reflexivity|vm_compute; reflexivity].
Qed.
Example C27_lengths_instance : let s := [gap_file (str_of "hits_") 2] in
  listed_up_to (fun _ => true) (dkeys (gap_fs s)) (position_file buf_pat) 3 /\ listed_up_to (fun _ => true) (dkeys (gap_fs s)) (hits_file buf_pat) 2.
Proof. intros s. unfold s. split; listed. Qed.
