(** Properties of what is drawn (C135). *)
From Coq Require Import Ascii String List Arith Bool Lia.
From Verif Require Import Prelude MeshModel DirModel DirSpec SaveModel SaveSpec SaveProofs SaveProps PlotModel PlotSpec PlotProofs.
Import ListNotations.

(** ** C135: plot_objects *)
(** Each object is drawn once by each method it has, in order.  Two or more
    objects get the given colours, or random ones. *)
Theorem C135_drawn : forall P C (white : C) rnd (objects : list (plottable (P := P))) colors, 2 <= length objects -> (forall o, In o objects -> has_any o) ->
  (length colors = length objects -> exists ds, plot_objects white rnd objects colors = Ok ds /\ all_shown objects colors ds) /\
  (exists ds, plot_objects white rnd objects [] = Ok ds /\ all_shown objects (map rnd (seq 0 (length objects))) ds).
Proof.
  intros P C white rnd objects colors L H. assert (Ne : objects <> []) by (intros ->; cbn in L; lia). assert (N1 : (length objects =? 1) = false) by (apply Nat.eqb_neq; lia). split.
  - intros Lc. destruct (plot_ok white rnd objects colors Ne (or_intror Lc)) as (A & _). destruct (A H) as (ds & E & S1). exists ds. split; [exact E|]. unfold wanted in S1. rewrite N1 in S1. destruct colors; [cbn in Lc; lia|exact S1].
  - destruct (plot_ok white rnd objects [] Ne (or_introl eq_refl)) as (A & _). destruct (A H) as (ds & E & S1). exists ds. split; [exact E|]. unfold wanted in S1. rewrite N1 in S1. exact S1.
Qed.
Print Assumptions C135_drawn.
(** What is drawn tells the faces and the lines, and no others. *)
Theorem C135_cells : forall flat cells cells', tells flat cells -> tells flat cells' -> cells' = cells.
Proof. intros flat cells cells' T. exact (tells_one flat cells T cells'). Qed.
Print Assumptions C135_cells.
(** What is refused. *)
Theorem C135_refused : forall P C (white : C) rnd (objects : list (plottable (P := P))) colors,
  (objects = [] -> plot_objects white rnd objects colors = Err ValueError) /\
  (colors <> [] -> length colors <> length objects -> plot_objects white rnd objects colors = Err ValueError) /\
  (forall o, (colors = [] \/ length colors = length objects) -> In o objects -> ~ has_any o -> plot_objects white rnd objects colors = Err AssertionError).
Proof.
  intros P C white rnd objects colors. split; [intros ->; reflexivity|]. split.
  - intros N L. unfold plot_objects. destruct (length objects =? 0); [reflexivity|]. apply Nat.eqb_neq in L. rewrite L. destruct colors; [congruence|reflexivity].
  - intros o L I Ho. apply (plot_ok white rnd objects colors); eauto. intros ->. destruct I.
Qed.
Print Assumptions C135_refused.
(** The branch of RuntimeError is never taken, and no colour is missing. *)
Theorem C135_errors : forall P C (white : C) rnd (objects : list (plottable (P := P))) colors e, plot_objects white rnd objects colors = Err e ->
  (e = ValueError /\ (objects = [] \/ (colors <> [] /\ length colors <> length objects))) \/ (e = AssertionError /\ exists o, In o objects /\ ~ has_any o).
Proof.
  intros P C white rnd objects colors e E. destruct objects as [|o0 r0] eqn:Eo; [left; injection E as <-; auto|]. rewrite <- Eo in *. assert (Ne : objects <> []) by (rewrite Eo; discriminate).
  destruct (list_eq_dec Nat.eq_dec (map (fun _ => 0) colors) []) as [Z|Z].
  - assert (colors = []) by (destruct colors; [auto|discriminate]). right. destruct (plot_ok white rnd objects colors Ne (or_introl H)) as (A & B). destruct (any_or_none objects) as [X|X]; [destruct (A X) as (ds & Ed & _); congruence|]. rewrite (B X) in E. injection E as <-. auto.
  - destruct (Nat.eq_dec (length colors) (length objects)) as [L|L].
    + right. destruct (plot_ok white rnd objects colors Ne (or_intror L)) as (A & B). destruct (any_or_none objects) as [X|X]; [destruct (A X) as (ds & Ed & _); congruence|]. rewrite (B X) in E. injection E as <-. auto.
    + left. assert (Nc : colors <> []) by (intros ->; apply Z; reflexivity). rewrite (proj1 (proj2 (C135_refused P C white rnd objects colors)) Nc L) in E. injection E as <-. auto.
Qed.
Print Assumptions C135_errors.
(** The colour given for one object alone is not used: it is drawn white. *)
Theorem C135_one_colour_refuted : forall P C (white : C) rnd (o : plottable (P := P)) c, has_any o ->
  exists ds, plot_objects white rnd [o] [c] = Ok ds /\ plot_objects white rnd [o] [] = Ok ds /\ all_shown [o] [white] ds.
Proof.
  intros P C white rnd o c H. assert (Ne : [o] <> []) by discriminate. destruct (plot_ok white rnd [o] [c] Ne (or_intror eq_refl)) as (A & _). destruct A as (ds & E & S1); [intros o' [<-|[]]; auto|]. exists ds. split; [exact E|]. split; [exact E|exact S1].
Qed.
Print Assumptions C135_one_colour_refuted.
(** With an output file the picture is in the file, and the directories above it
    are made; a plot that fails leaves the disk as it was. *)
Theorem C135_file : forall P C I (white : C) rnd (render : list (drawn (P := P)) -> I) st s p objects colors, disk_ok st -> file_path s p ->
  (forall ds, plot_objects white rnd objects colors = Ok ds -> clear_above st p -> kind_of (d_fs st) p <> Some IsDir ->
     exists st', plot_to_file white rnd render st s objects colors = (st', None) /\ disk_ok st' /\ written st st' p (render ds) /\ load st' s = inl (render ds)) /\
  (forall e, plot_objects white rnd objects colors = Err e -> plot_to_file white rnd render st s objects colors = (st, Some (IoRaised e))).
Proof.
  intros P C I white rnd render st s p objects colors D F. unfold plot_to_file. split; [intros ds E Cl K; rewrite E; apply save_ok; auto|intros e E; rewrite E; reflexivity].
Qed.
Print Assumptions C135_file.

(** A mesh of two triangles with a line, and points alone. *)
Definition demo_mesh : plottable (P := nat) := mkPlottable (Some ([10; 11; 12; 13], [(0, 1, 2); (0, 2, 3)])) (Some ([20; 21; 22], [[0; 1]; [0; 1; 2]])) None.
Definition demo_points : plottable (P := nat) := mkPlottable None None (Some [30; 31]).
Example C135_example : has_any demo_mesh /\ has_any demo_points /\
  plot_objects 0 (fun k => 100 + k) [demo_mesh; demo_points] [7; 8] =
    Ok [DrawMesh [10; 11; 12; 13] [3; 0; 1; 2; 3; 0; 2; 3] 7; DrawLines [20; 21; 22] [2; 0; 1; 3; 0; 1; 2] 7; DrawPoints [30; 31] 8] /\
  plot_objects 0 (fun k => 100 + k) [demo_points; demo_points] [] = Ok [DrawPoints [30; 31] 100; DrawPoints [30; 31] 101] /\
  plot_objects 0 (fun k => 100 + k) [demo_points] [7] = Ok [DrawPoints [30; 31] 0].
Proof. split; [left; discriminate|]. split; [right; right; discriminate|]. repeat split; reflexivity. Qed.
Example C135_cells_example : tells [3; 0; 1; 2; 2; 4; 5] [[0; 1; 2]; [4; 5]].
Proof. exact (tells_lines [[0; 1; 2]; [4; 5]]). Qed.
Example C135_refused_example : ~ has_any (mkPlottable (P := nat) None None None) /\ plot_objects 0 (fun k => k) [demo_mesh; mkPlottable None None None] [] = Err AssertionError /\
  plot_objects 0 (fun k => k) [demo_mesh; demo_points] [1] = Err ValueError /\ plot_objects (P := nat) 0 (fun k => k) [] [1] = Err ValueError.
Proof. split; [intros [H|[H|H]]; apply H; reflexivity|]. repeat split; reflexivity. Qed.
(** A file in a directory that is not there yet. *)
Example C135_file_example : disk_ok (demo_disk 5) /\ file_path (str_of "out/run/house.b3d") demo_path /\ clear_above (demo_disk 5) demo_path /\
  plot_to_file 0 (fun k => k) (fun ds => length ds) (demo_disk 5) (str_of "out/run/house.b3d") [demo_mesh; demo_points] [7; 8] =
    (mkDisk [([str_of "out"], IsDir); ([str_of "out"; str_of "log"], IsFile); ([str_of "out"; str_of "run"], IsDir); (demo_path, IsFile)]
            [([str_of "out"; str_of "log"], 5); (demo_path, 3)], None) /\
  plot_to_file 0 (fun k => k) (fun ds => length ds) (demo_disk 5) (str_of "out/run/house.b3d") [demo_mesh; demo_points] [7] = (demo_disk 5, Some (IoRaised ValueError)).
Proof. split; [apply C99_example|]. split; [apply C99_example|]. split; [apply C99_example|]. vm_compute. split; reflexivity. Qed.
