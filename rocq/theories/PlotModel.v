(** What is drawn by plot_objects (display/plot_objects.py). *)
From Coq Require Import Ascii String List Arith Bool.
From Verif Require Import Prelude MeshModel DirModel SaveModel.
Import ListNotations.

Section Plot.
  (** Points and colours are of any type; [white] is [1.0, 1.0, 1.0].  [rnd k] is
      what random_rgb_color (display/colors.py:4-6) returns for object k.
      Simplification: colours are lists of floats already (lines 58-60). *)
  Context {P C : Type} (white : C) (rnd : nat -> C).

  (** What get_mesh(), get_lines() and get_points() of an object return; None if
      there is no such method (display/plot_objects.py:67-69). *)
  Record plottable : Type := mkPlottable {
    get_mesh : option (list P * list face); get_lines : option (list P * list (list nat)); get_points : option (list P) }.

  (** add_mesh of a pv.PolyData with faces, with lines, or with points alone
      (display/plot_objects.py:80-81, 91-92, 96-97). *)
  Inductive drawn : Type :=
  | DrawMesh (verts : list P) (faces_flat : list nat) (col : C)
  | DrawLines (verts : list P) (lines_flat : list nat) (col : C)
  | DrawPoints (verts : list P) (col : C).

  (** faces_flat (display/plot_objects.py:76-79). *)
  Definition flat_faces (faces : list face) : list nat := flat_map (fun '(a, b, c) => [3; a; b; c]) faces.
  (** lines_flat (display/plot_objects.py:85-90). *)
  Definition flat_lines (lines : list (list nat)) : list nat := flat_map (fun l => length l :: l) lines.

  (** The colour of object k (display/plot_objects.py:54-64). *)
  Definition color_of (n : nat) (colors : list C) (k : nat) : result C :=
    if (1 <? n) && (length colors =? 0) then Ok (rnd k)
    else if (1 <? n) && (length colors =? n) then match nth_error colors k with Some c => Ok c | None => Err IndexError end
    else if n =? 1 then Ok white
    else Err RuntimeError.

  (** The body of the loop (display/plot_objects.py:54-97). *)
  Definition draw_object (n : nat) (colors : list C) (k : nat) (o : plottable) : result (list drawn) :=
    do col <- color_of n colors k;
    match get_mesh o, get_lines o, get_points o with
    | None, None, None => Err AssertionError
    | m, l, p =>
        Ok ((match m with Some (vs, fs) => [DrawMesh vs (flat_faces fs) col] | None => [] end) ++
            (match l with Some (vs, ls) => [DrawLines vs (flat_lines ls) col] | None => [] end) ++
            (match p with Some vs => [DrawPoints vs col] | None => [] end))
    end.
  (** The loop from object k on (display/plot_objects.py:52-97). *)
  Fixpoint draw_from (n : nat) (colors : list C) (k : nat) (objects : list plottable) : result (list drawn) :=
    match objects with
    | [] => Ok []
    | o :: r => do d <- draw_object n colors k o; do ds <- draw_from n colors (S k) r; Ok (d ++ ds)
    end.

  (** plot_objects (display/plot_objects.py:12-97): the calls of add_mesh. *)
  Definition plot_objects (objects : list plottable) (colors : list C) : result (list drawn) :=
    if length objects =? 0 then Err ValueError
    else if (0 <? length colors) && negb (length colors =? length objects) then Err ValueError
    else draw_from (length objects) colors 0 objects.

  (** With an output file (display/plot_objects.py:102-106): the directory, if there is none, then
      the picture; [render] makes it. *)
  Definition plot_to_file {I} (render : list drawn -> I) (st : disk I) (path : str) (objects : list plottable) (colors : list C) : disk I * option io_err :=
    match plot_objects objects colors with
    | Err e => (st, Some (IoRaised e))
    | Ok ds => save st path true (Ok (render ds))
    end.
End Plot.
