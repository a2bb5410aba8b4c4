(** Plotting the rays of a simulation (sim/rays/ray_buff_plotter.py). *)
From Coq Require Import List Arith.
From Verif Require Import Prelude MeshModel PlotModel.
From Verif Require OutModel.
Import ListNotations.

Section RayPlot.
  Context {P C : Type} (dflt : P) (white red : C) (rnd : nat -> C).

  (** RayBuffPlotter.get_points (ray_buff_plotter.py:24-25): the last row,
      IndexError if there is none. *)
  Fixpoint last_row (pb : list (list P)) : result (list P) :=
    match pb with
    | [] => Err IndexError
    | [row] => Ok row
    | _ :: r => last_row r
    end.

  (** RayBuffPlotter.plot (ray_buff_plotter.py:18-22).  [building_mesh] is what
      get_mesh of the building returns; [red] is (1.0, 0.0, 0.0).  plot_objects
      calls get_mesh of the building, then get_lines and get_points of the rays;
      what was added to the plotter before an exception is never shown.
      get_lines is that of OutModel. *)
  Definition plot_rays (building_mesh : result (list P * list face)) (pb : list (list P)) (num_rays : nat) : result (list (drawn (P := P) (C := C))) :=
    do m <- building_mesh;
    do l <- OutModel.get_lines dflt pb num_rays;
    do p <- last_row pb;
    plot_objects white rnd [mkPlottable (Some m) None None; mkPlottable None (Some l) (Some p)] [white; red].
End RayPlot.
