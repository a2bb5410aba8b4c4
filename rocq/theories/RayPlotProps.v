(** Properties of the plot of the rays (C136). *)
From Coq Require Import List Arith Lia.
From Verif Require Import Prelude MeshModel OutSpec OutProofs PlotModel PlotSpec PlotProofs RayPlotModel.
Import ListNotations.

Lemma last_row_app {P} (front : list (list P)) row : last_row (front ++ [row]) = Ok row.
Proof. induction front as [|x [|y r] IH]; [reflexivity|reflexivity|exact IH]. Qed.

(** ** C136: the building in white, the way of every ray in red *)
(** The building is drawn by its triangles.  There is one line for each ray,
    through its positions in the order of the steps, and a point for each ray at
    its last position. *)
Theorem C136_drawn : forall P C (dflt : P) (white red : C) rnd vs fs front row n, rect n (front ++ [row]) -> 1 <= n ->
  exists faces_flat verts lines_flat lines,
    plot_rays dflt white red rnd (Ok (vs, fs)) (front ++ [row]) n = Ok [DrawMesh vs faces_flat white; DrawLines verts lines_flat red; DrawPoints row red] /\
    tells faces_flat (map corners3 fs) /\ tells lines_flat lines /\ draws_rays verts lines (front ++ [row]) n.
Proof.
  intros P C dflt white red rnd vs fs front row n R N. destruct (get_lines_spec dflt (front ++ [row]) n R N) as (verts & lines & E & D); [rewrite app_length; cbn; lia|].
  exists (flat_faces fs), verts, (flat_lines lines), lines. unfold plot_rays. cbn [rbind]. rewrite E. cbn [rbind]. rewrite last_row_app. split; [reflexivity|]. split; [apply tells_faces|]. split; [apply tells_lines|exact D].
Qed.
Print Assumptions C136_drawn.
(** Without rays or steps there is nothing to draw, and not even the building is. *)
Theorem C136_fails : forall P C (dflt : P) (white red : C) rnd m pb n,
  (forall e, plot_rays dflt white red rnd (Err e) pb n = Err e) /\ (n = 0 \/ pb = [] -> plot_rays dflt white red rnd (Ok m) pb n = Err ValueError).
Proof. intros P C dflt white red rnd m pb n. split; [reflexivity|]. intros H. unfold plot_rays. cbn [rbind]. rewrite (get_lines_empty dflt pb n H). reflexivity. Qed.
Print Assumptions C136_fails.

(** Two rays, three steps. *)
Example C136_example : rect 2 ([[10; 20]; [11; 21]] ++ [[12; 22]]) /\
  plot_rays 0 7 8 (fun k => k) (Ok ([1; 2; 3], [(0, 1, 2)])) [[10; 20]; [11; 21]; [12; 22]] 2 =
    Ok [DrawMesh [1; 2; 3] [3; 0; 1; 2] 7; DrawLines [10; 11; 12; 20; 21; 22] [3; 0; 1; 2; 3; 3; 4; 5] 8; DrawPoints [12; 22] 8] /\
  plot_rays 0 7 8 (fun k => k) (Ok ([1; 2; 3], [(0, 1, 2)])) [] 2 = Err ValueError.
Proof. split; [repeat constructor|]. split; reflexivity. Qed.
