(** Properties of the points found inside solids over a floor plan (C128). *)
From Coq Require Import Ascii String Reals List ZArith Bool Arith Lia Lra.
From Verif Require Import Prelude TreeModel VecModel GeomModel GeomSpec GeomProofs1 TriModel PolyModel PolySpec SolidModel SolidSpec InsideSpec RoomSpec PlanSpec PlanProofs4 PlanProofs5
  WindSpec LoopSpec ShellSpec HallSpec HallProofs2 HallProofs3.
Import ListNotations.
Local Open Scope R_scope.

(** ** C128: floor plans *)
(** For a plan with a simple outline, a point between floor and ceiling is found
    inside exactly if the outline goes round the point below it on the floor. The
    direction in which the faces are turned does not matter. *)
Theorem C128_outline : forall plan h tr phi name names fn cn rf rc ws t u q bs, floor_plan plan h tr phi name names fn cn rf rc = Ok ws -> move_used tr t -> simple_outline (corners plan 0 t phi) -> 0 < h ->
  ok_faces (sides_of ws) -> seen_well q (sides_of ws) bs -> (forall f n d, In (f, n, d) (sides_of ws) -> off_face q f n d) ->
  cross u ez <> vzero -> vz t < vz q < vz t + h -> ~ on_outline (corners plan 0 t phi) (foot (vz t) q) ->
  solid_point_inside (map fst (all_polys ws)) q = Ok (negb (winding ez u (foot (vz t) q) (corners plan 0 t phi) =? 0)%Z).
Proof. intros plan h tr phi name names fn cn rf rc ws t u q bs H Mv Sm Hh. exact (plan_points_in plan h tr phi name names fn cn rf rc ws t H Mv Sm Hh u q bs). Qed.
Print Assumptions C128_outline.
(** In other words: exactly if the point below it is in a triangle of the floor. *)
Theorem C128_floor : forall plan h tr phi name names fn cn rf rc ws t q bs, floor_plan plan h tr phi name names fn cn rf rc = Ok ws -> move_used tr t -> simple_outline (corners plan 0 t phi) -> 0 < h ->
  ok_faces (sides_of ws) -> seen_well q (sides_of ws) bs -> (forall f n d, In (f, n, d) (sides_of ws) -> off_face q f n d) ->
  vz t < vz q < vz t + h -> ~ on_outline (corners plan 0 t phi) (foot (vz t) q) ->
  exists (p : str * polygon) (b : bool), In (fn, p) ws /\ solid_point_inside (map fst (all_polys ws)) q = Ok b /\ (b = true <-> in_mesh (p_pts (snd p), p_tri (snd p)) (foot (vz t) q)).
Proof. intros plan h tr phi name names fn cn rf rc ws t q bs H Mv Sm Hh. exact (plan_points_floor plan h tr phi name names fn cn rf rc ws t H Mv Sm Hh q bs). Qed.
Print Assumptions C128_floor.
(** Points below the floor and above the ceiling are found outside. *)
Theorem C128_levels : forall plan h tr phi name names fn cn rf rc ws t q, floor_plan plan h tr phi name names fn cn rf rc = Ok ws -> move_used tr t -> 0 < h ->
  vz q < vz t \/ vz t + h < vz q -> solid_point_inside (map fst (all_polys ws)) q = Ok false.
Proof. intros plan h tr phi name names fn cn rf rc ws t q H Mv Hh. exact (plan_points_out plan h tr phi name names fn cn rf rc ws t H Mv Hh q). Qed.
Print Assumptions C128_levels.

(** An L-shaped plan whose faces do not match, a point in it and one in its
    notch. *)
Example C128_instance : exists ws, lhall ws /\ ~ closed_surface (outlines ws) /\ simple_outline (corners (zplan lplan) 0 vzero 0) /\ ok_faces (sides_of ws) /\
  seen_well guest (sides_of ws) [false; false; false; true; false; false; false; false] /\ solid_point_inside (map fst (all_polys ws)) guest = Ok true /\
  seen_well niche (sides_of ws) [false; false; false; false; false; false; false; false] /\ solid_point_inside (map fst (all_polys ws)) niche = Ok false.
Proof.
  destruct (lplan_ok lplan (or_introl eq_refl)) as ((ws & H) & Ta & Nd). exists ws. split; [exact H|]. split; [intros C; apply (plan_closed _ _ _ _ _ _ _ _ _ _ _ H vzero still Ta Nd) in C; destruct lplan_shape as (_ & X & _); tauto|].
  split; [exact lfloor_simple|]. pose proof (lhall_sides ws H) as E. split; [rewrite E; exact lsides_ok|]. split; [rewrite E; exact guest_seen|]. split; [|split; [rewrite E; exact niche_seen|]].
  - rewrite (C128_outline _ _ _ _ _ _ _ _ _ _ ws vzero (V 1 0 0) guest [false; false; false; true; false; false; false; false] H still lfloor_simple); [rewrite guest_turns; reflexivity|lra|rewrite E; exact lsides_ok|rewrite E; exact guest_seen|rewrite E; exact guest_off|exact turn_two|unfold guest, vzero; cbn [vz]; lra|exact guest_foot].
  - rewrite (C128_outline _ _ _ _ _ _ _ _ _ _ ws vzero (V 1 0 0) niche [false; false; false; false; false; false; false; false] H still lfloor_simple); [rewrite niche_turns; reflexivity|lra|rewrite E; exact lsides_ok|rewrite E; exact niche_seen|rewrite E; exact niche_off|exact turn_two|unfold niche, vzero; cbn [vz]; lra|exact niche_foot].
Qed.
