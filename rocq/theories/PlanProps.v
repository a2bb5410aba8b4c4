(** Properties C67 and C77: floor plans; making and flipping polygons. *)
From Coq Require Import Ascii String Reals List Bool Arith Lia Lra ZArith.
From Verif Require Import Prelude TreeModel IoModel VecModel GeomModel GeomSpec GeomProofs1 GeomProofs2 GeomProofs3 GeomProofs4 TriModel TriSpec PolyModel PolySpec PolyProofs3 SolidModel SolidSpec PlanSpec PlanProofs1 PlanProofs4 PlanProofs5.
Import ListNotations.
Local Open Scope R_scope.

(** C67: names.  Exactly one of the two level polygons does not bear its name. *)
Theorem C67_names plan h tr phi name names fn cn rf rc ws : floor_plan plan h tr phi name names fn cn rf rc = Ok ws -> exists wn, 
  (names = None -> wn = map (fun i => str_of "wall-" ++ decimal i) (seq 0 (length plan))) /\ (forall l, names = Some l -> wn = l) /\ length wn = length plan /\
  map fst ws = wn ++ [fn; cn] /\ NoDup (map fst ws) /\ (polygon_names ws = wn ++ [fn; rc] \/ polygon_names ws = wn ++ [rf; cn]).
Proof. exact (plan_names plan h tr phi name names fn cn rf rc ws). Qed.
(** Wall i stands over edge i of the placed plan, between floor and ceiling. *)
Theorem C67_shape plan h tr phi name names fn cn rf rc ws : floor_plan plan h tr phi name names fn cn rf rc = Ok ws -> exists t walls F C, move_used tr t /\
  (3 <= length plan)%nat /\ outlines ws = walls ++ [F; C] /\
  Forall2 (fun e w => w = wall_over (V 0 0 h) e \/ w = rev (wall_over (V 0 0 h) e)) (cyc_pairs (corners plan 0 t phi)) walls /\
  (F = corners plan 0 t phi \/ F = rev (corners plan 0 t phi)) /\ (C = corners plan h t phi \/ C = rev (corners plan h t phi)).
Proof. exact (plan_shape plan h tr phi name names fn cn rf rc ws). Qed.
Theorem C67_bad_names plan h tr phi name l fn cn rf rc : ~ (length l = length plan /\ NoDup l) -> floor_plan plan h tr phi name (Some l) fn cn rf rc = Err ValueError.
Proof. exact (plan_bad_names plan h tr phi name l fn cn rf rc). Qed.
Theorem C67_no_points h tr phi name fn cn rf rc : floor_plan [] h tr phi name None fn cn rf rc = Err ValueError.
Proof. exact (plan_empty h tr phi name fn cn rf rc). Qed.
Theorem C67_name_clash plan h tr phi name l fn cn rf rc ws : In fn l \/ In cn l \/ fn = cn -> floor_plan plan h tr phi name (Some l) fn cn rf rc <> Ok ws.
Proof. exact (plan_name_clash plan h tr phi name l fn cn rf rc ws). Qed.
(** The surface is closed exactly when the first and the last corner of the
    plan are convex; then the floor faces down and the ceiling up. *)
Theorem C67_closed plan h tr phi name names fn cn rf rc ws : floor_plan plan h tr phi name names fn cn rf rc = Ok ws ->
  forall t, move_used tr t -> told_apart (corners plan 0 t phi) -> NoDup (corners plan 0 t phi) ->
  (closed_surface (outlines ws) <-> first_convex (drawn plan) /\ last_convex (drawn plan)) /\
  (first_convex (drawn plan) /\ last_convex (drawn plan) -> exists fp cp, ws = firstn (length plan) ws ++ [(fn, fp); (cn, cp)] /\ p_vn (snd fp) = V 0 0 (-1) /\ p_vn (snd cp) = V 0 0 1).
Proof. exact (plan_closed plan h tr phi name names fn cn rf rc ws). Qed.
(** Area times height, if the two corners are convex; otherwise the volume
    depends on the vertical position. *)
Theorem C67_volume plan h tr phi name names fn cn rf rc ws : floor_plan plan h tr phi name names fn cn rf rc = Ok ws ->
  forall t, move_used tr t -> told_apart (corners plan 0 t phi) -> NoDup (corners plan 0 t phi) ->
  let area := Rabs (vz (vector_area2 (drawn plan))) / 2 in let good := first_convex (drawn plan) /\ last_convex (drawn plan) in
  exists vol, solid_volume (all_polys ws) = Ok vol /\
  (good -> Rabs (vol - area * Rabs h) <= INR (4 * length plan - 4) * (1 / 12000000)) /\
  (~ good -> Rabs (vol - area * (Rabs (2 * vz t - h) / 3)) <= INR (4 * length plan - 4) * (1 / 12000000)).
Proof. exact (plan_volume plan h tr phi name names fn cn rf rc ws). Qed.
(** An L-shaped plan of area 16 and height 3: open surface, volume 16. *)
Theorem C67_always_closed_refuted : exists plan h ws vol, 0 < h /\ floor_plan plan h vzero 0 (str_of "s") (Some six_names) (str_of "floor") (str_of "ceiling") (str_of "r1") (str_of "r2") = Ok ws /\ ~ closed_surface (outlines ws) /\
  vz (vector_area2 (drawn plan)) / 2 = 16 /\ h = 3 /\ solid_volume (all_polys ws) = Ok vol /\ Rabs (vol - 16) <= 1 / 1000.
Proof. exact plan_volume_refuted. Qed.
(** The same plan started one corner later is closed. *)
Example C67_ex : exists ws, floor_plan (zplan lplan') 3 vzero 0 (str_of "s") (Some six_names) (str_of "floor") (str_of "ceiling") (str_of "r1") (str_of "r2") = Ok ws /\
  move_used vzero vzero /\ told_apart (corners (zplan lplan') 0 vzero 0) /\ NoDup (corners (zplan lplan') 0 vzero 0) /\ first_convex (drawn (zplan lplan')) /\ last_convex (drawn (zplan lplan')).
Proof.
  destruct (lplan_ok lplan' (or_intror eq_refl)) as ((ws & H) & T & N). destruct lplan_shape as (_ & _ & _ & _ & L & F). exists ws. split; auto. split; auto.
  left. split; auto. unfold small_move, vzero. cbn [vx vy vz]. rewrite Rabs_R0. lra.
Qed.
Example C67_ex_names : ~ (length [str_of "a"; str_of "a"; str_of "b"] = length (zplan [(0, 0); (1, 0); (0, 1)]%Z) /\ NoDup [str_of "a"; str_of "a"; str_of "b"]) /\ In (str_of "floor") [str_of "floor"].
Proof. split; [|simpl; auto]. intros (_ & N). inversion N as [|x l A B]. apply A. simpl. auto. Qed.
Print Assumptions C67_names.
Print Assumptions C67_shape.
Print Assumptions C67_bad_names.
Print Assumptions C67_no_points.
Print Assumptions C67_name_clash.
Print Assumptions C67_closed.
Print Assumptions C67_volume.
Print Assumptions C67_always_closed_refuted.

(** C77: a polygon made from points in a plane.  The normal is perpendicular to
    the plane and agrees with the order of the stored points, which is the
    given order exactly when the first corner is convex. *)
Theorem C77_made n c pts p : unit n -> in_plane n c pts -> make_polygon pts None None = Ok p ->
  (p_vn p = n \/ p_vn p = vopp n) /\ vector_area2 (p_pts p) = smul (2 * p_area p) (p_vn p) /\ 0 < p_area p /\
  (first_convex pts -> p_pts p = pts) /\ (~ first_convex pts -> p_pts p = rev pts).
Proof. exact (made_orient n c pts p). Qed.
(** Flipping turns the polygon round exactly when its last corner is convex. *)
Theorem C77_flip n c p q pts : unit n -> in_plane n c pts -> make_polygon pts None None = Ok p -> flip_polygon p = Ok q ->
  p_area q = p_area p /\ (last_convex (p_pts p) -> p_pts q = rev (p_pts p) /\ p_vn q = vopp (p_vn p)) /\ (~ last_convex (p_pts p) -> p_pts q = p_pts p /\ p_vn q = p_vn p).
Proof. exact (flip_orient n c p q pts). Qed.
(** An L shape which flipping leaves as it is. *)
Theorem C77_flip_reverses_refuted : exists p q, make_polygon (map at3 lshape) None None = Ok p /\ p_pts p = map at3 lshape /\ flip_polygon p = Ok q /\ p_vn p = V 0 0 1 /\ p_vn q = V 0 0 1.
Proof. exact lshape_flip. Qed.
Example C77_ex : unit (V 0 0 1) /\ in_plane (V 0 0 1) 0 (map at3 lshape) /\ first_convex (map at3 lshape) /\ ~ last_convex (map at3 lshape) /\ exists p q, make_polygon (map at3 lshape) None None = Ok p /\ flip_polygon p = Ok q.
Proof.
  split; [unfold unit; vunf; ring|]. split; [apply lshape_plane|].
  unfold last_convex, first_convex, convex_corner, lshape, vector_area2, cyc_pairs. cbn [map rev app last combine fold_right fst snd]. unfold at3. cbn [fst snd]. vunf. split; [lra|]. split; [lra|].
  destruct lshape_flip as (p & q & A & _ & B & _). exists p, q. auto.
Qed.
Print Assumptions C77_made.
Print Assumptions C77_flip.
Print Assumptions C77_flip_reverses_refuted.
