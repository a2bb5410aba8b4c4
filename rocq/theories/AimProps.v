(** The wall a ray aims at. *)
From Coq Require Import Ascii String Reals ZArith List Bool Arith Lra.
From Verif Require Import Prelude TreeModel VecModel VecProofs SimModel SimSpec VoxModel GeomModel GeomSpec GeomProofs1 PolyModel PolySpec SolidModel SolidSpec CrossSpec InsideSpec RoomSpec RoomProofs4 BoxSpec BoxProofs2 BoxProofs3 BoxProofs6 AimSpec AimProofs AimProofs2 GeomProofs2 SolidProofs1 BoxProofs2.
Import ListNotations.
Local Open Scope R_scope.

(** C90: the target of a ray is a wall that is not transparent and that the ray
    does not clearly miss ... *)
Theorem C90_not_missed polys transparent order_of mn mx s e grid sc p v k : room polys transparent order_of mn mx s e grid sc -> target sc p v = Some k ->
  ~ In k transparent /\ exists f, nth_error polys k = Some f /\ forall n d, sound_wall f n d -> ~ missed f n d p v.
Proof.
  intros Rm T. destruct (target_hit _ _ _ _ _ _ _ _ _ Rm p v k T) as (f & N & NT & _). split; [exact NT|]. exists f. split; [exact N|]. intros n d S.
  exact (proj2 (not_missed _ _ _ _ _ _ _ _ _ Rm p v k f n d T N S)).
Qed.
(** ... there is no target if all walls are missed ... *)
Theorem C90_no_target polys transparent order_of mn mx s e grid sc p v : room polys transparent order_of mn mx s e grid sc ->
  (forall k f, nth_error polys k = Some f -> In k transparent \/ exists n d, sound_wall f n d /\ missed f n d p v) -> target sc p v = None.
Proof.
  intros Rm H. apply (no_target _ _ _ _ _ _ _ _ _ Rm). intros k f N. destruct (H k f N) as [I|(n & d & S & M)]; [left; exact I|right; exact (hit_missed f n d p v S M)].
Qed.
(** ... a wall no farther than a voxel that is met, all others being missed, is the target ... *)
Theorem C90_only_wall polys transparent order_of mn mx s e grid sc p v k f n d t : room polys transparent order_of mn mx s e grid sc ->
  nth_error polys k = Some f -> sound_wall f n d -> ~ In k transparent -> 0 <= t -> touches f (at_time p v t) -> 1 / 1000 <= Rabs (dot n v) -> norm (smul t v) <= s ->
  (forall k' f', k' <> k -> nth_error polys k' = Some f' -> In k' transparent \/ exists n' d', sound_wall f' n' d' /\ missed f' n' d' p v) -> target sc p v = Some k.
Proof. intros Rm. exact (only_wall _ _ _ _ _ _ _ _ _ Rm p v k f n d t). Qed.
(** ... in a box the target is the side through which the ray leaves, unless
    it leaves close to an edge ... *)
Theorem C90_box x y z mv name ws order_of mn mx s e grid sc p v c t :
  box_dims x y z mv -> box x y z mv name = Ok ws -> validate_name name = Ok name -> room (faces_of ws) [] order_of mn mx s e grid sc ->
  inside_box x y z mv p -> In c [vx; vy; vz] -> 0 <= t -> leaves_clearly mv (vadd mv (V x y z)) c p v (at_time p v t) -> norm (smul t v) <= s ->
  exists k f, target sc p v = Some k /\ nth_error (faces_of ws) k = Some f /\ in_mesh f (at_time p v t).
Proof. intros D Hb Hv Rm. exact (box_target x y z mv D name ws Hb Hv order_of mn mx s e grid sc Rm p v c t). Qed.
(** ... but in general the target is not the first wall the ray meets: here it
    meets the screen at 3/2 and the wall at 5/3, yet is reflected by the wall,
    whose nearest point is nearer, and leaves without ever reaching the screen. *)
Theorem C90_first_met_refuted : exists grid sc, room [screen; long_wall] [] (fun l => l) (V (-10) (-10) (-10)) (V 20 20 20) 20 (1 / 1000) grid sc /\
  sound_wall screen (V 1 0 0) (-6) /\ sound_wall long_wall (V 0 (-1) 0) 5 /\ norm (V 4 3 0) = speed sc /\ 0 < dt sc /\ speed sc * dt sc <= 20 /\ 0 <= eps sc < 1 /\
  touches screen (at_time vzero (V 4 3 0) (3 / 2)) /\ touches long_wall (at_time vzero (V 4 3 0) (5 / 3)) /\ target sc vzero (V 4 3 0) = Some 1%nat /\
  forall fuel, (4 <= fuel)%nat -> step_ray sc fuel (mkRay vzero (V 4 3 0) (smul (dt sc) (V 4 3 0)) 1) = Ok (mkRay (V 4 (-3) 0) (V 4 (-3) 0) (V 4 (-3) 0) (9 / 10)).
Proof.
  destruct ghost as (grid & sc & Rm & H1 & H2 & H3 & H4 & H5 & H6). exists grid, sc. split; [exact Rm|]. split; [exact screen_sound|]. split; [exact wall_sound|]. do 4 (split; [assumption|]).
  split; [exact screen_touched|]. split; [exact wall_touched|]. split; assumption.
Qed.
(** One wall is met, the other is missed. *)
Example C90_instance : sound_wall floor_tri (V 0 0 1) 0 /\ touches floor_tri (at_time (V 1 1 1) (V 0 0 (-1)) 1) /\ 1 / 1000 <= Rabs (dot (V 0 0 1) (V 0 0 (-1))) /\ norm (smul 1 (V 0 0 (-1))) <= 1 /\
  sound_wall screen (V 1 0 0) (-6) /\ missed screen (V 1 0 0) (-6) (V 1 1 1) (V 0 0 (-1)).
Proof.
  split; [exact floor_sound|]. split; [replace (at_time _ _ _) with (V 1 1 0) by (unfold at_time; vunf; f_equal; ring); exact floor_within|]. split; [vunf; rewrite Rabs_left; lra|].
  split; [unfold norm; replace (dot _ _) with 1 by (vunf; ring); rewrite sqrt_1; lra|]. split; [exact screen_sound|]. right. split; [vunf; replace (_ + _) with 0 by ring; rewrite Rabs_R0; lra|].
  exists vx. split; [cbn; auto|]. right. unfold screen, rface, off. cbn [fst]. intros w [<-|[<-|[<-|[<-|[]]]]]; unfold ey, ez; vunf; lra.
Qed.
Example C90_box_instance : exists ws grid sc, box_dims 2 2 2 vzero /\ box 2 2 2 vzero cube_name = Ok ws /\ validate_name cube_name = Ok cube_name /\ room (faces_of ws) [] (fun l => l) vzero (vadd vzero (V 2 2 2)) 1 (1 / 1000) grid sc /\
  inside_box 2 2 2 vzero (V 1 1 (3 / 2)) /\ leaves_clearly vzero (vadd vzero (V 2 2 2)) vz (V 1 1 (3 / 2)) slanted (at_time (V 1 1 (3 / 2)) slanted (7 / 12)) /\ norm (smul (7 / 12) slanted) <= 1.
Proof.
  destruct cube_room as (ws & grid & sc & b & H1 & H2 & _). destruct cube_ok as (C1 & C2 & _). exists ws, grid, sc. do 4 (split; [assumption|]). split; [unfold inside_box, vzero; cbn [vx vy vz]; lra|]. split.
  - unfold leaves_clearly, at_time, slanted. split; [left; vunf; lra|]. split; [vunf; rewrite Rabs_pos_eq; lra|]. intros c' [<-|[<-|[<-|[]]]]; [right|right|left; reflexivity]; vunf; rewrite !Rabs_pos_eq by lra; repeat split; lra.
  - unfold norm. replace (dot _ _) with (7 / 12 * (7 / 12)) by (unfold slanted; vunf; field). rewrite sqrt_square; lra.
Qed.
Print Assumptions C90_not_missed.
Print Assumptions C90_no_target.
Print Assumptions C90_only_wall.
Print Assumptions C90_box.
Print Assumptions C90_first_met_refuted.
