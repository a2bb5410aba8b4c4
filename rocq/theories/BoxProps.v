(** Rays in a box and on a wall. *)
From Coq Require Import Ascii String Reals ZArith List Bool Arith Lra.
From Verif Require Import Prelude TreeModel VecModel SimModel SimSpec VoxModel GeomModel GeomSpec PolyModel PolySpec SolidModel SolidSpec CrossSpec InsideSpec RoomSpec RoomProofs4 BoxSpec BoxProofs1 BoxProofs4 BoxProofs5 BoxProofs6.
Import ListNotations.
Local Open Scope R_scope.

(** C85: a ray that starts on a wall never leaves its place and has no energy
    after the first step, whatever its direction ... *)
Theorem C85_source_on_wall polys transparent order_of mn mx s e grid sc fuel num pos vel en hits b pn f n d k p x :
  room polys transparent order_of mn mx s e grid sc -> 0 <= eps sc -> 0 < speed sc * dt sc ->
  length vel = length pos -> length en = length pos -> length hits = length (absorbers sc) ->
  simulation_loop sc fuel num pos vel en hits = Ok b ->
  nth_error polys pn = Some f -> sound_wall f n d -> ~ In pn transparent -> touches f p ->
  nth_error pos k = Some p -> nth_error en k = Some x -> eps sc < x ->
  (forall i q, cell (b_pos b) i k q -> q = p) /\ (forall i x', cell (b_en b) (S i) k x' -> x' = 0).
Proof.
  intros Rm Ep Sp Lv Le Lh E N S NT T Np Ne Gx.
  exact (stuck_simulation sc p Ep (on_wall_stuck _ _ _ _ _ _ _ _ _ Rm pn f n d p N S NT T Sp) fuel num pos vel en hits b k x Lv Le Lh E Np Ne Gx).
Qed.
(** ... and if nothing absorbs, its first step does not end. *)
Theorem C85_endless polys transparent order_of mn mx s e grid sc pn f n d r :
  room polys transparent order_of mn mx s e grid sc -> 0 <= eps sc -> 0 < speed sc * dt sc -> (forall k, surf sc k = 0) ->
  nth_error polys pn = Some f -> sound_wall f n d -> ~ In pn transparent -> touches f (r_pos r) -> eps sc < r_en r -> ~ left_box sc (r_pos r) ->
  forall fuel, step_ray sc fuel r = Err OutOfFuel.
Proof.
  intros Rm Ep Sp Sf N S NT T E L.
  exact (stuck_forever sc (r_pos r) Ep (on_wall_stuck _ _ _ _ _ _ _ _ _ Rm pn f n d (r_pos r) N S NT T Sp) r eq_refl E L Sf).
Qed.
(** A ray that starts on a floor and points up. *)
Example C85_instance : exists grid sc b, room [floor_tri] [] (fun l => l) vzero (V 4 4 4) 1 (1 / 1000) grid sc /\ 0 < speed sc * dt sc /\ 0 <= eps sc < 1 /\ absorbers sc = [] /\
  simulation_loop sc 12 1 [V 1 1 0] [V 0 0 1] [1] [] = Ok b /\ sound_wall floor_tri (V 0 0 1) 0 /\ touches floor_tri (V 1 1 0).
Proof. destruct floor_source as (grid & sc & b & H1 & H2 & H3 & H4 & H5). exists grid, sc, b. do 5 (split; [assumption|]). split; [exact floor_sound|exact floor_within]. Qed.
Example C85_endless_instance : exists grid sc, room [floor_tri] [] (fun l => l) vzero (V 4 4 4) 1 (1 / 1000) grid sc /\ 0 < speed sc * dt sc /\ 0 <= eps sc < 1 /\ ~ left_box sc (V 1 1 0) /\ (forall k, surf sc k = 0).
Proof. exact floor_endless. Qed.
Print Assumptions C85_source_on_wall.
Print Assumptions C85_endless.

(** C86: every box with edges from 1 to 100 is a room for the simulation ... *)
Theorem C86_box_is_room x y z mv name sc0 s e : box_dims x y z mv -> validate_name name = Ok name -> 0 < s -> 0 <= e ->
  exists ws grid sc, box x y z mv name = Ok ws /\ room (faces_of ws) [] (fun l => l) mv (vadd mv (V x y z)) s e grid sc /\
    surf sc = surf sc0 /\ bbmin sc = bbmin sc0 /\ bbmax sc = bbmax sc0 /\ absorbers sc = absorbers sc0 /\ eps sc = eps sc0 /\ dt sc = dt sc0 /\ speed sc = speed sc0.
Proof. exact (box_room x y z mv name sc0 s e). Qed.
(** ... a ray strictly within it is strictly within it in the next row of the
    position buffer, unless it came close to an edge of the box on the way ... *)
Theorem C86_step x y z mv name ws order_of mn mx s e grid sc fuel num pos vel en hits b :
  box_dims x y z mv -> box x y z mv name = Ok ws -> validate_name name = Ok name -> room (faces_of ws) [] order_of mn mx s e grid sc ->
  0 <= eps sc -> 0 < dt sc -> 1 / 1000 < speed sc * dt sc <= s ->
  length vel = length pos -> length en = length pos -> length hits = length (absorbers sc) -> (forall v, In v vel -> norm v = speed sc /\ no_tiny v) ->
  simulation_loop sc fuel num pos vel en hits = Ok b ->
  forall i k p p', cell (b_pos b) i k p -> cell (b_pos b) (S i) k p' -> inside_box x y z mv p ->
  inside_box x y z mv p' \/ exists t, 0 <= t <= 1 /\ near_edge x y z mv (vadd p (smul t (vsub p' p))).
Proof.
  intros D Hb Hv Rm Ep D0 Sp Lv Le Lh Nv E.
  exact (box_confines x y z mv D name ws Hb Hv order_of mn mx s e grid sc Rm fuel num pos vel en hits b Ep Lv Le Lh Nv E D0 Sp).
Qed.
(** ... so a ray that starts within and keeps clear of the edges never leaves. *)
Theorem C86_never_leaves x y z mv name ws order_of mn mx s e grid sc fuel num pos vel en hits b :
  box_dims x y z mv -> box x y z mv name = Ok ws -> validate_name name = Ok name -> room (faces_of ws) [] order_of mn mx s e grid sc ->
  0 <= eps sc -> 0 < dt sc -> 1 / 1000 < speed sc * dt sc <= s ->
  length vel = length pos -> length en = length pos -> length hits = length (absorbers sc) -> (forall v, In v vel -> norm v = speed sc /\ no_tiny v) ->
  simulation_loop sc fuel num pos vel en hits = Ok b ->
  forall k i, (forall p, cell (b_pos b) 0 k p -> inside_box x y z mv p) ->
  (forall j p p' t, (j < i)%nat -> cell (b_pos b) j k p -> cell (b_pos b) (S j) k p' -> 0 <= t <= 1 -> ~ near_edge x y z mv (vadd p (smul t (vsub p' p)))) ->
  forall p, cell (b_pos b) i k p -> inside_box x y z mv p.
Proof.
  intros D Hb Hv Rm Ep D0 Sp Lv Le Lh Nv E.
  exact (box_keeps x y z mv D name ws Hb Hv order_of mn mx s e grid sc Rm fuel num pos vel en hits b Ep Lv Le Lh Nv E D0 Sp).
Qed.
(** A slanted ray in a cube. *)
Example C86_instance : exists ws grid sc b, box_dims 2 2 2 vzero /\ box 2 2 2 vzero cube_name = Ok ws /\ validate_name cube_name = Ok cube_name /\
  room (faces_of ws) [] (fun l => l) vzero (vadd vzero (V 2 2 2)) 1 (1 / 1000) grid sc /\ 0 <= eps sc /\ 0 < dt sc /\ 1 / 1000 < speed sc * dt sc <= 1 /\ absorbers sc = [] /\
  norm slanted = speed sc /\ no_tiny slanted /\ simulation_loop sc 5 1 [V 1 1 1] [slanted] [1] [] = Ok b /\ inside_box 2 2 2 vzero (V 1 1 1).
Proof.
  destruct cube_room as (ws & grid & sc & b & H1 & H2 & H3 & H4 & H5 & H6 & _ & _ & _ & _ & H11 & H12). destruct cube_ok as (C1 & C2 & C3). exists ws, grid, sc, b.
  do 9 (split; [assumption|]). split; [intros c Ic; right; exact (slanted_oblique c Ic)|]. split; assumption.
Qed.
Print Assumptions C86_box_is_room.
Print Assumptions C86_step.
Print Assumptions C86_never_leaves.

(** C87: in a box whose edges are longer than twice the reflection distance, a
    ray strictly within is reflected at most three times in a step ... *)
Theorem C87_three_reflections x y z mv name ws order_of mn mx s e grid sc p v ps v' :
  box_dims x y z mv -> box x y z mv name = Ok ws -> validate_name name = Ok name -> room (faces_of ws) [] order_of mn mx s e grid sc ->
  2 * rdist sc < x -> 2 * rdist sc < y -> 2 * rdist sc < z -> inside_box x y z mv p -> oblique v -> bounces sc p v ps v' -> (length ps <= 3)%nat.
Proof.
  intros D Hb Hv Rm Lx Ly Lz I Ob.
  exact (three_bounces x y z mv D name ws Hb Hv order_of mn mx s e grid sc Rm p v ps v' I Lx Ly Lz Ob).
Qed.
(** ... so the step ends, even if nothing absorbs ... *)
Theorem C87_ends x y z mv name ws order_of mn mx s e grid sc r :
  box_dims x y z mv -> box x y z mv name = Ok ws -> validate_name name = Ok name -> room (faces_of ws) [] order_of mn mx s e grid sc ->
  2 * rdist sc < x -> 2 * rdist sc < y -> 2 * rdist sc < z -> inside_box x y z mv (r_pos r) -> oblique (r_vel r) ->
  exists r', forall fuel, (5 <= fuel)%nat -> step_ray sc fuel r = Ok r'.
Proof.
  intros D Hb Hv Rm Lx Ly Lz I Ob.
  exact (box_step x y z mv D name ws Hb Hv order_of mn mx s e grid sc Rm r I Lx Ly Lz Ob).
Qed.
(** ... and takes at most three times the largest absorption from the ray ... *)
Theorem C87_energy x y z mv name ws order_of mn mx s e grid sc a fuel r r' :
  box_dims x y z mv -> box x y z mv name = Ok ws -> validate_name name = Ok name -> room (faces_of ws) [] order_of mn mx s e grid sc ->
  2 * rdist sc < x -> 2 * rdist sc < y -> 2 * rdist sc < z -> inside_box x y z mv (r_pos r) -> oblique (r_vel r) -> ~ left_box sc (r_pos r) ->
  0 <= eps sc -> 0 <= a -> (forall k, 0 <= surf sc k <= a) -> eps sc + 3 * a < r_en r -> step_ray sc fuel r = Ok r' -> r_en r - 3 * a <= r_en r' <= r_en r.
Proof.
  intros D Hb Hv Rm Lx Ly Lz I Ob Nl E0 A Sf En E.
  exact (box_energy x y z mv D name ws Hb Hv order_of mn mx s e grid sc Rm a r r' A Sf I Lx Ly Lz Ob Nl En (SimProofs.step_outcome sc E0 fuel r r' E)).
Qed.
(** ... but in a box that is shorter than a step, it need not end. *)
Theorem C87_short_box_refuted : exists ws grid sc, box 1 1 1 vzero cube_name = Ok ws /\ room (faces_of ws) [] (fun l => l) vzero (vadd vzero (V 1 1 1)) 1 (1 / 1000) grid sc /\
  0 <= eps sc < 1 /\ 0 < speed sc * dt sc <= 1 /\ norm (V 1 0 0) = speed sc /\ (forall k, surf sc k = 0) /\
  forall fuel, step_ray sc fuel (mkRay (V (1 / 2) (1 / 2) (1 / 2)) (V 1 0 0) (smul (dt sc) (V 1 0 0)) 1) = Err OutOfFuel.
Proof. exact small_endless. Qed.
Example C87_instance : exists ws grid sc, box_dims 2 2 2 vzero /\ box 2 2 2 vzero cube_name = Ok ws /\ validate_name cube_name = Ok cube_name /\
  room (faces_of ws) [] (fun l => l) vzero (vadd vzero (V 2 2 2)) 1 (1 / 1000) grid sc /\ 2 * rdist sc < 2 /\ inside_box 2 2 2 vzero (V 1 1 1) /\ oblique slanted /\
  ~ left_box sc (V 1 1 1) /\ 0 <= eps sc /\ (forall k, 0 <= surf sc k <= 1 / 10) /\ eps sc + 3 * (1 / 10) < 1.
Proof.
  destruct cube_room as (ws & grid & sc & b & H1 & H2 & H3 & H4 & H5 & H6 & H7 & H8 & H9 & H10 & _). destruct cube_ok as (C1 & C2 & C3). exists ws, grid, sc.
  do 6 (split; [assumption|]). split; [exact slanted_oblique|]. do 3 (split; [assumption|]). assumption.
Qed.
Print Assumptions C87_three_reflections.
Print Assumptions C87_ends.
Print Assumptions C87_energy.
Print Assumptions C87_short_box_refuted.
