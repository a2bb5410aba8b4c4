(** Properties C38-C40: voxel grid, nearby polygons, target search. *)
From Coq Require Import Reals ZArith List Bool Arith Lia Lra.
From Verif Require Import Prelude VecModel VecProofs VoxModel VoxSpec VoxProofs.
Import ListNotations.
Local Open Scope R_scope.

(** C38: with a box covering the polygons the grid is built, and every point of
    the convex hull of a polygon lies in a cell that lists the polygon. *)
Theorem C38_grid_complete mn mx polys s e : 0 < s -> 0 <= e ->
  (forall pts, In pts polys -> pts <> [] /\ forall p, In p pts -> in_box mn mx p) ->
  exists grid, make_voxel_grid mn mx polys s e = Ok grid /\
    forall pn pts q, nth_error polys pn = Some pts -> in_hull pts q ->
      forall key, in_cell s key q -> exists l, dget grid key = Some l /\ In pn l.
Proof. exact (grid_complete mn mx polys s e). Qed.
Print Assumptions C38_grid_complete.

(** Cells list exactly the polygons whose bounding box meets the cell. *)
Theorem C38_grid_exact mn mx polys s e grid : make_voxel_grid mn mx polys s e = Ok grid ->
  forall key l, dget grid key = Some l -> forall pn, In pn l <-> exists pts, nth_error polys pn = Some pts /\ ~ misses s key pts.
Proof. exact (grid_exact mn mx polys s e grid). Qed.
Print Assumptions C38_grid_exact.

(** A polygon away from the grid (or without vertices) is a ValueError. *)
Theorem C38_outside_rejected mn mx polys s e pn pts : 0 < s -> 0 <= e -> nth_error polys pn = Some pts ->
  (exists c, In c [vx; vy; vz] /\
    ((forall p, In p pts -> c p < c mn - e - s) \/ (forall p, In p pts -> c mx + 2 * e + 2 * s < c p))) ->
  make_voxel_grid mn mx polys s e = Err ValueError.
Proof. exact (grid_outside mn mx polys s e pn pts). Qed.
Print Assumptions C38_outside_rejected.

(** C39: the nearby polygons are those of the 27 cells around, each once. *)
Theorem C39_nearby_cells key grid :
  (forall pn, In pn (find_nearby_polygons key grid) <->
     exists key' l, adjacent_cells key key' /\ dget grid key' = Some l /\ In pn l) /\
  NoDup (find_nearby_polygons key grid).
Proof. exact (conj (nearby_spec key grid) (nearby_nodup key grid)). Qed.
Print Assumptions C39_nearby_cells.

(** With the grid: nothing within one cell size in each coordinate is missed. *)
Theorem C39_nearby_complete mn mx polys s e grid p pn pts q : 0 < s -> 0 <= e ->
  (forall pts, In pts polys -> pts <> [] /\ forall p, In p pts -> in_box mn mx p) ->
  make_voxel_grid mn mx polys s e = Ok grid ->
  nth_error polys pn = Some pts -> in_hull pts q -> near s p q ->
  In pn (find_nearby_polygons (key_of s p) grid).
Proof. exact (nearby_complete mn mx polys s e grid p pn pts q). Qed.
Print Assumptions C39_nearby_complete.

(** C40: the target search never fails and returns a nearest candidate. *)
Theorem C40_target_nearest (hit : nat -> bool) (dist : nat -> R) (transparent order : list nat) :
  exists t, find_target_surface hit dist transparent order = Ok t /\
    match t with
    | None => forall pn, ~ candidate hit transparent order pn
    | Some b => candidate hit transparent order b /\ forall pn, candidate hit transparent order pn -> dist b <= dist pn
    end.
Proof. exact (target_spec hit dist transparent order). Qed.
Print Assumptions C40_target_nearest.

(** Search, grid and target together: a non-transparent wall in the ray's
    direction with a point within the cell size is never overlooked. *)
Theorem C40_no_wall_missed hit dist order_of mn mx polys s e grid transparent pos dir pn pts q :
  (forall l x, In x (order_of l) <-> In x l) -> 0 < s -> 0 <= e ->
  (forall pts, In pts polys -> pts <> [] /\ forall p, In p pts -> in_box mn mx p) ->
  make_voxel_grid mn mx polys s e = Ok grid ->
  nth_error polys pn = Some pts -> in_hull pts q -> norm (vsub q pos) <= s -> ~ In pn transparent -> hit pos dir pn = true ->
  exists b, sim_target hit dist order_of s grid transparent pos dir = Ok (Some b) /\ dist pos b <= dist pos pn.
Proof. exact (no_wall_missed hit dist order_of mn mx polys s e grid transparent pos dir pn pts q). Qed.
Print Assumptions C40_no_wall_missed.

(** Examples: a unit square on the floor in the box [0,1]^3, cell size 1/2. *)
Definition demo_square : list vec := [V 0 0 0; V 1 0 0; V 1 1 0; V 0 1 0].
Example demo_grid_hyp : forall pts, In pts [demo_square] -> pts <> [] /\ forall p, In p pts -> in_box (V 0 0 0) (V 1 1 1) p.
Proof. intros pts [<-|[]]. split; [discriminate|]. intros p I. unfold in_box. simpl in I. destruct I as [<-|[<-|[<-|[<-|[]]]]]; cbn [vx vy vz]; lra. Qed.
Example demo_square_center : in_hull demo_square (V (1/2) (1/2) 0).
Proof.
  exists [1/4; 1/4; 1/4; 1/4]. split; [auto|]. split; [intros w I; simpl in I; destruct I as [<-|[<-|[<-|[<-|[]]]]]; lra|]. split; [unfold Rsum; simpl; lra|].
  unfold demo_square, Rsum. cbn [combine map fst snd vx vy vz fold_right]. f_equal; lra.
Qed.
(** Its centre cell lists it, and a ray 0.4 above sees it. *)
Example demo_grid : exists grid l, make_voxel_grid (V 0 0 0) (V 1 1 1) [demo_square] (1/2) (1/1000) = Ok grid /\
  dget grid (1, 1, 0)%Z = Some l /\ In 0%nat l /\ In 0%nat (find_nearby_polygons (key_of (1/2) (V (1/2) (1/2) (2/5))) grid).
Proof.
  destruct (C38_grid_complete (V 0 0 0) (V 1 1 1) [demo_square] (1/2) (1/1000) ltac:(lra) ltac:(lra) demo_grid_hyp) as (g & G & H).
  destruct (H 0%nat demo_square _ eq_refl demo_square_center (1, 1, 0)%Z) as (l & D & I).
  { unfold in_cell. cbn [vx vy vz]. lra. }
  exists g, l. split; auto. split; auto. split; auto.
  apply (C39_nearby_complete (V 0 0 0) (V 1 1 1) [demo_square] (1/2) (1/1000) g (V (1/2) (1/2) (2/5)) 0 demo_square (V (1/2) (1/2) 0) ltac:(lra) ltac:(lra) demo_grid_hyp G eq_refl demo_square_center).
  unfold near. cbn [vx vy vz]. rewrite Rminus_diag_eq, Rabs_R0 by auto. split; [lra|]. split; [lra|]. rewrite Rabs_left; lra.
Qed.
(** A polygon far to the right of the box. *)
Example demo_far : make_voxel_grid (V 0 0 0) (V 1 1 1) [[V 5 0 0; V 6 0 0; V 5 1 0]] (1/2) (1/1000) = Err ValueError.
Proof.
  apply (C38_outside_rejected (V 0 0 0) (V 1 1 1) [[V 5 0 0; V 6 0 0; V 5 1 0]] (1/2) (1/1000) 0 [V 5 0 0; V 6 0 0; V 5 1 0] ltac:(lra) ltac:(lra) eq_refl). exists vx. split; [left; auto|]. right.
  intros p [<-|[<-|[<-|[]]]]; cbn [vx]; lra.
Qed.
(** Candidates 1 and 3 (2 is transparent, 0 is not hit): 3 is nearer. *)
Example demo_target : find_target_surface (fun n => negb (n =? 0)) (fun n => match n with 1%nat => 2 | 2%nat => 1/10 | _ => 1 end) [2%nat] [0; 1; 2; 3]%nat = Ok (Some 3%nat).
Proof.
  destruct (C40_target_nearest (fun n => negb (n =? 0)) (fun n => match n with 1%nat => 2 | 2%nat => 1/10 | _ => 1 end) [2%nat] [0; 1; 2; 3]%nat) as (t & E & T).
  rewrite E. f_equal. destruct t as [b|].
  - destruct T as ((Ib & Tb & Hb) & M). f_equal. simpl in Ib. destruct Ib as [<-|[<-|[<-|[<-|[]]]]]; auto; try discriminate.
    + exfalso. specialize (M 3%nat). cbn in M. assert (2 <= 1); [|lra]. apply M. unfold candidate. simpl. intuition discriminate.
    + exfalso. apply Tb. left. auto.
  - exfalso. apply (T 3%nat). unfold candidate. simpl. intuition discriminate.
Qed.
