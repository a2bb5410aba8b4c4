(** Properties C117 and C118: polygons and solids read back from files. *)
From Coq Require Import Reals List Bool Arith Lia Lra ZArith.
From Verif Require Import  Prelude TreeModel VecModel VecProofs GeomModel GeomSpec GeomProofs1 GeomProofs2 GeomProofs3 GeomProofs4 TriModel TriSpec TriProofs TriProofs2 TriProofs3 PolyModel PolySpec PolyProofs1 PolyProofs2 SolidModel SolidSpec SolidProofs2 PlanSpec PlanProofs1 GeomProofs3 LoadModel LoadSpec LoadProofs PolyProofs3 GeomProofs5 LoadProofs2.
Import ListNotations.
Local Open Scope R_scope.

(** C117: a polygon is built again from its own points and triangles.  All is
    as before if the first corner is convex, the normal is opposite if it is
    reflex, and there is no normal if it is straight. *)
Theorem C117_loaded pts vn0 p c : make_polygon pts None vn0 = Ok p -> unit (p_vn p) -> in_plane (p_vn p) c pts ->
  (good_start (p_pts p) -> load_polygon (p_pts p) (p_tri p) = Ok (as_it_was p)) /\
  (~ first_convex (p_pts p) -> 1 / 100000000 < corner_size (p_pts p) -> load_polygon (p_pts p) (p_tri p) = Ok (turned_round p)) /\
  (corner_size (p_pts p) <= 1 / 100000000 -> load_polygon (p_pts p) (p_tri p) = Ok (without_normal p)).
Proof. exact (loaded_cases pts vn0 p c). Qed.
(** Whatever points and triangles the file has, they are kept as they are, the
    points must pass the test for a plane, and the normal is that of the first
    corner. *)
Theorem C117_any pts ts : (forall l, load_polygon pts ts = Ok l ->
    are_points_coplanar pts GEOM_ATOL = Ok true /\ (3 <= length pts)%nat /\ ts <> [] /\ l_pts l = pts /\ l_tri l = ts /\
    exists p0 p1 r, pts = p0 :: p1 :: r /\ l_vn l = normal (last pts p0) p0 p1) /\
  (are_points_coplanar pts GEOM_ATOL = Ok false \/ (length pts < 3)%nat -> load_polygon pts ts = Err AssertionError).
Proof. split; [exact (loaded_any pts ts)|exact (loaded_bad pts ts)]. Qed.
(** A polygon made from points with a convex first corner is read back as it was. *)
Theorem C117_made n c pts p : unit n -> in_plane n c pts -> make_polygon pts None None = Ok p -> first_convex pts ->
  load_polygon (p_pts p) (p_tri p) = Ok (as_it_was p).
Proof. intros U P M F. apply (made_same pts p M). apply (made_orient n c pts p U P M). exact F. Qed.
(** The U shape of C65 is read back with the opposite normal. *)
Theorem C117_normal_refuted : exists p, make_polygon (map at3 ushape) None None = Ok p /\ load_polygon (p_pts p) (p_tri p) = Ok (turned_round p) /\ p_vn p = V 0 0 (-1).
Proof. exact ushape_turns. Qed.
(** A square whose first point lies on an edge is read back without a normal. *)
Theorem C117_missing_refuted : exists p, make_polygon (map at3 cube_top) None (Some (V 0 0 1)) = Ok p /\ p_pts p = map at3 cube_top /\
  p_tri p = [(0, 1, 2); (0, 2, 3); (0, 3, 4)]%nat /\ p_vn p = V 0 0 1 /\ load_polygon (p_pts p) (p_tri p) = Ok (without_normal p).
Proof. exact cube_top_made. Qed.

(** C118: the volume is the same if all polygons start with a good corner. *)
Theorem C118_volume ps ls : (forall p, In p ps -> starts_well p) -> mapM (fun p => load_polygon (p_pts p) (p_tri p)) ps = Ok ls ->
  ls = map as_it_was ps /\ loaded_volume ls = solid_volume (map shape ps).
Proof. exact (volume_same ps ls). Qed.
(** A polygon that has turned round adds the opposite, unless its plane goes
    through the origin, ... *)
Theorem C118_turned p c : in_plane (p_vn p) c (p_pts p) ->
  (c <> 0 -> loaded_parts (turned_round p) = do v <- polygon_volume (shape p); Ok (map Ropp v)) /\
  (c = 0 -> loaded_parts (turned_round p) = polygon_volume (shape p)).
Proof. intros P. split; intros C; [exact (turned_parts p c P C)|subst c; exact (turned_parts_through p P)]. Qed.
(** ... and one without a normal is always taken away. *)
Theorem C118_without p : loaded_parts (without_normal p) = do v <- polygon_volume (shape p); Ok (map (fun x => - Rabs x) v).
Proof. exact (without_parts p). Qed.
(** A cube of volume 8 has volume 8/3 when it is read back. *)
Theorem C118_volume_refuted : exists ps ls v v', Forall2 (fun z p => exists vn0, make_polygon (map at3 z) None vn0 = Ok p) (cube_rest ++ [cube_top]) ps /\
  mapM (fun p => load_polygon (p_pts p) (p_tri p)) ps = Ok ls /\ solid_volume (map shape ps) = Ok v /\ loaded_volume ls = Ok v' /\
  Rabs (v - 8) <= 1 / 100000 /\ Rabs (v' - 8 / 3) <= 1 / 100000.
Proof. exact cube_volumes. Qed.

Print Assumptions C117_loaded.
Print Assumptions C117_any.
Print Assumptions C117_made.
Print Assumptions C117_normal_refuted.
Print Assumptions C117_missing_refuted.
Print Assumptions C118_volume.
Print Assumptions C118_turned.
Print Assumptions C118_without.
Print Assumptions C118_volume_refuted.

(** The side of the cube at x = 2. *)
Definition cube_side : list z3 := [(2, 0, 0); (2, 2, 0); (2, 2, 2); (2, 0, 2)]%Z.
Lemma cube_side_plane : in_plane (V 1 0 0) 2 (map at3 cube_side).
Proof. intros p I. unfold cube_side in I. simpl in I. repeat (destruct I as [<-|I]; [vunf; ring|]). destruct I. Qed.
Lemma cube_side_start : good_start (map at3 cube_side).
Proof.
  split; unfold cube_side; cbn [map].
  - unfold first_convex, convex_corner, vector_area2, cyc_pairs. cbn [map app last combine fold_right fst snd]. unfold at3. cbn [fst snd]. vunf. lra.
  - unfold corner_size. cbn [last]. unfold true_area, at3. cbn [fst snd]. replace (cross _ _) with (smul 4 (V 1 0 0)) by (vunf; f_equal; ring). rewrite norm_smul, unit_norm by (unfold unit; vunf; ring). rewrite Rabs_pos_eq; lra.
Qed.
Example C117_example : exists p, make_polygon (map at3 cube_side) None None = Ok p /\ unit (p_vn p) /\ in_plane (p_vn p) 2 (map at3 cube_side) /\ good_start (p_pts p).
Proof.
  destruct (zmake_spec cube_side cube_side cube_ts (1, 0, 0)%Z eq_refl) as (_ & p & M & A & _ & C). exists p. split; auto. change (at3 (1, 0, 0)%Z) with (V 1 0 0) in C. rewrite A, C. split; [unfold unit; vunf; ring|]. split; [apply cube_side_plane|apply cube_side_start].
Qed.
Example C118_example : exists p l, starts_well p /\ mapM (fun p => load_polygon (p_pts p) (p_tri p)) [p; p] = Ok [l; l].
Proof.
  destruct C117_example as (p & M & U & P & G). destruct (C117_loaded _ _ _ _ M U P) as (H & _). exists p, (as_it_was p). split; [exists (map at3 cube_side), None, 2; auto|]. cbn [mapM]. rewrite (H G). reflexivity.
Qed.
