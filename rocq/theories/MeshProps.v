(** Property theorems C17-C20. *)
From Coq Require Import List Arith Bool Lia.
From Verif Require Import Prelude MeshModel MeshSpec MeshProofs.
Import ListNotations.

(** C17.  Objects may be empty only at the ends. *)
Theorem C17_stacking_keeps_vertices_and_triangles :
  forall (P : Type) (zero : P) objs,
  no_gap (map (fun o => length (fst o)) objs) -> no_gap (map (fun o => length (snd o)) objs) ->
  Forall valid objs ->
  exists m, vstack_mesh zero objs = Ok m /\ fst m = concat (map fst objs) /\
    soup m = concat (map soup objs).
Proof. exact @vstack_ok. Qed.
Print Assumptions C17_stacking_keeps_vertices_and_triangles.

Example C17_instance :
  vstack_mesh 0 [([], []); ([10; 11; 12], [(0, 1, 2)]); ([20; 21; 22; 23], [(0, 1, 2); (0, 2, 3)]); ([], [])] =
  Ok ([10; 11; 12; 20; 21; 22; 23], [(0, 1, 2); (3, 4, 5); (3, 5, 6)]).
Proof. reflexivity. Qed.

(** With an empty object between two others the claim fails: the first object's
    vertices are overwritten and the arrays end in unset rows. *)
Theorem C17_gap_refuted :
  exists objs : list (mesh (P := nat)), Forall valid objs /\
    exists m, vstack_mesh 0 objs = Ok m /\ fst m <> concat (map fst objs) /\ soup m <> concat (map soup objs).
Proof.
  exists [([10; 11; 12], [(0, 1, 2)]); ([], []); ([20; 21; 22], [(0, 1, 2)])].
  split.
  - constructor; [|constructor; [|constructor; [|constructor]]]; apply valid_check; reflexivity.
  - eexists. split; [reflexivity|]. split; discriminate.
Qed.
Print Assumptions C17_gap_refuted.

Theorem C18_mesh_contains_every_polygon_triangle :
  forall (P : Type) (zero : P),
  (forall w, nonempty_wall w -> exists m, wall_mesh zero w = Ok m /\
     fst m = concat (map fst w) /\ soup m = concat (map soup w)) /\
  (forall s, nonempty_solid s -> exists m, solid_mesh zero s = Ok m /\
     fst m = concat (map fst (concat s)) /\ soup m = concat (map soup (concat s))) /\
  (forall z, nonempty_zone z -> exists m, zone_mesh zero z = Ok m /\
     fst m = concat (map fst (concat (concat z))) /\ soup m = concat (map soup (concat (concat z)))) /\
  (forall b, nonempty_building b -> exists m, building_mesh zero b = Ok m /\
     fst m = concat (map fst (all_polys b)) /\ soup m = concat (map soup (all_polys b))).
Proof. exact @mesh_levels. Qed.
Print Assumptions C18_mesh_contains_every_polygon_triangle.

Definition tri3 (a b c : nat) : mesh (P := nat) := ([a; b; c], [(0, 1, 2)]).
Definition demo_building : building_m (P := nat) :=
  [[[[tri3 1 2 3; ([4; 5; 6; 7], [(0, 1, 2); (2, 3, 0)])]; [tri3 8 9 10]]]; [[[tri3 11 12 13]]]].

Example C18_instance : nonempty_building demo_building /\
  building_mesh 0 demo_building =
  Ok ([1; 2; 3; 4; 5; 6; 7; 8; 9; 10; 11; 12; 13],
      [(0, 1, 2); (3, 4, 5); (5, 6, 3); (7, 8, 9); (10, 11, 12)]).
Proof.
  split; [|reflexivity].
  assert (V : forall a b c, good (tri3 a b c)).
  { intros a b c. split; [discriminate|]. split; [discriminate|].
    apply valid_check; reflexivity. }
  assert (V4 : good ([4; 5; 6; 7], [(0, 1, 2); (2, 3, 0)])).
  { split; [discriminate|]. split; [discriminate|].
    apply valid_check; reflexivity. }
  split; [discriminate|]. constructor; [|constructor; [|constructor]];
    (split; [discriminate|]); (constructor; [|constructor]); (split; [discriminate|]).
  - constructor; [|constructor; [|constructor]]; (split; [discriminate|]).
    + constructor; [apply V|]. constructor; [apply V4|constructor].
    + constructor; [apply V|constructor].
  - constructor; [|constructor]. split; [discriminate|]. constructor; [apply V|constructor].
Qed.

(** C19, for every building (empty containers allowed). *)
Theorem C19_array_format_is_faithful :
  forall (P : Type) (zero : P) b, exists a, to_array_format zero b = Ok a /\
    a_points a = concat (map fst (all_polys b)) /\
    length (a_faces a) = length (concat (map snd (all_polys b))) /\
    length (a_polygons a) = length (a_faces a) /\
    length (a_walls a) = length (all_polys b) /\
    length (a_solids a) = length (all_walls b) /\
    length (a_zones a) = length (all_solids b) /\
    (forall x, In x (a_polygons a) -> x < length (all_polys b)) /\
    (forall x, In x (a_walls a) -> x < length (all_walls b)) /\
    (forall x, In x (a_solids a) -> x < length (all_solids b)) /\
    (forall x, In x (a_zones a) -> x < length b) /\
    (forall k p, nth_error (all_polys b) k = Some p ->
       labelled (a_polygons a) (a_faces a) k =
         map (shift_face (length (concat (map fst (firstn k (all_polys b)))))) (snd p)) /\
    (forall k w, nth_error (all_walls b) k = Some w -> labelled (a_walls a) (all_polys b) k = w) /\
    (forall k s, nth_error (all_solids b) k = Some s -> labelled (a_solids a) (all_walls b) k = s) /\
    (forall k z, nth_error b k = Some z -> labelled (a_zones a) (all_solids b) k = z).
Proof. exact @array_faithful. Qed.
Print Assumptions C19_array_format_is_faithful.

Theorem C19_faces_index_own_points :
  forall (P : Type) (zero : P) b a, to_array_format zero b = Ok a -> Forall valid (all_polys b) ->
  forall k p, nth_error (all_polys b) k = Some p ->
    map (coords (a_points a)) (labelled (a_polygons a) (a_faces a) k) = soup p.
Proof. exact @array_coordinates. Qed.
Print Assumptions C19_faces_index_own_points.

Example C19_instance :
  to_array_format 0 (demo_building ++ [[]; [[]; [[]; [tri3 14 15 16]]]]) =
  Ok (mkArrays [1; 2; 3; 4; 5; 6; 7; 8; 9; 10; 11; 12; 13; 14; 15; 16]
        [(0, 1, 2); (3, 4, 5); (5, 6, 3); (7, 8, 9); (10, 11, 12); (13, 14, 15)]
        [0; 1; 1; 2; 3; 4] [0; 0; 1; 2; 4] [0; 0; 1; 3; 3] [0; 1; 3; 3]).
Proof. reflexivity. Qed.

(** C20.  [n] trailing empty zones are lost; everything else comes back. *)
Theorem C20_array_round_trip :
  forall (P : Type) (zero : P) (coplanar : list P -> bool) b n, b <> [] -> last b [] <> [] ->
  (forall p, In p (all_polys b) -> accepted coplanar p /\ valid p /\ all_used p) ->
  (do a <- to_array_format zero (b ++ repeat [] n); from_array_format coplanar a) = Ok b.
Proof. exact @array_roundtrip. Qed.
Print Assumptions C20_array_round_trip.

Theorem C20_no_solids_raises :
  forall (P : Type) (zero : P) (coplanar : list P -> bool) b, all_solids b = [] ->
  (do a <- to_array_format zero b; from_array_format coplanar a) = Err ValueError.
Proof. exact @no_solids_error. Qed.
Print Assumptions C20_no_solids_raises.

(** Whatever the arrays hold, polygons that the constructor would reject are not
    read: with no triangle, fewer than three points or points off a plane. *)
Theorem C20_only_accepted_polygons :
  forall (P : Type) (coplanar : list P -> bool) a b, from_array_format coplanar a = Ok b ->
  forall p, In p (all_polys b) -> accepted coplanar p.
Proof. exact @read_accepted. Qed.
Print Assumptions C20_only_accepted_polygons.

(** A polygon with a triangle whose corner is not a row of the array of points
    cannot be read. *)
Theorem C20_out_of_range :
  forall (P : Type) (points : list P) faces polygons k i x y z c, nth_error polygons i = Some k -> nth_error faces i = Some (x, y, z) ->
  In c [x; y; z] -> length points <= c -> get_polygon_points_and_faces points faces polygons k = Err IndexError.
Proof. intros. eapply corner_out_of_range; eauto. Qed.
Print Assumptions C20_out_of_range.
Example C20_out_of_range_example : get_polygon_points_and_faces [7; 8; 9; 10] [(0, 1, 2); (0, 2, 4)] [0; 1] 1 = Err IndexError /\ get_polygon_points_and_faces [7; 8; 9; 10] [(0, 1, 2); (0, 2, 4)] [0; 1] 0 = Ok ([7; 8; 9], [(0, 1, 2)]).
Proof. split; [apply (C20_out_of_range nat) with 1 0 2 4 4; simpl; auto|reflexivity]. Qed.

Example C20_instance :
  (forall p, In p (all_polys demo_building) -> accepted (fun _ => true) p /\ valid p /\ all_used p) /\
  (do a <- to_array_format 0 demo_building; from_array_format (fun _ => true) a) = Ok demo_building.
Proof.
  split; [|vm_compute; reflexivity]. intros p I. simpl in I.
  assert (U : forall a b c, accepted (fun _ => true) (tri3 a b c) /\ valid (tri3 a b c) /\ all_used (tri3 a b c)).
  { intros a b c. split; [|split; [apply valid_check|apply used_check]; reflexivity].
    split; [reflexivity|]. split; [simpl; auto|discriminate]. }
  destruct I as [<-|[<-|[<-|[<-|[]]]]]; try apply U.
  split; [|split; [apply valid_check|apply used_check]; reflexivity].
  split; [reflexivity|]. split; [simpl; auto|discriminate].
Qed.

(** Without the proviso the round trip fails: a vertex that no triangle uses is
    dropped. *)
Theorem C20_unused_vertices_refuted :
  exists b : building_m (P := nat),
    (forall p, In p (all_polys b) -> accepted (fun _ => true) p /\ valid p) /\ last b [] <> [] /\
    exists b', (do a <- to_array_format 0 b; from_array_format (fun _ => true) a) = Ok b' /\ b' <> b.
Proof.
  exists [[[[([1; 2; 3; 4], [(0, 1, 3)])]]]]. split; [|split; [discriminate|]].
  - intros p [<-|[]]. split; [|apply valid_check; reflexivity].
    split; [reflexivity|]. split; [simpl; auto|discriminate].
  - eexists. split; [vm_compute; reflexivity|discriminate].
Qed.
Print Assumptions C20_unused_vertices_refuted.
