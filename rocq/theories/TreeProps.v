(** Property theorems C04-C10. *)
From Coq Require Import Ascii String List Arith Bool ZArith.
From Verif Require Import Prelude TreeModel TreeSpec TreeProofs TreeProofs2.
Import ListNotations.

(** C04: names and paths. *)
Theorem C04_names_have_no_separator :
  forall name : str,
    (validate_name name = Ok name /\ ~ In PATH_SEP name) \/
    (validate_name name = Err ValueError /\ In PATH_SEP name).
Proof. exact validate_name_spec. Qed.
Print Assumptions C04_names_have_no_separator.

Theorem C04_split_inverts_join :
  forall names : list str, names <> [] ->
  Forall (fun n => validate_name n = Ok n) names ->
  split_path (join_with PATH_SEP names) = Ok names.
Proof. exact split_path_join. Qed.
Print Assumptions C04_split_inverts_join.

Theorem C04_paths_are_injective :
  forall names names' : list str, names <> [] -> names' <> [] ->
  Forall (fun n => validate_name n = Ok n) names ->
  Forall (fun n => validate_name n = Ok n) names' ->
  join_with PATH_SEP names = join_with PATH_SEP names' -> names = names'.
Proof. exact join_injective. Qed.
Print Assumptions C04_paths_are_injective.

Theorem C04_every_text_splits :
  forall p : str, exists l, split_path p = Ok l /\ l <> [] /\ join_with PATH_SEP l = p.
Proof. exact split_path_total. Qed.
Print Assumptions C04_every_text_splits.

Example C04_instance :
  split_path (str_of "bdg/zone 1/solid/wall/p-1") =
    Ok (map str_of ["bdg"; "zone 1"; "solid"; "wall"; "p-1"]%string) /\
  validate_name (str_of "a/b") = Err ValueError /\
  Forall (fun n => validate_name n = Ok n) (map str_of ["bdg"; "zone 1"; "solid"; "wall"; "p-1"]%string).
Proof. repeat split; repeat constructor. Qed.

(** A small model used in the examples: building 0 "b", zone 1 "z", solid 2 "s",
    walls 3 "w1" and 4 "w2", polygons 5 "p" (in w1), 6 "p" (in w2), 7 "q" (in w1). *)
Definition demo_ops : list op :=
  [ OpNew KBuilding (str_of "b") 0 []; OpNew KZone (str_of "z") 0 [];
    OpNew KSolid (str_of "s") 0 []; OpNew KWall (str_of "w1") 0 []; OpNew KWall (str_of "w2") 0 [];
    OpNew KPolygon (str_of "p") 4 []; OpNew KPolygon (str_of "p") 4 []; OpNew KPolygon (str_of "q") 3 [];
    OpAdd 0 1; OpAdd 1 2; OpAdd 2 3; OpAdd 2 4; OpAdd 3 5; OpAdd 4 6; OpAdd 3 7 ].
Definition demo : heap := run [] demo_ops.

(** C05: after any history, keys are unique, every key is the name of the
    child stored under it and children have the right class. *)
Theorem C05_sibling_names_unique :
  forall ops i o, nth_error (run [] ops) i = Some o ->
    NoDup (map fst (o_children o)) /\
    (forall k c, In (k, c) (o_children o) ->
       exists co, nth_error (run [] ops) c = Some co /\ o_name co = k /\
                  child_kind (o_kind o) = Some (o_kind co)) /\
    ~ In PATH_SEP (o_name o).
Proof.
  exact (fun ops i o E => match run_wf ops [] wf_nil i o E with
    | conj A (conj B (conj _ D)) => conj A (conj B D) end).
Qed.
Print Assumptions C05_sibling_names_unique.

(** C05: a refused addition changes nothing, and it is refused with
    GeometryError exactly when the name is taken. *)
Theorem C05_failed_add_changes_nothing :
  forall h p c e, snd (add_child h p c) = Err e -> fst (add_child h p c) = h.
Proof.
  exact (fun h p c e => match add_child_effect h p c in add_effect _ _ _ r
    return snd r = Err e -> fst r = h with
    | add_fails _ _ _ _ _ => fun _ => eq_refl
    | add_works _ _ _ _ _ _ _ _ _ _ => fun Q => ltac:(discriminate Q) end).
Qed.
Print Assumptions C05_failed_add_changes_nothing.

Theorem C05_add_refused_iff_name_taken :
  forall h p c po co, nth_error h p = Some po -> nth_error h c = Some co ->
  child_kind (o_kind po) = Some (o_kind co) ->
  (snd (add_child h p c) = Err GeometryError <-> In (o_name co) (map fst (o_children po))) /\
  (snd (add_child h p c) = Ok tt <-> ~ In (o_name co) (map fst (o_children po))).
Proof. exact add_child_refused. Qed.
Print Assumptions C05_add_refused_iff_name_taken.

(** A polygon has no children. *)
Theorem C05_polygon_has_none :
  forall h name n c cs, validate_name name = Ok name -> snd (new_object h KPolygon name n (c :: cs)) = Err TypeError.
Proof. intros h name n c cs H. unfold new_object. rewrite H. reflexivity. Qed.
Print Assumptions C05_polygon_has_none.

Example C05_instance :
  snd (add_child demo 3 6) = Err GeometryError /\ snd (add_child demo 2 1) = Err TypeError /\
  option_map o_children (nth_error demo 3) = Some [(str_of "p", 5); (str_of "q", 7)].
Proof. repeat split. Qed.

(** C06: paths lead back to their object, for histories that add every object
    at most once (other calls may fail or succeed freely). *)
Theorem C06_path_roundtrip :
  forall int_of ops b bo names i, NoDup (flat_map added ops) ->
  nth_error (run [] ops) b = Some bo -> o_kind bo = KBuilding ->
  descends (run [] ops) b names i ->
  exists p, path (run [] ops) i = Ok p /\
    building_get int_of (run [] ops) b p = Ok (GotObj i) /\
    obj_get int_of (run [] ops) i p = Ok (GotObj i).
Proof.
  exact (fun int_of ops b bo names i ND => match run_linked ops ND with
    conj W L => path_get_roundtrip int_of (run [] ops) b bo names i W L end).
Qed.
Print Assumptions C06_path_roundtrip.

(** The same for any model whose children point back to their containers. *)
Theorem C06_path_roundtrip_linked :
  forall int_of ops b bo names i, linked (run [] ops) ->
  nth_error (run [] ops) b = Some bo -> o_kind bo = KBuilding ->
  descends (run [] ops) b names i ->
  exists p, path (run [] ops) i = Ok p /\
    building_get int_of (run [] ops) b p = Ok (GotObj i) /\
    obj_get int_of (run [] ops) i p = Ok (GotObj i).
Proof.
  exact (fun int_of ops b bo names i =>
    path_get_roundtrip int_of (run [] ops) b bo names i (run_wf ops [] wf_nil)).
Qed.
Print Assumptions C06_path_roundtrip_linked.

Example C06_instance :
  NoDup (flat_map added demo_ops) /\
  descends demo 0 (map str_of ["z"; "s"; "w1"; "q"]%string) 7 /\
  path demo 7 = Ok (str_of "b/z/s/w1/q") /\
  building_get (fun _ => None) demo 0 (str_of "b/z/s/w1/q") = Ok (GotObj 7).
Proof.
  split; [|split; [|split; reflexivity]].
  - repeat constructor; simpl; intuition discriminate.
  - apply (follow_descends demo _ 0 _ 7 (run_wf _ [] wf_nil) eq_refl). reflexivity.
Qed.

(** C06, finding: with one object in two containers the path fails. *)
Theorem C06_shared_object_refuted :
  ~ (forall int_of ops b bo names i p,
       nth_error (run [] ops) b = Some bo -> o_kind bo = KBuilding ->
       descends (run [] ops) b names i -> path (run [] ops) i = Ok p ->
       building_get int_of (run [] ops) b p = Ok (GotObj i)).
Proof. exact shared_object_counterexample. Qed.
Print Assumptions C06_shared_object_refuted.

(** C07: lookup is exact. *)
Theorem C07_get_returns_exactly_the_named_object :
  forall int_of ops b bo p i, nth_error (run [] ops) b = Some bo ->
  (building_get int_of (run [] ops) b p = Ok (GotObj i) <->
   exists names, p = join_with PATH_SEP (o_name bo :: names) /\ length names <= 4 /\
     Forall (fun n => ~ In PATH_SEP n) names /\ descends (run [] ops) b names i).
Proof. exact (fun int_of ops b bo p i => building_get_obj int_of _ b bo p i (run_wf ops [] wf_nil)). Qed.
Print Assumptions C07_get_returns_exactly_the_named_object.

Theorem C07_level_decides_class :
  forall ops b bo names i, nth_error (run [] ops) b = Some bo -> o_kind bo = KBuilding ->
  descends (run [] ops) b names i ->
  exists o, nth_error (run [] ops) i = Some o /\
    nth_error [KBuilding; KZone; KSolid; KWall; KPolygon] (length names) = Some (o_kind o).
Proof. exact (fun ops b bo names i => descends_class _ b bo names i (run_wf ops [] wf_nil)). Qed.
Print Assumptions C07_level_decides_class.

Theorem C07_wrong_building_name_asserts :
  forall int_of ops b bo p, nth_error (run [] ops) b = Some bo ->
  (building_get int_of (run [] ops) b p = Err AssertionError <->
   forall names, split_path p <> Ok (o_name bo :: names)).
Proof. exact (fun int_of ops b bo p => building_get_wrong_name int_of _ b bo p (run_wf ops [] wf_nil)). Qed.
Print Assumptions C07_wrong_building_name_asserts.

Theorem C07_missing_component_is_KeyError :
  forall int_of ops b bo p names, nth_error (run [] ops) b = Some bo ->
  split_path p = Ok (o_name bo :: names) -> length names <= 4 ->
  (building_get int_of (run [] ops) b p = Err KeyError <->
   ~ exists i, descends (run [] ops) b names i).
Proof. exact (fun int_of ops b bo p names => building_get_missing int_of _ b bo p names (run_wf ops [] wf_nil)). Qed.
Print Assumptions C07_missing_component_is_KeyError.

Theorem C07_too_many_components_is_ValueError :
  forall int_of h b bo p names, nth_error h b = Some bo ->
  split_path p = Ok (o_name bo :: names) -> 5 < length names ->
  building_get int_of h b p = Err ValueError.
Proof. exact building_get_long. Qed.
Print Assumptions C07_too_many_components_is_ValueError.

Theorem C07_point_index :
  forall h i o k, nth_error h i = Some o ->
  (forall r, point_at h i k = Ok r -> exists m, r = GotPoint i m /\ m < o_npts o /\
     (k = Z.of_nat m \/ k = (Z.of_nat m - Z.of_nat (o_npts o))%Z)) /\
  (point_at h i k = Err IndexError <->
     (k >= Z.of_nat (o_npts o) \/ k < - Z.of_nat (o_npts o))%Z).
Proof. exact point_at_range. Qed.
Print Assumptions C07_point_index.

Theorem C07_get_on_descendant :
  forall int_of ops b bo names i p, NoDup (flat_map added ops) ->
  nth_error (run [] ops) b = Some bo -> o_kind bo = KBuilding ->
  descends (run [] ops) b names i ->
  obj_get int_of (run [] ops) i p = building_get int_of (run [] ops) b p.
Proof.
  exact (fun int_of ops b bo names i p ND => match run_linked ops ND with
    conj W L => obj_get_root int_of (run [] ops) b bo names i p W L end).
Qed.
Print Assumptions C07_get_on_descendant.

(** C07, finding: [get] on an object that is not inside a building never
    returns (endless recursion). *)
Theorem C07_get_without_building_recurses :
  forall int_of h i o p, nth_error h i = Some o -> o_kind o <> KBuilding -> o_parent o = None ->
  obj_get int_of h i p = Err RecursionError.
Proof. exact obj_get_orphan. Qed.
Print Assumptions C07_get_without_building_recurses.

Example C07_instance :
  building_get (fun _ => Some (-1)%Z) demo 0 (str_of "b/z/s/w1/q/-1") = Ok (GotPoint 7 2) /\
  building_get (fun _ => None) demo 0 (str_of "b/z/s/w3") = Err KeyError /\
  building_get (fun _ => None) demo 0 (str_of "c/z") = Err AssertionError /\
  building_get (fun _ => None) demo 0 (str_of "b/z/s/w1/q/0/0") = Err ValueError /\
  obj_get (fun _ => None) [mkObj KZone (str_of "z") None [] 0] 0 (str_of "z") = Err RecursionError.
Proof. repeat split. Qed.

(** C08: the listing of polygon paths. *)
Theorem C08_listing_complete_and_distinct :
  forall ops b bo, nth_error (run [] ops) b = Some bo -> o_kind bo = KBuilding ->
  exists l, building_polygon_paths (run [] ops) b = Ok l /\ NoDup l /\
    (forall p, In p l <-> exists names i o, p = join_with PATH_SEP (o_name bo :: names) /\
        descends (run [] ops) b names i /\ nth_error (run [] ops) i = Some o /\ o_kind o = KPolygon).
Proof. exact (fun ops b bo => building_paths_spec _ b bo (run_wf ops [] wf_nil)). Qed.
Print Assumptions C08_listing_complete_and_distinct.

Theorem C08_listed_paths_resolve :
  forall int_of ops b bo l p, nth_error (run [] ops) b = Some bo -> o_kind bo = KBuilding ->
  building_polygon_paths (run [] ops) b = Ok l -> In p l ->
  exists i o, building_get int_of (run [] ops) b p = Ok (GotObj i) /\
    nth_error (run [] ops) i = Some o /\ o_kind o = KPolygon.
Proof. exact (fun int_of ops b bo l p => listed_paths_resolve int_of _ b bo l p (run_wf ops [] wf_nil)). Qed.
Print Assumptions C08_listed_paths_resolve.

(** Order: each level's listing is the concatenation of its children's
    listings in dictionary (insertion) order, down to the wall. *)
Theorem C08_building_concatenates_zones :
  forall ops b bo, NoDup (flat_map added ops) -> nth_error (run [] ops) b = Some bo ->
  building_polygon_paths (run [] ops) b =
  concatM (fun '(_, z) => zone_polygon_paths (run [] ops) z) (o_children bo).
Proof.
  exact (fun ops b bo ND => match run_linked ops ND with
    conj W L => concat_zones (run [] ops) b bo W L end).
Qed.
Print Assumptions C08_building_concatenates_zones.

Theorem C08_zone_concatenates_solids :
  forall ops b bo z zo, NoDup (flat_map added ops) -> nth_error (run [] ops) b = Some bo ->
  nth_error (run [] ops) z = Some zo -> o_parent zo = Some b ->
  zone_polygon_paths (run [] ops) z =
  concatM (fun '(_, s) => solid_polygon_paths (run [] ops) s) (o_children zo).
Proof.
  exact (fun ops b bo z zo ND => match run_linked ops ND with
    conj W L => concat_solids (run [] ops) b bo z zo W L end).
Qed.
Print Assumptions C08_zone_concatenates_solids.

Theorem C08_solid_concatenates_walls :
  forall ops b bo z zo s so, NoDup (flat_map added ops) -> nth_error (run [] ops) b = Some bo ->
  nth_error (run [] ops) z = Some zo -> o_parent zo = Some b ->
  nth_error (run [] ops) s = Some so -> o_parent so = Some z ->
  solid_polygon_paths (run [] ops) s =
  concatM (fun '(_, w) => wall_polygon_paths (run [] ops) w) (o_children so).
Proof.
  exact (fun ops b bo z zo s so ND => match run_linked ops ND with
    conj W L => concat_walls (run [] ops) b bo z zo s so W L end).
Qed.
Print Assumptions C08_solid_concatenates_walls.

Theorem C08_wall_lists_its_polygons :
  forall h b bo z zo s so w wo, nth_error h b = Some bo -> nth_error h z = Some zo ->
  nth_error h s = Some so -> nth_error h w = Some wo ->
  o_parent zo = Some b -> o_parent so = Some z -> o_parent wo = Some s ->
  wall_polygon_paths h w =
  Ok (map (fun pn => join_with PATH_SEP [o_name bo; o_name zo; o_name so; o_name wo; pn])
          (map fst (o_children wo))).
Proof. exact wall_lists_children. Qed.
Print Assumptions C08_wall_lists_its_polygons.

(** Without a building above there is no listing. *)
Theorem C08_orphans :
  forall h i o, nth_error h i = Some o ->
  (o_parent o = None -> zone_polygon_paths h i = Err AssertionError /\ solid_polygon_paths h i = Err AssertionError /\ wall_polygon_paths h i = Err AssertionError) /\
  (forall j p, o_parent o = Some j -> nth_error h j = Some p -> o_parent p = None ->
     solid_polygon_paths h i = Err AssertionError /\ wall_polygon_paths h i = Err AssertionError) /\
  (forall j p k q, o_parent o = Some j -> nth_error h j = Some p -> o_parent p = Some k -> nth_error h k = Some q -> o_parent q = None ->
     wall_polygon_paths h i = Err AssertionError).
Proof.
  intros h i o E. unfold zone_polygon_paths, solid_polygon_paths, wall_polygon_paths, parent_asserted, deref. rewrite E. cbn [rbind].
  repeat split; intros; repeat match goal with X : o_parent _ = _ |- _ => rewrite X; cbn [rbind]; clear X | X : nth_error _ _ = Some _ |- _ => rewrite X; cbn [rbind]; clear X end; cbn [rbind]; reflexivity.
Qed.
Print Assumptions C08_orphans.

Example C08_orphans_instance : let h := fst (step [] (OpNew KZone (str_of "z") 0 [])) in
  zone_polygon_paths h 0 = Err AssertionError.
Proof. reflexivity. Qed.

Example C08_instance :
  building_polygon_paths demo 0 =
    Ok (map str_of ["b/z/s/w1/p"; "b/z/s/w1/q"; "b/z/s/w2/p"]%string) /\
  wall_polygon_paths demo 4 = Ok [str_of "b/z/s/w2/p"].
Proof. split; reflexivity. Qed.

(** C09: replacement touches only the named child; the additions stop at the
    first clash and the old polygon is gone in any case. *)
Theorem C09_replace_polygon :
  forall ops w wo old news, nth_error (run [] ops) w = Some wo -> o_kind wo = KWall ->
  Forall (is_kind (run [] ops) KPolygon) news ->
  let h := run [] ops in
  (~ In old (map fst (o_children wo)) -> replace_polygon h w old news = (h, Err KeyError)) /\
  (In old (map fst (o_children wo)) ->
   exists done rest h' r wo',
    replace_polygon h w old news = (h', r) /\ news = done ++ rest /\
    nth_error h' w = Some wo' /\ o_name wo' = o_name wo /\ o_parent wo' = o_parent wo /\
    o_children wo' = filter (fun e => negb (eqb (fst e) old)) (o_children wo)
                     ++ map (fun c => (name_in h c, c)) done /\
    ((r = Ok tt /\ rest = []) \/
     (r = Err GeometryError /\ exists c rest', rest = c :: rest' /\
        In (name_in h c) (map fst (o_children wo')))) /\
    (forall i, i <> w -> ~ In i done -> nth_error h' i = nth_error h i) /\
    (forall i o, In i done -> nth_error h i = Some o -> nth_error h' i = Some (set_parent o w))).
Proof. exact (fun ops w wo old news => replace_polygon_spec _ w wo old news (run_wf ops [] wf_nil)). Qed.
Print Assumptions C09_replace_polygon.

Theorem C09_replace_wall :
  forall ops s so old nw nwo, nth_error (run [] ops) s = Some so -> o_kind so = KSolid ->
  nth_error (run [] ops) nw = Some nwo -> o_kind nwo = KWall ->
  let h := run [] ops in
  (~ In old (map fst (o_children so)) -> replace_wall h s old nw = (h, Err KeyError)) /\
  (In old (map fst (o_children so)) ->
   (~ In (o_name nwo) (filter (fun n => negb (eqb n old)) (map fst (o_children so))) ->
    exists h', replace_wall h s old nw = (h', Ok tt) /\
      nth_error h' s = Some (set_children so
         (filter (fun e => negb (eqb (fst e) old)) (o_children so) ++ [(o_name nwo, nw)])) /\
      nth_error h' nw = Some (set_parent nwo s) /\
      (forall i, i <> s -> i <> nw -> nth_error h' i = nth_error h i)) /\
   (In (o_name nwo) (filter (fun n => negb (eqb n old)) (map fst (o_children so))) ->
    exists h', replace_wall h s old nw = (h', Err GeometryError) /\
      nth_error h' s = Some (set_children so
         (filter (fun e => negb (eqb (fst e) old)) (o_children so))) /\
      (forall i, i <> s -> nth_error h' i = nth_error h i))).
Proof. exact (fun ops s so old nw nwo => replace_wall_spec _ s so old nw nwo (run_wf ops [] wf_nil)). Qed.
Print Assumptions C09_replace_wall.

(** C09, finding: a failed replacement is not rolled back. *)
Theorem C09_replace_is_atomic_refuted :
  ~ (forall h w old news e, snd (replace_polygon h w old news) = Err e ->
       fst (replace_polygon h w old news) = h).
Proof. exact replace_not_atomic. Qed.
Print Assumptions C09_replace_is_atomic_refuted.

Example C09_instance :
  let r := replace_polygon demo 3 (str_of "p") [6] in
  snd r = Ok tt /\
  option_map o_children (nth_error (fst r) 3) = Some [(str_of "q", 7); (str_of "p", 6)].
Proof. split; reflexivity. Qed.

(** C10: stitch.replace_polygon with a name that is unique among the walls of
    the solid acts exactly like replacing that one polygon. *)
Theorem C10_unique_name_replaces_one :
  forall ops s so wn w wo old oo p news,
  let h := run [] ops in
  nth_error h s = Some so -> nth_error h old = Some oo ->
  In (wn, w) (o_children so) -> nth_error h w = Some wo -> In (o_name oo, p) (o_children wo) ->
  (forall wn' w' wo', In (wn', w') (o_children so) -> nth_error h w' = Some wo' ->
     In (o_name oo) (map fst (o_children wo')) -> w' = w) ->
  solid_replace_polygon h s old news = replace_polygon h w (o_name oo) news.
Proof.
  exact (fun ops s so wn w wo old oo p news =>
    solid_replace_unique _ s so wn w wo old oo p news (run_wf ops [] wf_nil)).
Qed.
Print Assumptions C10_unique_name_replaces_one.

(** C10, finding: a polygon of the same name in another wall is replaced too
    (here old polygon 5 in wall 3 is meant, but polygon 6 in wall 4 goes as well),
    and the new polygon then belongs to two walls. *)
Theorem C10_replaces_only_the_given_polygon_refuted :
  ~ (forall ops s old oo news w wo,
       let h := run [] ops in
       nth_error h old = Some oo -> nth_error h w = Some wo -> o_kind wo = KWall ->
       o_parent oo <> Some w ->
       nth_error (fst (solid_replace_polygon h s old news)) w = Some wo).
Proof. exact replaces_both_walls. Qed.
Print Assumptions C10_replaces_only_the_given_polygon_refuted.

Example C10_instance :
  let r := solid_replace_polygon (run demo [OpNew KPolygon (str_of "n") 3 []]) 2 7 [8] in
  snd r = Ok tt /\
  option_map o_children (nth_error (fst r) 3) = Some [(str_of "p", 5); (str_of "n", 8)].
Proof. split; reflexivity. Qed.
