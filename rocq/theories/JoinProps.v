(** Properties C119 and C120: stitching the solids of a building. *)
From Coq Require Import Ascii String List Arith Bool Lia.
From Verif Require Import Prelude TreeModel TreeSpec TreeProofs GraphModel GraphSpec GraphProofs GraphProofs2 JoinModel JoinSpec JoinProofs JoinProofs2.
Import ListNotations.

(** C119: with an empty cache, the solids stitched are those with facing or
    crossing polygons, one pair for each pair of names, in turn. *)
Theorem C119_fresh stitch los bbox isf isc ist : set_listing los -> forall ops b bo c,
  NoDup (flat_map added ops) -> nth_error (run [] ops) b = Some bo -> o_kind bo = KBuilding -> c_graph c = [] ->
  let h := run [] ops in
  exists c' cs h' r, stitch_building stitch los bbox isf isc ist c h b = (c', (h', r)) /\
    one_per_names (adjacent (conn_by bbox isf isc ist true true false) h b) h cs /\ joined stitch h cs h' r.
Proof. exact (fresh_spec stitch los bbox isf isc ist). Qed.
(** With a graph in the cache, they are those that were adjacent when it was
    computed, under the flags of that call, whatever was done to the building
    since. *)
Theorem C119_cached stitch los bbox isf isc ist : set_listing los -> forall f o t ops0 ops1 b bo g0 c,
  NoDup (flat_map added ops0) -> nth_error (run [] ops0) b = Some bo -> o_kind bo = KBuilding ->
  building_graph bbox isf isc ist f o t (run [] ops0) b = Ok g0 -> c_graph c <> [] -> c_solid c = strip_graph los g0 2 ->
  let h := run [] (ops0 ++ ops1) in
  exists cs h' r, stitch_building stitch los bbox isf isc ist c h b = (c, (h', r)) /\
    one_per_names (adjacent (conn_by bbox isf isc ist f o t) (run [] ops0) b) (run [] ops0) cs /\ joined stitch h cs h' r.
Proof. exact (cached_spec stitch los bbox isf isc ist). Qed.
(** If the solids have different names, every adjacent pair is stitched once. *)
Theorem C119_unique_names conn h b cs :
  (forall i j, inside_of h KSolid b i -> inside_of h KSolid b j -> name_in h i = name_in h j -> i = j) ->
  one_per_names (adjacent conn h b) h cs ->
  NoDup cs /\ forall i j, adjacent conn h b i j -> (In (i, j) cs /\ ~ In (j, i) cs) \/ (In (j, i) cs /\ ~ In (i, j) cs).
Proof. exact (unique_pairs conn h b cs). Qed.

(** Two solids whose polygons cross but do not face each other. *)
Definition two_solids : list op :=
  [OpNew KPolygon (str_of "p") 4 []; OpNew KWall (str_of "w") 0 [0]; OpNew KSolid (str_of "s") 0 [1];
   OpNew KPolygon (str_of "q") 4 []; OpNew KWall (str_of "v") 0 [3]; OpNew KSolid (str_of "t") 0 [4];
   OpNew KZone (str_of "z") 0 [2; 5]; OpNew KBuilding (str_of "b") 0 [6]].
Definition yes (_ _ : oid) : bool := true.
Definition no (_ _ : oid) : bool := false.
Definition any_order : list str -> list str := nodup eq_dec.
(** The cache after bdg.get_graph(). *)
Definition seen : cache :=
  match building_graph yes no yes no true false false (run [] two_solids) 7 with
  | Ok g => fst (get_graph any_order (fun _ _ _ _ => g) cache0 tt false LPolygon true false false)
  | Err _ => cache0
  end.
Lemma two_adjacent : adjacent (conn_by yes no yes no true true false) (run [] two_solids) 7 2 5.
Proof.
  assert (S : forall x z, In (x, z) [(str_of "s", 2); (str_of "t", 5)] -> descends (run [] two_solids) 7 [str_of "z"; x] z).
  { intros x z I. apply (desc_child (run [] two_solids) 7 [str_of "z"] 6 (mkObj KZone (str_of "z") (Some 7) [(str_of "s", 2); (str_of "t", 5)] 0)); auto.
    apply (desc_child (run [] two_solids) 7 [] 7 (mkObj KBuilding (str_of "b") None [(str_of "z", 6)] 0) (str_of "z") 6); [constructor|reflexivity|left; auto]. }
  split; [split; [eexists; split; reflexivity|exists [str_of "z"; str_of "s"]; apply S; left; auto]|].
  split; [split; [eexists; split; reflexivity|exists [str_of "z"; str_of "t"]; apply S; right; left; auto]|].
  split; [discriminate|]. exists 0, 3. split; [|split; [|left; split; [reflexivity|right; left; split; reflexivity]]].
  - split; [eexists; split; reflexivity|]. exists [str_of "w"; str_of "p"].
    apply (desc_child _ _ [str_of "w"] 1 (mkObj KWall (str_of "w") (Some 2) [(str_of "p", 0)] 0)); [|reflexivity|left; auto].
    apply (desc_child _ _ [] 2 (mkObj KSolid (str_of "s") (Some 6) [(str_of "w", 1)] 0)); [constructor|reflexivity|left; auto].
  - split; [eexists; split; reflexivity|]. exists [str_of "v"; str_of "q"].
    apply (desc_child _ _ [str_of "v"] 4 (mkObj KWall (str_of "v") (Some 5) [(str_of "q", 3)] 0)); [|reflexivity|left; auto].
    apply (desc_child _ _ [] 5 (mkObj KSolid (str_of "t") (Some 6) [(str_of "v", 4)] 0)); [constructor|reflexivity|left; auto].
Qed.
(** They are not stitched if the graph was looked at before. *)
Theorem C119_crossing_refuted : adjacent (conn_by yes no yes no true true false) (run [] two_solids) 7 2 5 /\
  (forall stitch, stitch_building stitch any_order yes no yes no seen (run [] two_solids) 7 = (seen, (run [] two_solids, Ok tt))) /\
  (forall stitch, (exists e, snd (stitch (run [] two_solids) 2 5) = Err e) -> exists e, snd (snd (stitch_building stitch any_order yes no yes no cache0 (run [] two_solids) 7)) = Err e).
Proof.
  split; [exact two_adjacent|]. split; [intros stitch; reflexivity|]. intros stitch (e & E). exists e. unfold stitch_building, adjacent_solids. cbn [c_graph cache0].
  change (building_graph yes no yes no true true false (run [] two_solids) 7) with (@Ok graph [(str_of "b/z/s/w/p", [str_of "b/z/t/v/q"]); (str_of "b/z/t/v/q", [str_of "b/z/s/w/p"])]). cbv iota beta.
  match goal with |- context [get_graph ?a ?b ?c ?d ?e ?f ?g ?h ?i] => let x := eval vm_compute in (snd (get_graph a b c d e f g h i)) in destruct (get_graph a b c d e f g h i) as (c', r) eqn:Q; assert (R : r = x) by (apply (f_equal snd) in Q; cbn [snd] in Q; rewrite <- Q; reflexivity) end.
  subst r. cbn [snd]. unfold join_solids. cbn [flat_map map app]. cbn [join_edges].
  change (split_on PATH_SEP _) with [str_of "b"; str_of "z"; str_of "s"] at 1. change (split_on PATH_SEP _) with [str_of "b"; str_of "z"; str_of "t"] at 1. cbv iota beta. cbn [existsb].
  change (solid_at _ _ (str_of "z") (str_of "s")) with (@Ok oid 2). change (solid_at _ _ (str_of "z") (str_of "t")) with (@Ok oid 5). cbv iota beta. destruct (stitch (run [] two_solids) 2 5) as (ops, r). cbn [snd] in E. subst r. reflexivity.
Qed.

(** C120: an exception is one of the stitching of some pair. *)
Theorem C120_errors stitch h cs h' e : joined stitch h cs h' (Err e) -> exists g i j ops, In (i, j) cs /\ stitch g i j = (ops, Err e).
Proof. exact (joined_error stitch h cs h' e). Qed.
(** Zones, solids and walls stay where they are, also after an exception. *)
Theorem C120_hierarchy stitch ops b bo cs h' r : (forall h i j, Forall polygon_op (fst (stitch h i j))) ->
  nth_error (run [] ops) b = Some bo -> o_kind bo = KBuilding -> joined stitch (run [] ops) cs h' r ->
  forall names i, List.length names <= 3 -> (descends h' b names i <-> descends (run [] ops) b names i).
Proof. intros P E K J names i. apply (above_descends _ _ b bo names i (run_wf ops [] wf_nil) (joined_above stitch _ cs h' r P J) E K). Qed.

Print Assumptions C119_fresh.
Print Assumptions C119_cached.
Print Assumptions C119_unique_names.
Print Assumptions C119_crossing_refuted.
Print Assumptions C120_errors.
Print Assumptions C120_hierarchy.

(** Stitching replaces both polygons by new ones. *)
Definition renew (h : heap) (i j : oid) : list op * result unit :=
  ([OpNew KPolygon (str_of "p2") 4 []; OpReplacePolygon 1 (str_of "p") [8]], Ok tt).
Example C119_example : set_listing any_order /\ NoDup (flat_map added two_solids) /\
  (exists bo, nth_error (run [] two_solids) 7 = Some bo /\ o_kind bo = KBuilding) /\ c_graph cache0 = [] /\ c_graph seen <> [] /\
  (exists g0, building_graph yes no yes no true false false (run [] two_solids) 7 = Ok g0 /\ c_solid seen = strip_graph any_order g0 2) /\
  fst (snd (stitch_building renew any_order yes no yes no cache0 (run [] two_solids) 7)) = run [] (two_solids ++ fst (renew [] 2 5)).
Proof.
  split; [intros l; split; [apply NoDup_nodup|apply nodup_In]|]. split; [repeat constructor; cbn; intuition discriminate|]. split; [eexists; split; reflexivity|]. split; [reflexivity|]. split; [vm_compute; discriminate|].
  split; [eexists; split; vm_compute; reflexivity|]. vm_compute. reflexivity.
Qed.
Example C120_example : (forall h i j, Forall polygon_op (fst (renew h i j))) /\ joined renew (run [] two_solids) [(2, 5)] (run [] (two_solids ++ fst (renew [] 2 5))) (Ok tt) /\
  joined (fun _ _ _ => ([], Err RuntimeError)) (run [] two_solids) [(2, 5)] (run [] two_solids) (Err RuntimeError).
Proof.
  split; [intros; repeat constructor|]. split.
  - eapply joined_next; [reflexivity|]. rewrite run_app. apply joined_all.
  - apply (joined_stop (fun _ _ _ => ([], Err RuntimeError)) (run [] two_solids) 2 5 [] RuntimeError []). reflexivity.
Qed.
