(** Property theorems C11-C16. *)
From Coq Require Import Ascii String List Arith Bool.
From Verif Require Import Prelude TreeModel TreeSpec TreeProofs TreeProps GraphModel GraphSpec GraphProofs GraphProofs2.
Import ListNotations.

(** C11.  For every building built with each object added once, and arbitrary
    bounding-box and relation predicates: the graph exists, its keys are the
    paths of the polygons that have at least one fellow polygon, and neighbours
    are exactly the polygons connected in one direction or the other. *)
Theorem C11_polygon_graph_is_the_connection_relation :
  forall bbox isf isc ist f o t ops b bo, NoDup (flat_map added ops) ->
  let h := run [] ops in
  nth_error h b = Some bo -> o_kind bo = KBuilding ->
  let conn i j := bbox i j = true /\
     ((f = true /\ isf i j = true) \/ (o = true /\ isc i j = true) \/ (t = true /\ ist i j = true)) in
  exists g, building_graph bbox isf isc ist f o t h b = Ok g /\
    NoDup (map fst g) /\
    (forall k, In k (map fst g) <->
       exists i j, inside_of h KPolygon b i /\ inside_of h KPolygon b j /\ i <> j /\ path h i = Ok k) /\
    (forall k, NoDup (nbrs g k)) /\
    (forall k x, In x (nbrs g k) <->
       exists i j, inside_of h KPolygon b i /\ inside_of h KPolygon b j /\ i <> j /\
         path h i = Ok k /\ path h j = Ok x /\ (conn i j \/ conn j i)).
Proof. exact building_graph_run. Qed.
Print Assumptions C11_polygon_graph_is_the_connection_relation.

Theorem C11_symmetric_and_irreflexive :
  forall bbox isf isc ist f o t ops b bo g, NoDup (flat_map added ops) ->
  nth_error (run [] ops) b = Some bo -> o_kind bo = KBuilding ->
  building_graph bbox isf isc ist f o t (run [] ops) b = Ok g ->
  forall k x, In x (nbrs g k) -> In k (nbrs g x) /\ k <> x.
Proof. exact building_graph_symmetric. Qed.
Print Assumptions C11_symmetric_and_irreflexive.

Example C11_instance :
  building_graph (fun _ _ => true) (fun i j => Nat.eqb i 5 && Nat.eqb j 6) (fun i j => Nat.eqb i 7) (fun _ _ => false)
    true false true demo 0 =
  Ok [(str_of "b/z/s/w1/p", [str_of "b/z/s/w2/p"]); (str_of "b/z/s/w1/q", []); (str_of "b/z/s/w2/p", [str_of "b/z/s/w1/p"])].
Proof. reflexivity. Qed.

(** C12: dropping the last n components. *)
Theorem C12_strip_is_the_quotient :
  forall los g n, set_listing los ->
  NoDup (map fst (strip_graph los g n)) /\
  (forall k, In k (map fst (strip_graph los g n)) <-> exists x, In x (map fst g) /\ k = remove_last x n) /\
  (forall k, NoDup (nbrs (strip_graph los g n) k)) /\
  (forall A B, In B (nbrs (strip_graph los g n) A) <->
     A <> B /\ exists x y, edge g x y /\ A = remove_last x n /\ B = remove_last y n).
Proof. exact strip_graph_spec. Qed.
Print Assumptions C12_strip_is_the_quotient.

Theorem C12_remove_last_takes_the_prefix :
  forall names n, n < length names -> Forall (fun w => validate_name w = Ok w) names ->
  remove_last (join_with PATH_SEP names) n = join_with PATH_SEP (firstn (length names - n) names).
Proof. exact remove_last_prefix. Qed.
Print Assumptions C12_remove_last_takes_the_prefix.

Theorem C12_strip_keeps_symmetry :
  forall los g n, set_listing los -> (forall x y, edge g x y -> edge g y x) ->
  forall A B, In B (nbrs (strip_graph los g n) A) -> In A (nbrs (strip_graph los g n) B).
Proof. exact strip_graph_symmetric. Qed.
Print Assumptions C12_strip_keeps_symmetry.

Example C12_instance :
  set_listing (nodup eq_dec) /\
  strip_graph (nodup eq_dec)
    [(str_of "b/z/s/w1/p", [str_of "b/z/t/w/q"; str_of "b/z/s/w2/p"]); (str_of "b/z/s/w2/p", [str_of "b/z/t/w/q"]);
     (str_of "b/z/t/w/q", [str_of "b/z/s/w1/p"])] 2 =
  [(str_of "b/z/s", [str_of "b/z/t"]); (str_of "b/z/t", [str_of "b/z/s"])].
Proof.
  split; [|reflexivity]. intros l. split; [apply NoDup_nodup|]. intros x. apply nodup_In.
Qed.

(** C13: the cache, over every history of edits and calls.  [gp b f o t] is the
    polygon graph of building value b under the flags. *)
Theorem C13_new_graph_is_current :
  forall los (bdg : Type) (gp : bdg -> bool -> bool -> bool -> graph) b0 cs lv f o t,
  let '(c, b) := history los gp cache0 b0 cs in
  snd (get_graph los gp c b true lv f o t) = fresh los gp b lv f o t.
Proof. exact history_new. Qed.
Print Assumptions C13_new_graph_is_current.

(** Every result is a fresh one for the current building and flags, or (only
    with new=False) a fresh one for the building and flags of the polygon graph
    in the cache; the same graph serves all levels. *)
Theorem C13_every_result_is_some_fresh_graph :
  forall los (bdg : Type) (gp : bdg -> bool -> bool -> bool -> graph) cs b0 new lv f o t,
  let '(c, b) := history los gp cache0 b0 cs in
  snd (get_graph los gp c b new lv f o t) = fresh los gp b lv f o t \/
  (new = false /\ exists b' f' o' t', gp b' f' o' t' <> [] /\ c_graph c = gp b' f' o' t' /\
     snd (get_graph los gp c b new lv f o t) = fresh los gp b' lv f' o' t').
Proof. exact (fun los bdg gp => history_result los gp). Qed.
Print Assumptions C13_every_result_is_some_fresh_graph.

(** A non-empty recomputation is what every later new=False call returns, at
    every level, whatever flags it passes and whatever edits happened. *)
Theorem C13_stale_until_recomputed :
  forall los (bdg : Type) (gp : bdg -> bool -> bool -> bool -> graph) pre b0 c b new lv f o t post,
  history los gp cache0 b0 pre = (c, b) -> (new = true \/ c_graph c = []) -> gp b f o t <> [] ->
  Forall (fun x => match x with CEdit _ => True | CGet n _ _ _ _ => n = false end) post ->
  let '(c', b') := history los gp cache0 b0 (pre ++ CGet new lv f o t :: post) in
  forall lv' f' o' t', snd (get_graph los gp c' b' false lv' f' o' t') = fresh los gp b lv' f o t.
Proof. exact (fun los bdg gp => history_stale los gp). Qed.
Print Assumptions C13_stale_until_recomputed.

Theorem C13_unknown_level_is_ValueError :
  forall los (bdg : Type) (gp : bdg -> bool -> bool -> bool -> graph) c b new f o t,
  snd (get_graph los gp c b new LOther f o t) = Err ValueError.
Proof. exact (fun los bdg gp c b new f o t => eq_refl). Qed.
Print Assumptions C13_unknown_level_is_ValueError.

(** C13, finding: a call with new=False can ignore the flags it was given. *)
Theorem C13_flags_respected_refuted :
  ~ (forall los (bdg : Type) (gp : bdg -> bool -> bool -> bool -> graph) cs b0 lv f o t,
     let '(c, b) := history los gp cache0 b0 cs in
     snd (get_graph los gp c b false lv f o t) = fresh los gp b lv f o t).
Proof. exact flags_ignored. Qed.
Print Assumptions C13_flags_respected_refuted.

(** C14: the solid pairs stitched, for a graph whose nodes are solid paths. *)
Theorem C14_each_name_pair_at_most_once :
  forall g,
  (forall x y, edge g x y -> (exists n, solid_name x n) /\ (exists n, solid_name y n)) ->
  exists cs, stitch_calls g = Ok cs /\
    (forall x y, In (x, y) cs -> edge g x y) /\
    (forall x y n m, edge g x y -> solid_name x n -> solid_name y m ->
       exists x' y' n' m', In (x', y') cs /\ solid_name x' n' /\ solid_name y' m' /\ same_set (n, m) (n', m')) /\
    ForallOrdPairs (fun c d => forall p q, names_of c p -> names_of d q -> ~ same_set p q) cs.
Proof. exact stitch_calls_spec. Qed.
Print Assumptions C14_each_name_pair_at_most_once.

Theorem C14_unique_names_each_pair_once :
  forall g,
  (forall x y, edge g x y -> x <> y /\ (exists n, solid_name x n) /\ (exists n, solid_name y n)) ->
  (forall x y x' y' n, edge g x y -> edge g x' y' ->
     forall u v, In u [x; y] -> In v [x'; y'] -> solid_name u n -> solid_name v n -> u = v) ->
  exists cs, stitch_calls g = Ok cs /\ NoDup cs /\
    (forall x y, In (x, y) cs -> edge g x y /\ ~ In (y, x) cs) /\
    (forall x y, edge g x y -> In (x, y) cs \/ In (y, x) cs).
Proof. exact stitch_unique_names. Qed.
Print Assumptions C14_unique_names_each_pair_once.

(** C14, finding: solid names repeated in two zones make it skip a pair. *)
Theorem C14_all_adjacent_pairs_stitched_refuted :
  ~ (forall g, (forall x y, edge g x y -> x <> y /\ (exists n, solid_name x n) /\ (exists n, solid_name y n)) ->
     exists cs, stitch_calls g = Ok cs /\ (forall x y, edge g x y -> In (x, y) cs \/ In (y, x) cs)).
Proof. exact stitch_repeated_names. Qed.
Print Assumptions C14_all_adjacent_pairs_stitched_refuted.

Example C14_instance :
  stitch_calls [(str_of "b/z/s", [str_of "b/z/t"; str_of "b/y/u"]); (str_of "b/z/t", [str_of "b/z/s"]);
                (str_of "b/y/u", [str_of "b/z/s"])] =
  Ok [(str_of "b/z/s", str_of "b/z/t"); (str_of "b/z/s", str_of "b/y/u")].
Proof. reflexivity. Qed.

(** C15: [ps] are the paths of the building's solids in zone-then-solid order. *)
Theorem C15_first_containing_solid :
  forall int_of inside ops b bo hints, NoDup (flat_map added ops) ->
  let h := run [] ops in
  nth_error h b = Some bo -> o_kind bo = KBuilding ->
  exists ps, mapM (path h) (building_solids h b) = Ok ps /\
  (forall i, In i (building_solids h b) <-> inside_of h KSolid b i) /\
  (forall loc, find_location int_of inside h b hints = Ok loc <->
    exists l1 l2 i, hints ++ ps = l1 ++ loc :: l2 /\ is_solid_at int_of h b loc i /\ inside i = true /\
      Forall (skipped int_of inside h b) l1) /\
  (find_location int_of inside h b hints = Err RuntimeError <->
     Forall (skipped int_of inside h b) hints /\ forall i, inside_of h KSolid b i -> inside i = false) /\
  (find_location int_of inside h b hints = Err TypeError <->
     exists l1 p l2, hints = l1 ++ p :: l2 /\ not_solid_at int_of h b p /\ Forall (skipped int_of inside h b) l1).
Proof. exact find_location_run. Qed.
Print Assumptions C15_first_containing_solid.

Theorem C15_search_order_is_building_order :
  forall ops b bo, NoDup (flat_map added ops) -> nth_error (run [] ops) b = Some bo ->
  building_solids (run [] ops) b =
  flat_map (fun '(_, z) => match nth_error (run [] ops) z with Some zo => map snd (o_children zo) | None => [] end)
           (o_children bo).
Proof. exact building_solids_order. Qed.
Print Assumptions C15_search_order_is_building_order.

Example C15_instance :
  find_location (fun _ => None) (fun i => Nat.eqb i 2) demo 0 [] = Ok (str_of "b/z/s") /\
  find_location (fun _ => None) (fun i => false) demo 0 [str_of "b/z/s"] = Err RuntimeError /\
  find_location (fun _ => None) (fun i => Nat.eqb i 2) demo 0 [str_of "b/z"] = Err TypeError.
Proof. repeat split. Qed.

(** C16: polygons facing a polygon of the same zone. *)
Theorem C16_first_call :
  forall c bid g, dget c bid = None ->
  (forall k v, In (k, v) g -> length v <= 1) ->
  (forall k x, edge g k x -> edge g x k) ->
  (forall k x, edge g k x -> exists z, in_zone k z) ->
  exists s, find_transparent c bid g = (dset c bid s, Ok s) /\ NoDup s /\
    forall x, In x s <-> exists y z, edge g x y /\ in_zone x z /\ in_zone y z.
Proof. exact transparent_first_call. Qed.
Print Assumptions C16_first_call.

Theorem C16_two_facing_polygons_fail :
  forall c bid g, dget c bid = None ->
  (forall k x, edge g k x -> (exists z, in_zone k z) /\ (exists z, in_zone x z)) ->
  (exists k v, In (k, v) g /\ 1 < length v) ->
  find_transparent c bid g = (c, Err AssertionError).
Proof. exact transparent_fails. Qed.
Print Assumptions C16_two_facing_polygons_fail.

Theorem C16_later_calls_repeat_the_answer :
  forall c bid g s calls g',
  find_transparent c bid g = (fst (find_transparent c bid g), Ok s) ->
  snd (find_transparent (ft_run (fst (find_transparent c bid g)) calls) bid g') = Ok s.
Proof. exact find_transparent_stale. Qed.
Print Assumptions C16_later_calls_repeat_the_answer.

Example C16_instance :
  let g := [(str_of "b/z/s/w/p", [str_of "b/z/t/w/q"]); (str_of "b/z/t/w/q", [str_of "b/z/s/w/p"]);
            (str_of "b/y/u/w/p", [str_of "b/z/t/w/r"]); (str_of "b/z/t/w/r", [str_of "b/y/u/w/p"])] in
  snd (find_transparent [] 3 g) = Ok [str_of "b/z/s/w/p"; str_of "b/z/t/w/q"] /\
  snd (find_transparent (fst (find_transparent [] 3 g)) 3 []) = Ok [str_of "b/z/s/w/p"; str_of "b/z/t/w/q"].
Proof. split; reflexivity. Qed.
