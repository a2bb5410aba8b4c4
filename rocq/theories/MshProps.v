(** Properties of meshes of solids (C103 to C106). *)
From Coq Require Import Ascii String Reals List Bool Arith Lia Lra Sorted.
From Verif Require Import Prelude TreeModel MeshModel VecModel GeomModel TriModel PolyModel VecProofs MshModel MshSpec MshProofs MshProofs2 MshProofs3 MshProofs4 MshProofs5 MshProofs6 MshProofs7 MshProofs8.
Import ListNotations.

(** ** C103: removing vertices that are not used *)
Theorem C103_purge {A} (vs : list A) els vs' els' : purge_mesh vs els = Ok (vs', els') ->
  selected (used els) vs vs' /\ map (points_of vs') els' = map (points_of vs) els /\ (forall i, i < length vs' -> used els' i).
Proof. exact (@purge_spec A vs els vs' els'). Qed.
Print Assumptions C103_purge.
Example C103_purge_example : purge_mesh (map (fun n => n * n) (seq 0 9)) [[7; 2; 4; 2]; [4; 8; 1; 7]] =
  Ok ([1; 4; 16; 49; 64], [[3; 1; 2; 1]; [2; 4; 0; 3]]).
Proof. reflexivity. Qed.

Theorem C103_purge_ends {A} (vs : list A) els : (forall e1 e2, In e1 els -> In e2 els -> length e1 = length e2) -> exists m, purge_mesh vs els = Ok m.
Proof.
  intros H. destruct (purge_fails vs els) as [E|(_ & e1 & e2 & I1 & I2 & N)]; [exact E|]. exfalso. exact (N (H e1 e2 I1 I2)).
Qed.
Print Assumptions C103_purge_ends.
Theorem C103_purge_ragged {A} (vs : list A) els e1 e2 : In e1 els -> In e2 els -> length e1 <> length e2 -> purge_mesh vs els = Err ValueError.
Proof. exact (@purge_ragged A vs els e1 e2). Qed.
Print Assumptions C103_purge_ragged.
Example C103_purge_ragged_example : purge_mesh [10; 20; 30] [[0; 1]; [2]] = Err ValueError.
Proof. reflexivity. Qed.

Theorem C103_purge_again {A} (vs : list A) els m : purge_mesh vs els = Ok m -> purge_mesh (fst m) (snd m) = Ok m.
Proof. exact (@purge_twice A vs els m). Qed.
Print Assumptions C103_purge_again.
Theorem C103_purge_same {A} (vs : list A) els : (forall e1 e2, In e1 els -> In e2 els -> length e1 = length e2) ->
  (forall i, i < length vs -> used els i) -> purge_mesh vs els = Ok (vs, els).
Proof. intros R. exact (purge_same vs els (proj2 (rectangular_spec els) R)). Qed.
Print Assumptions C103_purge_same.

Theorem C103_volume vs els vs' els' : purge_mesh vs els = Ok (vs', els') -> total_volume vs' els' = total_volume vs els.
Proof. intros E. exact (total_moved _ _ _ _ (proj1 (proj2 (purge_spec _ _ _ _ E)))). Qed.
Print Assumptions C103_volume.
Theorem C103_total vs els v : total_volume vs els = Ok v <-> exists l, Forall2 (has_volume vs) els l /\ v = fold_right Rplus 0%R l.
Proof. exact (total_spec vs els v). Qed.
Print Assumptions C103_total.
Example C103_volume_example : exists v, purge_mesh (V 9 9 9 :: duo) (map (map S) duo_elements) = Ok (duo, duo_elements) /\ total_volume duo duo_elements = Ok v.
Proof.
  assert (T : exists l, mapM (element_volume duo) duo_elements = Ok l) by (apply mapM_some; intros e I; apply volume_total; apply duo_corners; auto).
  destruct T as (l & L). eexists. split; [reflexivity|]. unfold total_volume. rewrite L. reflexivity.
Qed.

(** ** C104: merging the same points *)
Theorem C104_collapse {A} (same : A -> A -> bool) vs els : equivalence same ->
  exists vs' els', collapse_points same vs els = Ok (vs', els') /\ selected (fun i => ~ repeated same vs i) vs vs' /\
    Forall2 (Forall2 (same_point same vs vs')) els els'.
Proof. intros EQ. exact (collapse_spec same EQ vs els). Qed.
Print Assumptions C104_collapse.
Theorem C104_different {A} (same : A -> A -> bool) vs els vs' els' : equivalence same -> collapse_points same vs els = Ok (vs', els') ->
  forall i j p q, i <> j -> nth_error vs' i = Some p -> nth_error vs' j = Some q -> same p q = false.
Proof. intros EQ. exact (collapse_distinct same EQ vs els vs' els'). Qed.
Print Assumptions C104_different.
Theorem C104_same {A} (same : A -> A -> bool) vs els : equivalence same -> (forall i, ~ repeated same vs i) -> collapse_points same vs els = Ok (vs, els).
Proof. intros EQ. exact (collapse_same same EQ vs els). Qed.
Print Assumptions C104_same.
(** Numbers are the same if they have the same remainder by 10. *)
Definition same_digit (a b : nat) : bool := a mod 10 =? b mod 10.
Lemma same_digit_equivalence : equivalence same_digit.
Proof.
  unfold same_digit. split; [|split].
  - intros p. apply Nat.eqb_refl.
  - intros p q. rewrite !Nat.eqb_eq. auto.
  - intros p q r. rewrite !Nat.eqb_eq. congruence.
Qed.
Example C104_collapse_example : equivalence same_digit /\
  collapse_points same_digit [3; 14; 13; 7; 4; 23; 17] [[0; 1; 2]; [2; 4; 6]; [5; 3]] = Ok ([3; 14; 7], [[0; 1; 0]; [0; 1; 2]; [0; 2]]).
Proof. split; [exact same_digit_equivalence|reflexivity]. Qed.

(** ** C105: elements facing each other *)
Theorem C105_neighbors {A} (same : A -> A -> bool) vs els : equivalence same -> all_corners vs els ->
  exists nb, find_neighbors same vs els = Ok nb /\ length nb = length els /\
    forall i row, nth_error nb i = Some row -> facing_elements same vs els i row.
Proof. intros EQ. exact (neighbors_spec same EQ vs els). Qed.
Print Assumptions C105_neighbors.
Example C105_neighbors_example :
  all_corners [10; 11; 12; 13; 14; 15] [[0; 1; 2; 3]; [3; 1; 2; 4]; [5; 4; 1; 3]] /\
  find_neighbors Nat.eqb [10; 11; 12; 13; 14; 15] [[0; 1; 2; 3]; [3; 1; 2; 4]; [5; 4; 1; 3]] = Ok [[1]; [0; 2]; [1]].
Proof. split; [|reflexivity]. intros e [<-|[<-|[<-|[]]]]; eexists; apply four_spec; reflexivity. Qed.
Theorem C105_missing {A} (same : A -> A -> bool) (vs : list A) els : ~ all_corners vs els -> 2 <= length els -> find_neighbors same vs els = Err IndexError.
Proof. exact (neighbors_err same vs els). Qed.
Print Assumptions C105_missing.
Example C105_missing_example : ~ all_corners [1; 2; 3] [[0; 1; 2]; [0; 1; 2; 3]].
Proof. intros H. destruct (H [0; 1; 2; 3]) as (l & L); [right; left; auto|]. apply four_spec in L. discriminate. Qed.

(** The compiled function keeps the first four of each row. *)
Theorem C105_compiled same vs els : equivalence same -> all_corners vs els -> els <> [] ->
  (forall e1 e2, In e1 els -> In e2 els -> length e1 = length e2) -> separated same (1 / 10000000000000) vs -> proper_elements same vs els ->
  exists nb, find_neighbors same vs els = Ok nb /\ find_neighbors_wrap vs els = Ok (map (firstn 4) nb).
Proof. intros EQ. exact (wrap_spec same EQ vs els). Qed.
Print Assumptions C105_compiled.
(** Without elements it fails. *)
Theorem C105_compiled_empty vs : find_neighbors_wrap vs [] = Err TypeError /\ count_neighbors vs [] = Err TypeError.
Proof. split; reflexivity. Qed.
Print Assumptions C105_compiled_empty.
(** Six elements on one face: the last is not a neighbour of the first, but the
    first is one of the last. *)
Theorem C105_compiled_symmetric_refuted : ~ forall same vs els nb, equivalence same -> all_corners vs els -> separated same (1 / 10000000000000) vs ->
  proper_elements same vs els -> find_neighbors_wrap vs els = Ok nb ->
  forall i j r s, nth_error nb i = Some r -> nth_error nb j = Some s -> In i s -> In j r.
Proof.
  intros H. assert (I : In 5 [1; 2; 3; 4]).
  { apply (H exactly fan fan_elements _ exactly_equivalence fan_corners fan_separated fan_proper fan_rows 0 5 _ [0; 1; 2; 3]); [reflexivity|reflexivity|left; auto]. }
  cbn in I. lia.
Qed.
Print Assumptions C105_compiled_symmetric_refuted.
Example C105_compiled_example : equivalence exactly /\ all_corners duo duo_elements /\ find_neighbors_wrap duo duo_elements = Ok [[1]; [0]].
Proof. split; [exact exactly_equivalence|]. split; [exact duo_corners|exact duo_neighbors]. Qed.

(** ** C106: quality of volume meshes *)
Theorem C106_invalid vs els restricted mv : all_corners vs els -> (forall i, i < length vs -> ~ In i restricted -> used els i) ->
  exists l, get_invalid_points vs els restricted mv = Ok l /\ StronglySorted lt l /\
    forall i, In i l <-> i < length vs /\ ~ In i restricted /\ bad_vertex vs els mv i.
Proof. exact (invalid_spec vs els restricted mv). Qed.
Print Assumptions C106_invalid.
Theorem C106_unused vs els restricted mv : all_corners vs els -> (exists i, i < length vs /\ ~ In i restricted /\ ~ used els i) ->
  get_invalid_points vs els restricted mv = Err AssertionError.
Proof. exact (invalid_lost vs els restricted mv). Qed.
Print Assumptions C106_unused.
(** With a least volume of 1, vertex 0 is bad. *)
Example C106_invalid_example : all_corners duo duo_elements /\ (forall i, i < length duo -> ~ In i [1; 2; 3; 4] -> used duo_elements i) /\
  bad_vertex duo duo_elements 1 0 /\ ~ bad_vertex duo duo_elements (minimum_tetra_volume 1) 0.
Proof.
  split; [exact duo_corners|]. split; [|split].
  - intros i Li N. destruct i as [|i]; [exists [0; 1; 2; 3]; split; left; auto|]. exfalso. apply N. cbn in Li. cbn [In]. lia.
  - right. exists [0; 1; 2; 3], (tetrahedron_volume (V 0 0 0) (V 1 0 0) (V 0 1 0) (V 0 0 1)). split; [left; auto|]. split; [left; auto|]. split.
    + apply volume_spec. unfold element_volume. cbn. reflexivity.
    + pose proof (GeomProofs1.volume_bounds (V 0 0 0) (V 1 0 0) (V 0 1 0) (V 0 0 1)) as Vb.
      replace (GeomSpec.det3 (V 0 0 0) (V 1 0 0) (V 0 1 0) (V 0 0 1)) with 1%R in Vb by (unfold GeomSpec.det3, dot, cross, vsub; cbn; ring).
      rewrite Rabs_R1 in Vb. lra.
  - destruct (invalid_spec duo duo_elements [1; 2; 3; 4] (minimum_tetra_volume 1) duo_corners) as (l & L & _ & M).
    + intros i Li N. destruct i as [|i]; [exists [0; 1; 2; 3]; split; left; auto|]. exfalso. apply N. cbn in Li. cbn [In]. lia.
    + pose proof duo_invalid as D. unfold duo, duo_boundary in D. rewrite where_fan in D. change (map fst _) with [1; 2; 3; 4] in D. fold duo in D.
      rewrite L in D. injection D as ->. intros B. apply (proj2 (M 0)). split; [cbn; lia|]. split; auto. cbn. lia.
Qed.

(** The search for elements of no volume finds none. *)
Theorem C106_no_zero vs els l : numbers_where (zero_volume vs) els = Ok l -> l = [].
Proof. intros H. exact (proj1 (zero_none vs els l H)). Qed.
Print Assumptions C106_no_zero.
(** Four points of a plane. *)
Example C106_no_zero_example : exists vs, numbers_where (zero_volume vs) [[0; 1; 2; 3]] = Ok [] /\
  vs = [V 0 0 0; V 1 0 0; V 0 1 0; V 1 1 0] /\ GeomSpec.det3 (V 0 0 0) (V 1 0 0) (V 0 1 0) (V 1 1 0) = 0%R.
Proof.
  exists [V 0 0 0; V 1 0 0; V 0 1 0; V 1 1 0]. split; [|split; [reflexivity|unfold GeomSpec.det3, dot, cross, vsub; cbn; ring]].
  assert (T : exists ns, numbers_where (zero_volume [V 0 0 0; V 1 0 0; V 0 1 0; V 1 1 0]) [[0; 1; 2; 3]] = Ok ns) by (eexists; reflexivity).
  destruct T as (ns & T). rewrite T. f_equal. eapply zero_none; eauto.
Qed.
Theorem C106_least_volume delta : (0 <= delta -> delta^3 / 300 <= minimum_tetra_volume delta <= delta^3 / 300 + 1 / 600000000)%R.
Proof. exact (min_volume_bounds delta). Qed.
Print Assumptions C106_least_volume.

Theorem C106_mesh same delaunay inside max_tries boundary corners delta vs vs' els' :
  tetrahedralize same delaunay inside max_tries boundary corners delta vs = Ok (vs', els') ->
  (exists k ws tets, 1 <= k <= max_tries /\ incl ws vs /\ delaunay k ws = Ok tets /\ all_corners ws tets /\
     forall ps, In ps (map (points_of vs') els') <-> exists e c, In e tets /\ ps = points_of ws e /\ has_centroid ws e c /\ inside c = Ok true) /\
  incl vs' vs /\ (forall i, i < length vs' -> used els' i) /\
  (forall i p, nth_error vs' i = Some p -> existsb (same p) boundary = false -> ~ bad_vertex vs' els' (minimum_tetra_volume delta) i) /\
  (forall p, In p corners -> existsb (same p) vs' = true) /\
  exists nb, find_neighbors_wrap vs' els' = Ok nb /\ forall k row e, nth_error nb k = Some row -> nth_error els' k = Some e ->
    row <> [] /\ (interior_element same boundary vs' e -> length row = 4).
Proof. exact (tetra_spec same delaunay inside max_tries boundary corners delta vs vs' els'). Qed.
Print Assumptions C106_mesh.
Example C106_mesh_example : tetrahedralize exactly (fun _ _ => Ok duo_elements) (fun _ => Ok true) 500 duo_boundary duo 1 duo = Ok (duo, duo_elements) /\
  existsb (exactly (V 0 0 0)) duo_boundary = false.
Proof. split; [exact (duo_mesh 499)|]. exact (isin_fan 0 (seq 1 4)). Qed.
