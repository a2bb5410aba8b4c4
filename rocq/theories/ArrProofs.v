(** Proofs: polygons and box of the simulation loop. *)
From Coq Require Import Reals ZArith Ascii String List Arith Bool Lia.
From Verif Require Import Prelude TreeModel TreeSpec TreeProofs TreeProofs2 GraphModel GraphSpec GraphProofs MeshModel MeshSpec MeshProofs VecModel GeomModel GeomProofs2 GeomProofs4 TransModel TransProofs1 ArrModel.
Import ListNotations.

Lemma mapM_level {X Y} (f : oid -> result X) (flat : X -> list Y) (g : oid -> list Y) (cs : dict str oid) :
  (forall k c, In (k, c) cs -> exists x, f c = Ok x /\ flat x = g c) -> exists xs, mapM (fun '(_, c) => f c) cs = Ok xs /\ concat (map flat xs) = flat_map g (dvals cs).
Proof.
  induction cs as [|(k, c) cs IH]; intros H; [exists []; split; reflexivity|]. destruct (H k c (or_introl eq_refl)) as (x & Ex & Gx). destruct IH as (xs & Es & Gs); [intros; eapply H; right; eauto|].
  exists (x :: xs). cbn [mapM]. rewrite Ex. cbn [rbind]. rewrite Es. split; [reflexivity|]. cbn [map concat dvals flat_map snd]. rewrite Gx, Gs. reflexivity.
Qed.
Lemma below_level h n i o : nth_error h i = Some o -> map snd (below h (S n) i) = flat_map (fun c => map snd (below h n c)) (dvals (o_children o)).
Proof.
  intros E. cbn [below]. rewrite E. induction (o_children o) as [|(k, c) cs IH]; [reflexivity|]. cbn [flat_map map dvals snd]. rewrite map_app, IH, map_map. f_equal. apply map_ext. intros (ns, j). reflexivity.
Qed.
Lemma concat_concat {A} (l : list (list (list A))) : concat (concat l) = concat (map (@concat A) l).
Proof. induction l as [|x l IH]; [reflexivity|]. cbn [concat map]. rewrite concat_app, IH. reflexivity. Qed.
Lemma concat3 {A} (l : list (list (list (list A)))) : concat (concat (concat l)) = concat (map (fun x => concat (concat x)) l).
Proof. rewrite concat_concat, concat_map, concat_concat, map_map. f_equal. apply map_ext. intros x. symmetry. apply concat_concat. Qed.
Lemma mapM_seq {A} (f : nat -> result A) (l : list A) : (forall k x, nth_error l k = Some x -> f k = Ok x) -> mapM f (seq 0 (length l)) = Ok l.
Proof.
  intros H. assert (G : forall r a, (forall k x, nth_error r k = Some x -> f (a + k)%nat = Ok x) -> mapM f (seq a (length r)) = Ok r); [|exact (G l 0%nat H)].
  clear. intros r. induction r as [|x r IH]; intros a H; [reflexivity|]. cbn [length seq mapM]. rewrite <- (Nat.add_0_r a) at 1. rewrite (H 0%nat x eq_refl). cbn [rbind]. rewrite IH; [reflexivity|]. intros k y E. replace (S a + k)%nat with (a + S k)%nat by lia. apply H. exact E.
Qed.

Section Building.
  Context (h : heap) (W : wf h) (L : linked h) (b : oid) (bo : obj) (Eb : nth_error h b = Some bo) (Kb : o_kind bo = KBuilding).
  Notation inside := (inside_of h KPolygon b).
  Section Points.
    Context {P : Type} (zero : P) (mesh_of : oid -> mesh (P := P)).

    Lemma meshes_ok : exists m, building_meshes mesh_of h b = Ok m /\ all_polys m = map mesh_of (polys_of h b).
    Proof.
      assert (K : forall i o k c, nth_error h i = Some o -> In (k, c) (o_children o) -> exists o', nth_error h c = Some o').
      { intros i o k c E I. destruct (W i o E) as (_ & Hc & _). destruct (Hc k c I) as (o' & E' & _). eauto. }
      assert (Hw : forall w o, nth_error h w = Some o -> exists x, (do ps <- kids h w; Ok (map mesh_of (dvals ps))) = Ok x /\ x = map mesh_of (map snd (below h 1 w))).
      { intros w o E. rewrite (kids_ok h w o E). cbn [rbind]. eexists. split; [reflexivity|]. f_equal. rewrite (below_level h 0 w o E). clear. induction (o_children o) as [|(k, c) cs IH]; [reflexivity|]. cbn. f_equal. exact IH. }
      assert (Fm : forall n i o, nth_error h i = Some o -> flat_map (fun c => map mesh_of (map snd (below h n c))) (dvals (o_children o)) = map mesh_of (map snd (below h (S n) i))).
      { intros n i o E. rewrite (below_level h n i o E), !flat_map_concat_map, concat_map, map_map. reflexivity. }
      assert (Hs : forall s o, nth_error h s = Some o -> exists x, (do ws <- kids h s; mapM (fun '(_, w) => do ps <- kids h w; Ok (map mesh_of (dvals ps))) ws) = Ok x /\ concat x = map mesh_of (map snd (below h 2 s))).
      { intros s o E. rewrite (kids_ok h s o E). cbn [rbind]. destruct (mapM_level (fun w => do ps <- kids h w; Ok (map mesh_of (dvals ps))) (fun x => x) (fun c => map mesh_of (map snd (below h 1 c))) (o_children o)) as (xs & Ex & Gx).
        { intros k c I. destruct (K s o k c E I) as (o' & E'). exact (Hw c o' E'). } exists xs. split; [exact Ex|]. rewrite map_id in Gx. rewrite Gx. apply Fm. exact E. }
      assert (Hz : forall z o, nth_error h z = Some o -> exists x, (do ss <- kids h z; mapM (fun '(_, s) => do ws <- kids h s; mapM (fun '(_, w) => do ps <- kids h w; Ok (map mesh_of (dvals ps))) ws) ss) = Ok x /\ concat (concat x) = map mesh_of (map snd (below h 3 z))).
      { intros z o E. rewrite (kids_ok h z o E). cbn [rbind]. destruct (mapM_level (fun s => do ws <- kids h s; mapM (fun '(_, w) => do ps <- kids h w; Ok (map mesh_of (dvals ps))) ws) (@concat _) (fun c => map mesh_of (map snd (below h 2 c))) (o_children o)) as (xs & Ex & Gx).
        { intros k c I. destruct (K z o k c E I) as (o' & E'). exact (Hs c o' E'). } exists xs. split; [exact Ex|]. rewrite concat_concat, Gx. apply Fm. exact E. }
      unfold building_meshes. rewrite (kids_ok h b bo Eb). cbn [rbind].
      destruct (mapM_level (fun z => do ss <- kids h z; mapM (fun '(_, s) => do ws <- kids h s; mapM (fun '(_, w) => do ps <- kids h w; Ok (map mesh_of (dvals ps))) ws) ss) (fun x => concat (concat x)) (fun c => map mesh_of (map snd (below h 3 c))) (o_children bo)) as (xs & Ex & Gx).
      { intros k c I. destruct (K b bo k c Eb I) as (o' & E'). exact (Hz c o' E'). }
      exists xs. split; [exact Ex|]. unfold all_polys, all_walls, all_solids, polys_of. rewrite <- (Fm 3%nat b bo Eb), <- Gx. exact (concat3 xs).
    Qed.
    Lemma arrays_ok : (forall i, inside i -> valid (mesh_of i) /\ all_used (mesh_of i)) ->
      exists a, building_arrays mesh_of zero h b = Ok a /\ loop_polygons a = Ok (map mesh_of (polys_of h b)) /\ a_points a = concat (map (fun i => fst (mesh_of i)) (polys_of h b)).
    Proof.
      intros V. destruct meshes_ok as (m & Em & Am). unfold building_arrays. rewrite Em. cbn [rbind]. rewrite to_array_spec. eexists. split; [reflexivity|]. unfold loop_polygons, flat_arrays. cbn [a_points a_faces a_polygons a_walls].
      split; [|rewrite Am, map_map; reflexivity].
      destruct (array_faithful zero m) as (a' & Ea & _ & _ & _ & Lw & _). rewrite to_array_spec in Ea. injection Ea as <-. unfold flat_arrays in Lw. cbn [a_walls] in Lw. rewrite Lw, <- Am. apply mapM_seq. intros k p E. apply read_polygon; auto; apply nth_error_In in E; rewrite Am in E; apply in_map_iff in E; destruct E as (i & <- & I); apply V; apply (polys_in h W b bo Eb Kb); exact I.
    Qed.
    Lemma absorption_ok {A} (d : A) : (forall i, inside i -> snd (mesh_of i) <> []) -> exists a, building_arrays mesh_of zero h b = Ok a /\ forall k, (k < length (polys_of h b))%nat -> absorption_read d a k = Some d.
    Proof.
      intros V. destruct meshes_ok as (m & Em & Am). destruct (array_faithful zero m) as (a & Ea & _ & Lf & Lp & _). exists a. unfold building_arrays. rewrite Em. cbn [rbind]. split; [exact Ea|].
      intros k K. unfold absorption_read, surf_absorption. apply nth_error_repeat. rewrite Lp, Lf, Am, map_map. refine (Nat.lt_le_trans _ _ _ K _).
      assert (V' : forall i, In i (polys_of h b) -> snd (mesh_of i) <> []) by (intros i I; apply V, (polys_in h W b bo Eb Kb), I). clear - V'. induction (polys_of h b) as [|i r IH]; [auto|]. cbn [map concat length]. rewrite app_length.
      specialize (IH (fun j J => V' j (or_intror J))). pose proof (V' i (or_introl eq_refl)). destruct (snd (mesh_of i)); [congruence|cbn [length]; lia].
    Qed.
  End Points.
End Building.

Section Geometry.
  Context (h : heap) (W : wf h) (L : linked h) (b : oid) (bo : obj) (Eb : nth_error h b = Some bo) (Kb : o_kind bo = KBuilding).
  Notation inside := (inside_of h KPolygon b).
  Context (mesh_of : oid -> mesh (P := vec)).
  Local Open Scope R_scope.

  Lemma numbers_exist num : exists num', number_polygons h b num = Ok num'.
  Proof. unfold number_polygons. rewrite (iter_polygons_ok h b bo W Eb). eexists. reflexivity. Qed.
  Lemma numbered_at num num' k i : number_polygons h b num = Ok num' -> inside i -> (dget num' i = Some (Z.of_nat k) <-> nth_error (polys_of h b) k = Some i).
  Proof.
    unfold number_polygons. rewrite (iter_polygons_ok h b bo W Eb). cbn [rbind]. intros E I. apply Ok_inj in E. subst num'. pose proof (polys_nodup h W L b bo Eb Kb) as N.
    fold (polys_of h b). apply (polys_in h W b bo Eb Kb) in I. destruct (In_nth_error _ _ I) as (j & J). rewrite (number_from_at _ 0%Z num j i N J). split.
    - intros E. injection E as E. assert (j = k) by lia. subst j. exact J.
    - intros J'. f_equal. assert (j = k). { apply (proj1 (NoDup_nth_error _) N); [apply nth_error_Some; congruence|congruence]. } lia.
  Qed.
  Lemma geometry_ok num : (forall i, inside i -> valid (mesh_of i) /\ all_used (mesh_of i)) -> (exists i, inside i /\ fst (mesh_of i) <> []) ->
    exists num' polys mn mx, number_polygons h b num = Ok num' /\ simulation_geometry mesh_of h b = Ok (polys, (mn, mx)) /\
    (forall k f, nth_error polys k = Some f <-> exists i, inside i /\ dget num' i = Some (Z.of_nat k) /\ f = mesh_of i) /\
    forall c, In c [vx; vy; vz] -> (forall i p, inside i -> In p (fst (mesh_of i)) -> c mn <= c p <= c mx) /\
      (exists i p, inside i /\ In p (fst (mesh_of i)) /\ c p = c mn) /\ (exists i p, inside i /\ In p (fst (mesh_of i)) /\ c p = c mx).
  Proof.
    intros V (i0 & I0 & N0). destruct (numbers h W L b bo Eb Kb num) as (num' & l & En & _). destruct (arrays_ok h W b bo Eb Kb vzero mesh_of V) as (a & Ea & El & Ep).
    assert (Pin : forall p, In p (a_points a) <-> exists i, inside i /\ In p (fst (mesh_of i))).
    { intros p. rewrite Ep, in_concat. split.
      - intros (x & Ix & Ip). apply in_map_iff in Ix. destruct Ix as (i & <- & I). exists i. split; auto. apply (polys_in h W b bo Eb Kb). exact I.
      - intros (i & I & Ip). eexists. split; [|exact Ip]. apply in_map_iff. exists i. split; auto. apply (polys_in h W b bo Eb Kb). exact I. }
    destruct (bbox_spec (a_points a)) as (mn & mx & Eb' & Hb).
    { destruct (fst (mesh_of i0)) as [|p ps] eqn:E; [congruence|]. intros X. assert (I : In p (a_points a)) by (apply Pin; exists i0; rewrite E; split; [auto|left; auto]). rewrite X in I. destruct I. }
    exists num', (map mesh_of (polys_of h b)), mn, mx. split; [exact En|]. split; [unfold simulation_geometry; rewrite Ea; cbn [rbind]; rewrite El; cbn [rbind]; unfold loop_box; rewrite Eb'; reflexivity|]. split.
    - intros k f. rewrite nth_error_map. split.
      + destruct (nth_error (polys_of h b) k) as [i|] eqn:E; [|discriminate]. cbn [option_map]. intros X. injection X as <-. assert (I : inside i) by (apply (polys_in h W b bo Eb Kb); eapply nth_error_In; eauto). exists i. split; auto. split; auto. apply (numbered_at num num' k i En I). exact E.
      + intros (i & I & D & ->). apply (numbered_at num num' k i En I) in D. rewrite D. reflexivity.
    - intros c Ic. destruct (Hb c Ic) as (A & (p & Ip & Cp) & (q & Iq & Cq)). split; [intros i x I Ix; apply A, Pin; eauto|]. apply Pin in Ip, Iq. destruct Ip as (i & Ii & Ip), Iq as (j & Ij & Iq). split; [exists i, p|exists j, q]; auto.
  Qed.
  Lemma geometry_empty : (forall i, inside i -> mesh_of i = ([], [])) -> simulation_geometry mesh_of h b = Err ValueError.
  Proof.
    intros N. destruct (arrays_ok h W b bo Eb Kb vzero mesh_of) as (a & Ea & El & Ep); [intros i I; rewrite (N i I); split; [intros f k X; destruct X|intros k Lk; cbn [fst length] in Lk; lia]|].
    unfold simulation_geometry. rewrite Ea. cbn [rbind]. rewrite El. cbn [rbind]. unfold loop_box. rewrite Ep.
    replace (concat _) with (@nil vec); [reflexivity|]. symmetry. assert (H : forall i, In i (polys_of h b) -> fst (mesh_of i) = []) by (intros i I; apply (polys_in h W b bo Eb Kb) in I; rewrite (N i I); reflexivity).
    clear - H. revert H. generalize (polys_of h b). intros l H. induction l as [|i l IH]; [reflexivity|]. cbn [map concat]. rewrite (H i (or_introl eq_refl)). apply IH. intros j J. apply H. right. exact J.
  Qed.
End Geometry.

Lemma geometry_polys mesh_of h b polys bx a ps : simulation_geometry mesh_of h b = Ok (polys, bx) -> building_arrays mesh_of vzero h b = Ok a -> loop_polygons a = Ok ps -> polys = ps.
Proof. unfold simulation_geometry. intros E A F. rewrite A in E. cbn [rbind] in E. rewrite F in E. cbn [rbind] in E. destruct (loop_box a); cbn [rbind] in E; [|discriminate]. congruence. Qed.
