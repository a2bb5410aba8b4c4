(** PolyMesh: the mesh that generate leaves. *)
From Coq Require Import Ascii String Reals List Bool Arith Lia.
From Verif Require Import Prelude MeshModel VecModel GeomModel TriModel TriProofs MshModel MshSpec MshProofs6 ContModel ContSpec ContProofs ContProofs2.
Import ListNotations.
Local Open Scope nat_scope.

Lemma areas_spec vs fs r : mapM (face_area vs) fs = Ok r <-> Forall2 (has_area vs) fs r.
Proof.
  rewrite mapM_forall2. split; intros F; (induction F; constructor; auto); apply face_area_ok; assumption.
Qed.
Lemma mapM_at_seq (a b c : list vec) : mapM (at_index (a ++ b ++ c)) (seq (length a) (length b)) = Ok b.
Proof.
  apply mapM_forall2. pose proof (nth_app_seq a b c) as E. revert E. generalize (seq (length a) (length b)) as ns. generalize (a ++ b ++ c) as l. clear.
  intros l ns. revert b. induction ns as [|n ns IH]; intros [|x b]; cbn [map]; try discriminate; intros E; constructor.
  - apply at_index_ok. congruence.
  - apply IH. congruence.
Qed.
Lemma combine_nth {X Y} (a : list X) (b : list Y) k x y : nth_error a k = Some x -> nth_error b k = Some y -> nth_error (combine a b) k = Some (x, y).
Proof. revert b k. induction a as [|z a IH]; intros [|w b] [|k]; cbn; intros E F; try discriminate; [congruence|]. apply IH; assumption. Qed.

Section G.
  Context {P : Type} (facing : P -> P -> bool) (triang : nat -> P -> list vec -> result (list vec * list element)).

  (** get_vertices_per_polygon gives back the parts. *)
  Lemma per_polygon polys us ps sz sz' : dkeys polys = us -> NoDup us -> length us = length ps ->
    vertices_per_polygon (@PM P polys (MD (md_vs (assemble (MD [] [] [] [] sz) us ps)) (md_vown (assemble (MD [] [] [] [] sz) us ps))
       (md_els (assemble (MD [] [] [] [] sz) us ps)) (md_eown (assemble (MD [] [] [] [] sz) us ps)) sz')) = Ok (combine us (map fst ps)).
  Proof.
    intros K N L. unfold vertices_per_polygon. cbn [pm_data pm_polys md_vs md_vown]. rewrite K, assemble_fresh by assumption. cbn [md_vs md_vown]. clear K polys.
    set (F := fun (d : dict str (list vec)) (u : str) => do own <- dlookup (combine us (ranges 0 (vlens ps))) u; do l <- mapM (at_index (concat (map fst ps))) own; Ok (dset d u l)).
    assert (G : forall us2 ps2 us1 ps1, us = us1 ++ us2 -> ps = ps1 ++ ps2 -> length us1 = length ps1 -> foldM F us2 (combine us1 (map fst ps1)) = Ok (combine us (map fst ps))).
    { induction us2 as [|u us2 IH]; intros ps2 us1 ps1 EU EP L1.
      - assert (ps2 = []). { subst. rewrite !app_length in L. destruct ps2; [reflexivity|]. cbn [length] in L. lia. } subst. rewrite !app_nil_r. reflexivity.
      - destruct ps2 as [|p ps2]. { exfalso. subst. rewrite !app_length in L. cbn [length] in L. lia. }
        assert (NU : ~ In u us1) by (rewrite EU in N; apply NoDup_remove_2 in N; intros I; apply N; apply in_or_app; left; exact I).
        cbn [foldM]. unfold F at 1.
        assert (D : dget (combine us (ranges 0 (vlens ps))) u = Some (seq (total (vlens ps1)) (length (fst p)))).
        { rewrite EU, EP. unfold vlens. rewrite map_app, ranges_app. cbn [map ranges]. rewrite combine_app by (rewrite ranges_length, map_length; exact L1).
          rewrite dget_app. rewrite dget_combine_none by exact NU. cbn [combine dget]. destruct (eq_dec u u); [reflexivity|congruence]. }
        unfold dlookup. rewrite D. cbn [rbind].
        replace (concat (map fst ps)) with (concat (map fst ps1) ++ fst p ++ concat (map fst ps2)) by (rewrite EP, map_app, concat_app; reflexivity).
        rewrite <- concat_length_total, mapM_at_seq. cbn [rbind].
        rewrite dset_new by (unfold dkeys; rewrite map_fst_combine by (rewrite map_length; exact L1); exact NU).
        replace (combine us1 (map fst ps1) ++ [(u, fst p)]) with (combine (us1 ++ [u]) (map fst (ps1 ++ [p]))) by (rewrite map_app, combine_app by (rewrite map_length; exact L1); reflexivity).
        apply (IH ps2); [rewrite EU|rewrite EP|rewrite !app_length; cbn [length]; lia]; rewrite <- app_assoc; reflexivity. }
    exact (G us ps [] [] eq_refl eq_refl eq_refl).
  Qed.

  Definition piece_of (parts : list part) : list piece := map part_piece parts.

  Lemma data_owns (polys : dict str P) parts d0 : NoDup (dkeys polys) -> length parts <= length polys ->
    forall k u p pts vs fs, nth_error polys k = Some (u, p) -> nth_error parts k = Some (pts, vs, fs) ->
    owns (assemble d0 (firstn (length parts) (dkeys polys)) (map part_piece parts)) u vs fs.
  Proof.
    intros N L k u p pts vs fs K X.
    assert (KL : k < length parts) by (apply nth_error_Some; congruence).
    destruct (@split_nth part parts k (pts, vs, fs) X) as (a & b & EP & LA). apply key_nth in K.
    assert (E : nth_error (firstn (length parts) (dkeys polys)) k = Some u) by (rewrite nth_error_firstn_lt by exact KL; exact K).
    destruct (split_nth _ _ _ E) as (ua & ub & EU & LU). rewrite EU.
    assert (N' : NoDup (ua ++ u :: ub)). { rewrite <- EU. rewrite <- (firstn_skipn (length parts) (dkeys polys)) in N. apply nodup_left in N. exact N. }
    assert (LL : length (ua ++ u :: ub) = length parts). { rewrite <- EU, firstn_length. unfold dkeys. rewrite map_length. lia. }
    rewrite EP, map_app. cbn [map part_piece fst snd].
    apply (assemble_owns d0 ua ub (map part_piece a) (map part_piece b) u (vs, fs)).
    - rewrite map_length. lia.
    - rewrite map_length. rewrite EP, !app_length in LL. cbn [length] in LL. lia.
    - intros I. apply NoDup_remove_2 in N'. apply N'. apply in_or_app. right. exact I.
  Qed.

  Lemma owns_sizes d u vs fs r : owns d u vs fs -> owns (MD (md_vs d) (md_vown d) (md_els d) (md_eown d) r) u vs fs.
  Proof. exact (fun H => H). Qed.

  Lemma fixed_after f0 (polys : dict str P) parts f k u p pts vs fs : NoDup (dkeys polys) -> extended f0 (dkeys polys) (map part_pts parts) f ->
    length parts = length polys ->
    nth_error polys k = Some (u, p) -> nth_error parts k = Some (pts, vs, fs) -> dget f u = match dget f0 u with Some _ => Some pts | None => None end.
  Proof.
    intros N (_ & H) L K X. rewrite H. destruct (dget f0 u); [|reflexivity].
    rewrite (proj2 (dget_combine (dkeys polys) (map part_pts parts) u pts N ltac:(unfold dkeys; rewrite !map_length; lia))); [reflexivity|].
    exists k. split; [eapply key_nth; exact K|]. rewrite nth_error_map, X. reflexivity.
  Qed.

  (** A successful run. *)
  Lemma gen_ok m fixed m' fixed' : NoDup (dkeys (pm_polys m)) -> pm_generate facing triang m fixed = (m', fixed', None) ->
    exists parts, length parts = length (pm_polys m) /\ (forall k x, nth_error parts k = Some x -> meshed facing triang (pm_polys m) fixed parts k x) /\
      pm_polys m' = pm_polys m /\
      (forall k u p pts vs fs, nth_error (pm_polys m) k = Some (u, p) -> nth_error parts k = Some (pts, vs, fs) ->
         owns (pm_data m') u vs fs /\ dget fixed' u = match dget fixed u with Some _ => Some pts | None => None end) /\
      owned_once (pm_data m') /\ dkeys (md_vown (pm_data m')) = dkeys (pm_polys m) /\ dkeys (md_eown (pm_data m')) = dkeys (pm_polys m) /\
      Forall2 (has_area (md_vs (pm_data m'))) (md_els (pm_data m')) (md_sizes (pm_data m')) /\
      vertices_per_polygon m' = Ok (combine (dkeys (pm_polys m)) (map part_vs parts)) /\
      dkeys fixed' = dkeys fixed /\
      (forall u, ~ In u (dkeys (pm_polys m)) -> dget fixed' u = dget fixed u).
  Proof.
    intros N E. unfold pm_generate in E.
    destruct (pm_loop triang (matching_pairs facing (pm_polys m)) 0 (pm_polys m) fixed [] (md_reset (pm_data m))) as [[f d] e] eqn:PL.
    destruct e as [e|]; [discriminate|]. destruct (recalc face_area d) as [d' e'] eqn:RC. injection E as <- <- ->.
    set (polys := pm_polys m) in *. set (d0 := md_reset (pm_data m)) in *.
    destruct (loop_spec facing triang polys fixed d0 N polys [] [] fixed eq_refl eq_refl) with (fixed' := f) (d := d) (e := @None pyerr) as (parts & M & ED & LE & LP & X).
    - intros [|k] x C; discriminate.
    - apply extended_nil.
    - cbn [dkeys map combine length]. rewrite assemble_nil. exact PL.
    - apply recalc_none in RC. destruct RC as (r & MR & ->). exists parts. split; [exact LP|]. split; [exact M|]. split; [reflexivity|].
      assert (LK : length (dkeys polys) = length (map part_piece parts)) by (unfold dkeys; rewrite !map_length; lia).
      assert (FK : firstn (length parts) (dkeys polys) = dkeys polys). { apply firstn_all2. unfold dkeys. rewrite map_length. lia. }
      cbn [pm_data pm_polys]. split; [|split; [|split; [|split; [|split; [|split]]]]].
      + intros k u p pts vs fs K XK. split; [apply owns_sizes; rewrite ED; eapply data_owns; eauto|].
        eapply fixed_after; eauto.
      + rewrite ED, FK. exact (assemble_once (dkeys polys) (map part_piece parts) (md_sizes d0) N LK).
      + rewrite ED, FK. unfold d0, md_reset. rewrite assemble_fresh by assumption. cbn [md_vown]. unfold dkeys at 1. apply map_fst_combine.
        rewrite ranges_length. unfold vlens. rewrite map_length. exact LK.
      + rewrite ED, FK. unfold d0, md_reset. rewrite assemble_fresh by assumption. cbn [md_eown]. unfold dkeys at 1. apply map_fst_combine.
        rewrite ranges_length. unfold elens. rewrite map_length. exact LK.
      + cbn [md_vs md_els md_sizes]. apply areas_spec. exact MR.
      + rewrite ED, FK. unfold d0, md_reset. rewrite (per_polygon polys (dkeys polys) (map part_piece parts) (md_sizes (pm_data m)) r eq_refl N LK).
        rewrite map_map. reflexivity.
      + destruct X as (XK & XG). split; [exact XK|]. intros u NI. rewrite XG, dget_combine_none by exact NI. destruct (dget fixed u); reflexivity.
  Qed.

  (** A failing run. *)
  Lemma gen_err m fixed m' fixed' e : NoDup (dkeys (pm_polys m)) -> pm_generate facing triang m fixed = (m', fixed', Some e) ->
    exists parts, length parts <= length (pm_polys m) /\ (forall k x, nth_error parts k = Some x -> meshed facing triang (pm_polys m) fixed parts k x) /\
      pm_polys m' = pm_polys m /\
      (forall k u p pts vs fs, nth_error (pm_polys m) k = Some (u, p) -> nth_error parts k = Some (pts, vs, fs) -> owns (pm_data m') u vs fs) /\
      owned_once (pm_data m') /\
      ((exists u p pts, nth_error (pm_polys m) (length parts) = Some (u, p) /\ handed facing (pm_polys m) fixed parts (length parts) u pts /\
          (triang (length parts) p pts = Err e \/ exists vs fs, triang (length parts) p pts = Ok (vs, fs) /\ rectangular fs = false /\ e = ValueError) /\
          md_sizes (pm_data m') = md_sizes (pm_data m)) \/
       (length parts = length (pm_polys m) /\ e = IndexError /\ exists f, In f (md_els (pm_data m')) /\ forall a, ~ has_area (md_vs (pm_data m')) f a)).
  Proof.
    intros N E. unfold pm_generate in E.
    destruct (pm_loop triang (matching_pairs facing (pm_polys m)) 0 (pm_polys m) fixed [] (md_reset (pm_data m))) as [[f d] e0] eqn:PL.
    set (polys := pm_polys m) in *. set (d0 := md_reset (pm_data m)) in *.
    destruct (loop_spec facing triang polys fixed d0 N polys [] [] fixed eq_refl eq_refl) with (fixed' := f) (d := d) (e := e0) as (parts & M & ED & LE & X).
    - intros [|k] x C; discriminate.
    - apply extended_nil.
    - cbn [dkeys map combine length]. rewrite assemble_nil. exact PL.
    - assert (LK : length (firstn (length parts) (dkeys polys)) = length (map part_piece parts)) by (rewrite firstn_length; unfold dkeys; rewrite !map_length; lia).
      assert (NK : NoDup (firstn (length parts) (dkeys polys))). { rewrite <- (firstn_skipn (length parts) (dkeys polys)) in N. apply nodup_left in N. exact N. }
      destruct e0 as [e0|].
      + injection E as <- <- ->. destruct X as (us & ptss & (u & p & pts & K & HD & _ & _ & T) & _).
        exists parts. split; [exact LE|]. split; [exact M|]. split; [reflexivity|]. cbn [pm_data]. split; [|split].
        * intros k u' p' pts' vs fs K' XK. rewrite ED. eapply data_owns; eauto.
        * rewrite ED. apply assemble_once; assumption.
        * left. exists u, p, pts. split; [exact K|]. split; [exact HD|]. split; [exact T|]. rewrite ED. reflexivity.
      + destruct X as (LP & _). unfold recalc in E. destruct (collect (face_area (md_vs d)) (md_els d)) as [l e1] eqn:C. injection E as <- <- ->.
        exists parts. split; [exact LE|]. split; [exact M|]. split; [reflexivity|]. cbn [pm_data]. split; [|split].
        * intros k u' p' pts' vs fs K' XK. apply owns_sizes. rewrite ED. eapply data_owns; eauto.
        * rewrite ED. exact (assemble_once _ _ _ NK LK).
        * right. split; [exact LP|]. destruct (collect_err (face_area (md_vs d)) (md_els d) e) as (l1 & x & l2 & EL & _ & FX); [rewrite C; reflexivity|].
          split; [eapply face_area_err; exact FX|]. exists x. cbn [md_els md_vs]. split; [rewrite EL; apply in_or_app; right; left; reflexivity|].
          intros a HA. apply face_area_ok in HA. congruence.
  Qed.

  (** generate starts anew. *)
  Lemma gen_again m1 m2 fixed m' fixed' : pm_polys m1 = pm_polys m2 -> pm_generate facing triang m1 fixed = (m', fixed', None) ->
    pm_generate facing triang m2 fixed = (m', fixed', None).
  Proof.
    assert (L : forall pairs polys k fixed done d sz fx d' e, pm_loop triang pairs k polys fixed done d = (fx, d', e) ->
      pm_loop triang pairs k polys fixed done (MD (md_vs d) (md_vown d) (md_els d) (md_eown d) sz) = (fx, MD (md_vs d') (md_vown d') (md_els d') (md_eown d') sz, e)).
    { induction polys as [|[u p] r IH]; intros k fx0 done d sz fx d' e; cbn [pm_loop].
      - intros E. injection E as <- <- <-. reflexivity.
      - destruct (triang _ _ _) as [[vs fs]|e0]; [|intros E; injection E as <- <- <-; reflexivity].
        unfold add_vertices. destruct (rectangular fs); [|intros E; injection E as <- <- <-; reflexivity]. intros E.
        apply (IH _ _ _ _ sz) in E. exact E. }
    intros EP E. unfold pm_generate in *. rewrite <- EP.
    destruct (pm_loop triang (matching_pairs facing (pm_polys m1)) 0 (pm_polys m1) fixed [] (md_reset (pm_data m1))) as [[f d] e] eqn:PL.
    apply (L _ _ _ _ _ _ (md_sizes (pm_data m2))) in PL. unfold md_reset in PL. cbn [md_vs md_vown md_els md_eown] in PL. unfold md_reset. rewrite PL.
    destruct e as [e|]; [discriminate|]. exact E.
  Qed.

  (** Two polygons that face each other and nothing else share the vertices. *)
  Lemma partner_unique polys u v w : NoDup (dkeys polys) -> partner facing polys u v -> partner facing polys u w -> v = w.
  Proof.
    intros N A B. pose proof A as (p & _ & _ & _ & I & _). apply (match_spec facing polys u p _ N I) in A. apply (match_spec facing polys u p _ N I) in B. congruence.
  Qed.

  Lemma shares m fixed m' fixed' u v i j p q : NoDup (dkeys (pm_polys m)) -> pm_generate facing triang m fixed = (m', fixed', None) ->
    (forall k r pts vs fs, triang k r pts = Ok (vs, fs) -> incl pts vs) ->
    nth_error (pm_polys m) i = Some (u, p) -> nth_error (pm_polys m) j = Some (v, q) -> i < j -> facing q p = true ->
    (forall k w r, nth_error (pm_polys m) k = Some (w, r) -> k <> j -> facing q r = true -> w = u) ->
    exists d a b, vertices_per_polygon m' = Ok d /\ dget d u = Some a /\ dget d v = Some b /\ incl a b.
  Proof.
    intros N E KEEP KI KJ IJ F ONLY. destruct (gen_ok _ _ _ _ N E) as (parts & LP & M & _ & _ & _ & _ & _ & _ & VP & _).
    assert (LK : length (dkeys (pm_polys m)) = length (map part_vs parts)) by (unfold dkeys; rewrite !map_length; lia).
    assert (G : forall k u0 p0, nth_error (pm_polys m) k = Some (u0, p0) -> exists x, nth_error parts k = Some x).
    { intros k u0 p0 K. destruct (nth_error parts k) eqn:X; [eauto|]. apply nth_error_None in X. assert (k < length (pm_polys m)) by (apply nth_error_Some; congruence). lia. }
    destruct (G _ _ _ KI) as ([[ptsi vsi] fsi] & XI). destruct (G _ _ _ KJ) as (x & XJ).
    destruct (M _ _ XJ) as (v' & q' & ptsj & vsj & fsj & -> & KJ' & HD & T). rewrite KJ in KJ'. injection KJ' as <- <-.
    exists (combine (dkeys (pm_polys m)) (map part_vs parts)), vsi, vsj. split; [exact VP|]. split; [|split].
    - apply dget_combine; auto. exists i. split; [eapply key_nth; exact KI|]. rewrite nth_error_map, XI. reflexivity.
    - apply dget_combine; auto. exists j. split; [eapply key_nth; exact KJ|]. rewrite nth_error_map, XJ. reflexivity.
    - assert (UV : u <> v). { intros ->. apply key_nth in KI, KJ. pose proof (proj1 (NoDup_nth_error (dkeys (pm_polys m))) N i j) as H. rewrite KI, KJ in H. specialize (H ltac:(apply nth_error_Some; congruence) eq_refl). lia. }
      assert (PT : partner facing (pm_polys m) v u).
      { destruct (split_nth _ _ _ KI) as (l1 & l2 & EP & L1). exists q, l1, p, l2. split; [eapply nth_error_In; exact KJ|]. split; [exact EP|]. split; [exact UV|]. split; [exact F|].
        intros w r I NW. destruct (facing q r) eqn:FR; [|reflexivity]. exfalso.
        apply In_nth_error in I. destruct I as (n & I).
        assert (KK : nth_error (pm_polys m) (S (i + n)) = Some (w, r)). { rewrite EP, nth_error_app2 by lia. replace (S (i + n) - length l1) with (S n) by lia. exact I. }
        assert (S (i + n) <> j). { intros C. rewrite C, KJ in KK. injection KK as -> ->. congruence. }
        pose proof (ONLY _ _ _ KK H FR) as ->. apply key_nth in KI, KK. pose proof (proj1 (NoDup_nth_error (dkeys (pm_polys m))) N i (S (i + n))) as H2. rewrite KI, KK in H2. specialize (H2 ltac:(apply nth_error_Some; congruence) eq_refl). lia. }
      destruct HD as (more & -> & [(w & j' & r & pts' & fs' & PW & _ & KJ' & XJ')|(NO & _)]).
      + assert (w = u) by (eapply partner_unique; eauto). subst w.
        assert (j' = i). { apply key_nth in KI, KJ'. symmetry. apply (proj1 (NoDup_nth_error (dkeys (pm_polys m))) N i j'); [apply nth_error_Some; congruence|congruence]. }
        subst j'. rewrite XI in XJ'. injection XJ' as _ <- _. apply KEEP in T. intros y Y. apply T. apply in_or_app. right. exact Y.
      + specialize (NO _ _ _ PT KI). lia.
  Qed.
End G.

