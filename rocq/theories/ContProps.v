(** Mesh containers: C107 - C109. *)
From Coq Require Import Ascii String Reals List Bool Arith ZArith Lia Lra.
From Verif Require Import Prelude MeshModel VecModel GeomModel TriModel MshModel MshSpec MshProofs6 MshProofs8
  ContModel ContSpec ContProofs ContProofs2 ContProofs3 ContProofs4 ContProofs5 ContProofs6.
Import ListNotations.
Local Open Scope nat_scope.

(** ** C107: surface meshes *)
Section Props107.
  Context {P : Type} (uid : P -> str) (facing : P -> P -> bool) (triang : nat -> P -> list vec -> result (list vec * list element)).

Theorem C107_generate m fixed m' fixed' : NoDup (dkeys (pm_polys m)) -> pm_generate facing triang m fixed = (m', fixed', None) ->
    exists parts, length parts = length (pm_polys m) /\ (forall k x, nth_error parts k = Some x -> meshed facing triang (pm_polys m) fixed parts k x) /\
      pm_polys m' = pm_polys m /\
      (forall k u p pts vs fs, nth_error (pm_polys m) k = Some (u, p) -> nth_error parts k = Some (pts, vs, fs) -> owns (pm_data m') u vs fs) /\
      owned_once (pm_data m') /\ dkeys (md_vown (pm_data m')) = dkeys (pm_polys m) /\ dkeys (md_eown (pm_data m')) = dkeys (pm_polys m) /\
      Forall2 (has_area (md_vs (pm_data m'))) (md_els (pm_data m')) (md_sizes (pm_data m')) /\
      vertices_per_polygon m' = Ok (combine (dkeys (pm_polys m)) (map (fun x => snd (fst x)) parts)).
  Proof.
    intros N E. destruct (gen_ok facing triang m fixed m' fixed' N E) as (parts & A & B & C & D & F & G & H & I & J & _).
    exists parts. repeat (split; [first [assumption | intros; eapply D; eassumption]|]). exact J.
  Qed.

  (** The caller's lists grow. *)
Theorem C107_fixed_points m fixed m' fixed' : NoDup (dkeys (pm_polys m)) -> pm_generate facing triang m fixed = (m', fixed', None) ->
    exists parts, length parts = length (pm_polys m) /\ (forall k x, nth_error parts k = Some x -> meshed facing triang (pm_polys m) fixed parts k x) /\
      dkeys fixed' = dkeys fixed /\
      (forall k u p pts vs fs, nth_error (pm_polys m) k = Some (u, p) -> nth_error parts k = Some (pts, vs, fs) -> In u (dkeys fixed) -> dget fixed' u = Some pts) /\
      (forall u, ~ In u (dkeys (pm_polys m)) -> dget fixed' u = dget fixed u).
  Proof.
    intros N E. destruct (gen_ok facing triang m fixed m' fixed' N E) as (parts & A & B & C & D & F & G & H & I & J & K & L).
    exists parts. repeat (split; [assumption|]). split; [|exact L]. intros k u p pts vs fs X Y Z. destruct (D _ _ _ _ _ _ X Y) as (_ & W). rewrite W.
    destruct (dget fixed u) eqn:Q; [reflexivity|]. apply dget_None in Q. contradiction.
  Qed.

  (** A polygon that faces one earlier polygon and no other has all vertices of that one. *)
Theorem C107_shared m fixed m' fixed' u v i j p q : NoDup (dkeys (pm_polys m)) -> pm_generate facing triang m fixed = (m', fixed', None) ->
    (forall k r pts vs fs, triang k r pts = Ok (vs, fs) -> incl pts vs) ->
    nth_error (pm_polys m) i = Some (u, p) -> nth_error (pm_polys m) j = Some (v, q) -> i < j -> facing q p = true ->
    (forall k w r, nth_error (pm_polys m) k = Some (w, r) -> k <> j -> facing q r = true -> w = u) ->
    exists d a b, vertices_per_polygon m' = Ok d /\ dget d u = Some a /\ dget d v = Some b /\ incl a b.
  Proof. exact (shares facing triang m fixed m' fixed' u v i j p q). Qed.

  (** What was there before does not matter. *)
Theorem C107_again m1 m2 fixed m' fixed' : pm_polys m1 = pm_polys m2 -> pm_generate facing triang m1 fixed = (m', fixed', None) ->
    pm_generate facing triang m2 fixed = (m', fixed', None).
  Proof. exact (gen_again facing triang m1 m2 fixed m' fixed'). Qed.

Theorem C107_fails m fixed m' fixed' e : NoDup (dkeys (pm_polys m)) -> pm_generate facing triang m fixed = (m', fixed', Some e) ->
    exists parts, length parts <= length (pm_polys m) /\ (forall k x, nth_error parts k = Some x -> meshed facing triang (pm_polys m) fixed parts k x) /\
      pm_polys m' = pm_polys m /\
      (forall k u p pts vs fs, nth_error (pm_polys m) k = Some (u, p) -> nth_error parts k = Some (pts, vs, fs) -> owns (pm_data m') u vs fs) /\
      owned_once (pm_data m') /\
      ((exists u p pts, nth_error (pm_polys m) (length parts) = Some (u, p) /\ handed facing (pm_polys m) fixed parts (length parts) u pts /\
          (triang (length parts) p pts = Err e \/ exists vs fs, triang (length parts) p pts = Ok (vs, fs) /\ rectangular fs = false /\ e = ValueError) /\
          md_sizes (pm_data m') = md_sizes (pm_data m)) \/
       (length parts = length (pm_polys m) /\ e = IndexError /\ exists f, In f (md_els (pm_data m')) /\ forall a, ~ has_area (md_vs (pm_data m')) f a)).
  Proof. exact (gen_err facing triang m fixed m' fixed' e). Qed.

Theorem C107_reinit (size : list vec -> element -> result R) d vs vown els eown :
    (vs <> [] /\ vown <> [] /\ els <> [] /\ eown <> [] ->
       let d' := fst (reinit size d vs vown els eown) in md_vs d' = vs /\ md_vown d' = vown /\ md_els d' = els /\ md_eown d' = eown /\
       (snd (reinit size d vs vown els eown) = None -> Forall2 (fun e a => size vs e = Ok a) els (md_sizes d'))) /\
    (vs = [] \/ vown = [] \/ els = [] \/ eown = [] -> reinit size d vs vown els eown = (MD [] [] [] [] (md_sizes d), None)).
  Proof.
    split.
    - intros (A & B & C & D). destruct vs, vown, els, eown; try congruence. unfold reinit. match goal with |- context [recalc size ?x] => destruct (recalc size x) as [d' err] eqn:R end.
      cbn [fst snd]. unfold recalc in R. cbn [md_vs md_els md_vown md_eown] in R. destruct (collect _ _) as [l0 e0] eqn:CC. injection R as <- <-. cbn [md_vs md_vown md_els md_eown md_sizes].
      repeat (split; [reflexivity|]). intros ->. match type of CC with collect ?f ?l = _ => destruct (proj1 (collect_none f l)) as (r & M); [rewrite CC; reflexivity|] end.
      rewrite (collect_ok _ _ _ M) in CC. injection CC as <-. apply mapM_forall2. exact M.
    - intros H. destruct vs, vown, els, eown; try reflexivity. destruct H as [H|[H|[H|H]]]; discriminate.
  Qed.
End Props107.
Print Assumptions C107_generate.
Print Assumptions C107_fixed_points.
Print Assumptions C107_shared.
Print Assumptions C107_again.
Print Assumptions C107_fails.
Print Assumptions C107_reinit.

(** Polygons 1 and 3 face each other; points are given for polygons 3 and 7. *)
Definition three_flats := flats [(1, 5%Z); (2, 4%Z); (3, (-5)%Z)].
Definition three_points : dict str (list vec) := [(flat_uid (3, 0%Z), [V 7 7 7]); (flat_uid (7, 0%Z), [V 8 8 8])].
Definition three_result := pm_generate flat_facing flat_mesh three_flats three_points.
Example C107_generate_example : NoDup (dkeys (pm_polys three_flats)) /\ snd three_result = None /\
  md_vown (pm_data (fst (fst three_result))) = [(flat_uid (1, 0%Z), [0; 1; 2]); (flat_uid (2, 0%Z), [3; 4; 5]); (flat_uid (3, 0%Z), [6; 7; 8; 9; 10; 11; 12])] /\
  md_els (pm_data (fst (fst three_result))) = [[0; 1; 2]; [3; 4; 5]; [6; 7; 8]] /\
  snd (fst three_result) = [(flat_uid (3, 0%Z), [V 7 7 7; V 0 0 (INR 1); V 1 0 (INR 1); V 0 1 (INR 1)]); (flat_uid (7, 0%Z), [V 8 8 8])].
Proof. split; [repeat constructor; cbn; intuition discriminate|]. repeat split. Qed.
Example C107_shared_example : (forall k r pts vs fs, flat_mesh k r pts = Ok (vs, fs) -> incl pts vs) /\
  nth_error (pm_polys three_flats) 0 = Some (flat_uid (1, 0%Z), (1, 5%Z)) /\ nth_error (pm_polys three_flats) 2 = Some (flat_uid (3, 0%Z), (3, (-5)%Z)) /\
  flat_facing (3, (-5)%Z) (1, 5%Z) = true /\
  (forall k w r, nth_error (pm_polys three_flats) k = Some (w, r) -> k <> 2 -> flat_facing (3, (-5)%Z) r = true -> w = flat_uid (1, 0%Z)).
Proof.
  split; [|split; [reflexivity|split; [reflexivity|split; [reflexivity|]]]].
  - intros k r pts vs fs E. unfold flat_mesh in E. injection E as <- _. intros x I. right. right. right. exact I.
  - intros [|[|[|k]]] w r; cbn [three_flats flats pm_polys tagged map nth_error]; intros E D F.
    + injection E as <- <-. reflexivity.
    + injection E as <- <-. discriminate.
    + congruence.
    + destruct k; discriminate.
Qed.
Example C107_again_example : pm_generate flat_facing flat_mesh (fst (fst three_result)) three_points = three_result /\ md_els (pm_data (fst (fst three_result))) <> [].
Proof. split; [reflexivity|discriminate]. Qed.
Definition old_flats (l : list flat) : polymesh := PM (tagged flat_uid l) (MD [V 0 0 0] [] [[0; 0; 0]] [] [42%R]).
Example C107_fails_example :
  (exists m f, pm_generate flat_facing flat_mesh_bad (old_flats [(1, 5%Z); (9, 4%Z)]) [] = (m, f, Some MeshError) /\ md_els (pm_data m) = [[0; 1; 2]] /\ md_sizes (pm_data m) = [42%R]) /\
  (exists m f, pm_generate flat_facing flat_mesh_bad (old_flats [(1, 5%Z); (8, 4%Z)]) [] = (m, f, Some ValueError)) /\
  (exists m f, pm_generate flat_facing (fun _ _ _ => Ok ([], [[0; 1; 2]])) (old_flats [(1, 5%Z)]) [] = (m, f, Some IndexError)).
Proof. split; [|split]; (eexists; eexists; split; [reflexivity|]) || (eexists; eexists; reflexivity). split; reflexivity. Qed.

(** An exception or reinit leaves the areas of the mesh before. *)
Theorem C107_areas_refuted : ~ (forall (d : mesh_data), length (md_sizes (fst (reinit face_area d [] [] [] []))) = length (md_els (fst (reinit face_area d [] [] [] [])))).
Proof. intros H. specialize (H (MD [] [] [] [] [1%R])). discriminate H. Qed.
Print Assumptions C107_areas_refuted.

(** The caller's lists do not stay as they were. *)
Theorem C107_fixed_points_refuted : ~ (forall (m : @polymesh flat) fixed m' fixed', NoDup (dkeys (pm_polys m)) ->
  pm_generate flat_facing flat_mesh m fixed = (m', fixed', None) -> fixed' = fixed).
Proof.
  intros H. destruct three_result as [[m' f'] e] eqn:E. unfold three_result in E. pose proof C107_generate_example as (N & E1 & _ & _ & E2). unfold three_result in E1, E2. rewrite E in E1, E2. cbn [fst snd] in E1, E2. subst e.
  specialize (H _ _ _ _ N E). rewrite E2 in H. unfold three_points in H. injection H as H. discriminate H.
Qed.
Print Assumptions C107_fixed_points_refuted.

(** A polygon that faces an earlier and a later one does not get the points of the earlier one. *)
Theorem C107_shared_refuted : ~ (forall (m : @polymesh flat) m' fixed' u v i j p q, NoDup (dkeys (pm_polys m)) ->
  pm_generate flat_facing flat_mesh m [] = (m', fixed', None) ->
  nth_error (pm_polys m) i = Some (u, p) -> nth_error (pm_polys m) j = Some (v, q) -> i < j -> flat_facing q p = true ->
  exists d a b, vertices_per_polygon m' = Ok d /\ dget d u = Some a /\ dget d v = Some b /\ incl a b).
Proof.
  intros H. destruct (pm_generate flat_facing flat_mesh (flats [(1, 5%Z); (2, (-5)%Z); (3, 5%Z)]) []) as [[m' f'] e] eqn:E.
  specialize (H (flats [(1, 5%Z); (2, (-5)%Z); (3, 5%Z)]) m' f' (flat_uid (1, 0%Z)) (flat_uid (2, 0%Z)) 0 1 (1, 5%Z) (2, (-5)%Z)).
  assert (N : NoDup (dkeys (pm_polys (flats [(1, 5%Z); (2, (-5)%Z); (3, 5%Z)])))) by (repeat constructor; cbn; intuition discriminate).
  cbv - [IZR INR triangle_area Rplus] in E. injection E as <- <- <-.
  destruct H as (d & a & b & D & A & B & I); [exact N|reflexivity|reflexivity|reflexivity|lia|reflexivity|].
  cbv - [IZR INR triangle_area Rplus] in D. injection D as <-. cbv - [IZR INR] in A, B. injection A as <-. injection B as <-.
  specialize (I _ (or_introl eq_refl)). cbn [In] in I. destruct I as [I|[I|[I|[]]]]; injection I; intros; cbn [INR] in *; lra.
Qed.
Print Assumptions C107_shared_refuted.

(** Adding polygons. *)
Theorem C107_add {P} (uid : P -> str) (m : @polymesh P) p :
  (In (uid p) (dkeys (pm_polys m)) -> pm_add uid m p = Err MeshError) /\
  (~ In (uid p) (dkeys (pm_polys m)) -> pm_add uid m p = Ok (PM (pm_polys m ++ [(uid p, p)]) (pm_data m))).
Proof.
  unfold pm_add. split; intros H.
  - rewrite (proj2 (memb_true _ _) H). reflexivity.
  - rewrite (proj2 (memb_false _ _) H), dset_new by exact H. reflexivity.
Qed.
Print Assumptions C107_add.

(** ** C108: volume meshes *)
Section Props108.
  Context {T : Type} (sname : T -> str) (svolume : T -> R) (tetra : T -> nat -> dict str (list vec) -> result (list vec * list element)).

Theorem C108_generate m bv m' : (forall s, (0 <= svolume s)%R) -> sm_generate sname svolume tetra m bv = (m', None) ->
    exists ps, Forall2 (accepted svolume tetra bv) (dvals (sm_solids m)) ps /\ sm_solids m' = sm_solids m /\
      md_vs (sm_data m') = md_vs (sm_data m) ++ concat (map fst ps) /\
      (exists new, md_els (sm_data m') = md_els (sm_data m) ++ new /\ length new = fold_right plus 0 (map (fun p => length (snd p)) ps)) /\
      (forall ss1 s ss2 ps1 p ps2, dvals (sm_solids m) = ss1 ++ s :: ss2 -> ps = ps1 ++ p :: ps2 -> length ss1 = length ps1 -> ~ In (sname s) (map sname ss2) ->
         owns (sm_data m') (sname s) (fst p) (snd p)) /\
      (sm_data m = md_empty -> NoDup (map sname (dvals (sm_solids m))) -> owned_once (sm_data m')) /\
      Forall2 (has_volume (md_vs (sm_data m'))) (md_els (sm_data m')) (md_sizes (sm_data m')).
  Proof.
    intros HV E. destruct (sm_gen_ok sname svolume tetra m bv m' HV E) as (ps & A & B & D & V). exists ps. split; [exact A|]. split; [exact B|].
    split; [rewrite D; reflexivity|]. split; [|split; [|split; [|exact V]]].
    - exists (shifted (length (md_vs (sm_data m))) ps). split; [rewrite D; reflexivity|]. exact (shifted_length _ ps).
    - intros ss1 s ss2 ps1 p ps2 E1 E2 L N. rewrite D, E1, E2, map_app. cbn [map]. apply owns_sizes. apply assemble_owns; [rewrite map_length; exact L| |exact N].
      pose proof (f2_len _ _ _ A) as L'. rewrite E1, E2, !app_length in L'. cbn [length] in L'. rewrite map_length. unfold piece. lia.
    - intros E0 N. rewrite D, E0. refine (assemble_once _ ps [] N _). rewrite map_length. exact (f2_len _ _ _ A).
  Qed.

  (** The volumes of the elements add up to those of the solids. *)
Theorem C108_volume m bv m' : (forall s, (0 <= svolume s)%R) -> sm_generate sname svolume tetra m bv = (m', None) -> md_els (sm_data m) = [] ->
    (Rabs (sum (md_sizes (sm_data m')) - sum (map svolume (dvals (sm_solids m)))) <= sum (map (fun s => 1 / 100000000 + 1 / 1000000 * Rabs (svolume s)) (dvals (sm_solids m))))%R.
  Proof.
    intros HV E E0. destruct (sm_gen_sizes sname svolume tetra m bv m' [] HV E) as (ls & Z & C); [rewrite E0; constructor|].
    rewrite Z. exact (sum_close svolume _ _ C).
  Qed.

  (** A second generate adds everything again. *)
Theorem C108_twice m bv m' m'' : (forall s, (0 <= svolume s)%R) -> md_els (sm_data m) = [] ->
    sm_generate sname svolume tetra m bv = (m', None) -> sm_generate sname svolume tetra m' bv = (m'', None) ->
    exists more, md_sizes (sm_data m'') = md_sizes (sm_data m') ++ more /\
      (Rabs (sum more - sum (map svolume (dvals (sm_solids m)))) <= sum (map (fun s => 1 / 100000000 + 1 / 1000000 * Rabs (svolume s)) (dvals (sm_solids m))))%R.
  Proof.
    intros HV E0 E1 E2. destruct (sm_gen_ok sname svolume tetra m bv m' HV E1) as (ps & _ & S & _ & V).
    destruct (sm_gen_sizes sname svolume tetra m' bv m'' _ HV E2 V) as (ls & Z & C). exists (concat ls). split; [exact Z|].
    rewrite S in C. exact (sum_close svolume _ _ C).
  Qed.

  (** Meshing a solid fails if ten attempts have a wrong volume or one raises. *)
Theorem C108_fails m bv m' e : (forall s, (0 <= svolume s)%R) -> sm_generate sname svolume tetra m bv = (m', Some e) ->
    Forall (fun el => exists v, has_volume (md_vs (sm_data m)) el v) (md_els (sm_data m)) ->
    exists done s rest ps, dvals (sm_solids m) = done ++ s :: rest /\ Forall2 (accepted svolume tetra bv) done ps /\
      md_vs (sm_data m') = md_vs (sm_data m) ++ concat (map fst ps) /\ md_sizes (sm_data m') = md_sizes (sm_data m) /\
      ((e = MeshError /\ missed svolume tetra bv s 10) \/
       (exists j, j < 10 /\ missed svolume tetra bv s j /\
          (tetra s j bv = Err e \/ exists vs els, tetra s j bv = Ok (vs, els) /\ e = IndexError /\ exists el, In el els /\ forall l, ~ corners4 vs el l)) \/
       (exists p, accepted svolume tetra bv s p /\ rectangular (snd p) = false /\ e = ValueError)).
  Proof.
    intros HV E F. destruct (sm_gen_err sname svolume tetra m bv m' e HV E F) as (done & s & rest & ps & A & B & _ & D & G).
    exists done, s, rest, ps. split; [exact A|]. split; [exact B|]. rewrite D. split; [reflexivity|]. split; [reflexivity|].
    destruct G as [[G|G]|G]; auto.
  Qed.

  (** Copies. *)
Theorem C108_copy_small (m : @solidmesh T) v m' : Forall2 (has_volume (md_vs (sm_data m))) (md_els (sm_data m)) (md_sizes (sm_data m)) -> sm_copy m None (Some v) = Ok m' ->
    let small i := exists x, nth_error (md_sizes (sm_data m)) i = Some x /\ (x < v)%R in
    exists kept, selected small (md_els (sm_data m)) kept /\ selected small (md_sizes (sm_data m)) (md_sizes (sm_data m')) /\
      map (points_of (md_vs (sm_data m'))) (md_els (sm_data m')) = map (points_of (md_vs (sm_data m))) kept /\
      Forall2 (has_volume (md_vs (sm_data m'))) (md_els (sm_data m')) (md_sizes (sm_data m')) /\
      (forall i, i < length (md_vs (sm_data m')) -> used (md_els (sm_data m')) i).
  Proof. exact (copy_small m v m'). Qed.
Theorem C108_copy_ends (m : @solidmesh T) v : (forall e1 e2, In e1 (md_els (sm_data m)) -> In e2 (md_els (sm_data m)) -> length e1 = length e2) ->
    exists m', sm_copy m None (Some v) = Ok m'.
  Proof. exact (copy_total m v). Qed.
  (** A copy of given elements has no volumes. *)
Theorem C108_copy_elements (m : @solidmesh T) els v m' : sm_copy m (Some els) v = Ok m' ->
    map (points_of (md_vs (sm_data m'))) (md_els (sm_data m')) = map (points_of (md_vs (sm_data m))) els /\
    (forall i, i < length (md_vs (sm_data m')) -> used (md_els (sm_data m')) i) /\ md_sizes (sm_data m') = [].
  Proof. exact (copy_elements m els v m'). Qed.
Theorem C108_copy_whole (m : @solidmesh T) : exists m', sm_copy m None None = Ok m' /\ sm_solids m' = sm_solids m /\ md_vs (sm_data m') = md_vs (sm_data m) /\
    md_els (sm_data m') = md_els (sm_data m) /\ md_sizes (sm_data m') = md_sizes (sm_data m) /\ md_vown (sm_data m') = [] /\ md_eown (sm_data m') = [].
  Proof. eexists. split; [reflexivity|]. repeat split. Qed.
End Props108.
Print Assumptions C108_generate.
Print Assumptions C108_volume.
Print Assumptions C108_twice.
Print Assumptions C108_fails.
Print Assumptions C108_copy_small.
Print Assumptions C108_copy_ends.
Print Assumptions C108_copy_elements.
Print Assumptions C108_copy_whole.

Definition two_tents := tents [Tent 1 1 3; Tent 2 2 4].
Lemma tents_generate : sm_generate tname tvolume tent_mesh two_tents [] =
  (SM (sm_solids two_tents) (MD (pyramid 3 ++ pyramid 4) [(tname (Tent 1 1 3), [0; 1; 2; 3]); (tname (Tent 2 2 4), [4; 5; 6; 7])] [[0; 1; 2; 3]; [4; 5; 6; 7]]
     [(tname (Tent 1 1 3), [0]); (tname (Tent 2 2 4), [1])] [pyramid_volume 3; pyramid_volume 4]), None).
Proof. unfold sm_generate. cbn [two_tents tents sm_solids tagged map dvals snd sm_loop]. rewrite tent_try. cbn [add_vertices rectangular forallb]. rewrite tent_try. reflexivity. Qed.
Example C108_generate_example : (forall s, (0 <= tvolume s)%R) /\ NoDup (map tname (dvals (sm_solids two_tents))) /\ sm_data two_tents = md_empty /\
  exists m, sm_generate tname tvolume tent_mesh two_tents [] = (m, None) /\ md_els (sm_data m) = [[0; 1; 2; 3]; [4; 5; 6; 7]].
Proof.
  split; [exact tvolume_pos|]. split; [repeat constructor; cbn; intuition discriminate|]. split; [reflexivity|]. eexists. split; [exact tents_generate|reflexivity].
Qed.
Example C108_fails_example : exists m, sm_generate tname tvolume no_mesh two_tents [] = (m, Some MeshError) /\ md_els (sm_data m) = [].
Proof. unfold sm_generate. cbn [two_tents tents sm_solids tagged map dvals snd sm_loop]. rewrite no_tries. eexists. split; reflexivity. Qed.
Lemma heavier : (pyramid_volume 3 < pyramid_volume 4)%R.
Proof.
  unfold pyramid_volume, tetrahedron_volume. apply Rmult_lt_compat_r; [lra|].
  assert (N : forall p, (norm p ^ 2 = vx p ^ 2 + vy p ^ 2 + vz p ^ 2)%R).
  { intros p. unfold norm, dot. rewrite pow2_sqrt; [ring|]. nra. }
  rewrite !N. cbn [vsub vx vy vz]. assert (EPSILON > 0)%R by (unfold EPSILON; lra). apply sqrt_lt_1; cbn; lra.
Qed.
Example C108_copy_small_example : exists m m', sm_generate tname tvolume tent_mesh two_tents [] = (m, None) /\
  Forall2 (has_volume (md_vs (sm_data m))) (md_els (sm_data m)) (md_sizes (sm_data m)) /\ sm_copy m None (Some (pyramid_volume 4)) = Ok m' /\ md_els (sm_data m') = [[0; 1; 2; 3]].
Proof.
  do 2 eexists. split; [exact tents_generate|]. cbn [sm_data md_vs md_els md_sizes]. split; [apply volumes_spec; reflexivity|].
  unfold sm_copy. cbn [sm_data md_vs md_els md_sizes combine filter snd]. rewrite (proj2 (VecProofs.Rltb_true _ _) heavier).
  rewrite (proj2 (VecProofs.Rltb_false (pyramid_volume 4) (pyramid_volume 4)) ltac:(lra)). split; reflexivity.
Qed.

Theorem C108_twice_refuted : ~ (forall (m m' m'' : @solidmesh tent), sm_data m = md_empty -> sm_generate tname tvolume tent_mesh m [] = (m', None) ->
  sm_generate tname tvolume tent_mesh m' [] = (m'', None) -> length (md_els (sm_data m'')) = length (md_els (sm_data m')) /\ owned_once (sm_data m'')).
Proof.
  intros H. specialize (H two_tents _ (fst (sm_generate tname tvolume tent_mesh (fst (sm_generate tname tvolume tent_mesh two_tents [])) [])) eq_refl tents_generate).
  rewrite tents_generate in H. cbn [fst] in H.
  unfold sm_generate in H. cbn [two_tents tents sm_solids sm_data tagged map dvals snd sm_loop] in H. rewrite tent_try in H. cbn [add_vertices rectangular forallb] in H. rewrite tent_try in H.
  specialize (H eq_refl). destruct H as (H & _). discriminate H.
Qed.
Print Assumptions C108_twice_refuted.
(** Solids with the same name: only the last one owns anything. *)
Theorem C108_names_refuted : ~ (forall (m m' : @solidmesh tent), sm_data m = md_empty -> NoDup (dkeys (sm_solids m)) -> sm_generate tname tvolume tent_mesh m [] = (m', None) ->
  owned_once (sm_data m')).
Proof.
  intros H. specialize (H (tents [Tent 1 5 3; Tent 2 5 4]) (fst (sm_generate tname tvolume tent_mesh (tents [Tent 1 5 3; Tent 2 5 4]) [])) eq_refl).
  unfold sm_generate in H. cbn [tents sm_solids sm_data tagged map dvals snd sm_loop] in H. rewrite tent_try in H. cbn [add_vertices rectangular forallb] in H. rewrite tent_try in H.
  destruct (H ltac:(repeat constructor; cbn; intuition discriminate) eq_refl) as (O & _). discriminate O.
Qed.
Print Assumptions C108_names_refuted.
Theorem C108_copy_elements_refuted : ~ (forall (m m' : @solidmesh tent) els, Forall2 (has_volume (md_vs (sm_data m))) (md_els (sm_data m)) (md_sizes (sm_data m)) ->
  incl els (md_els (sm_data m)) -> sm_copy m (Some els) None = Ok m' -> length (md_sizes (sm_data m')) = length (md_els (sm_data m'))).
Proof.
  intros H. specialize (H (SM [] (MD (pyramid 3) [] [[0; 1; 2; 3]] [] [pyramid_volume 3])) _ [[0; 1; 2; 3]] ltac:(apply volumes_spec; reflexivity) (fun x I => I) eq_refl). discriminate H.
Qed.
Print Assumptions C108_copy_elements_refuted.

(** ** C109: meshes of whole buildings *)
Section Props109.
  Context {P T : Type} (uid : P -> str) (suid sname : T -> str) (svolume : T -> R) (walls : T -> list P).
  Context (facing : P -> P -> bool) (triang : nat -> P -> list vec -> result (list vec * list element)).
  Context (tetra : T -> nat -> dict str (list vec) -> result (list vec * list element)).

Theorem C109_add b : let ss := concat b in
    (NoDup (map uid (flat_map walls ss)) /\ NoDup (map suid ss) ->
       exists m, wm_add_building uid suid walls wm_empty b = (m, None) /\ pm_polys (wm_poly m) = map (fun p => (uid p, p)) (flat_map walls ss) /\
         sm_solids (wm_solid m) = map (fun s => (suid s, s)) ss /\ pm_data (wm_poly m) = md_empty /\ sm_data (wm_solid m) = md_empty) /\
    (~ (NoDup (map uid (flat_map walls ss)) /\ NoDup (map suid ss)) -> snd (wm_add_building uid suid walls wm_empty b) = Some MeshError).
  Proof.
    pose proof (add_building_spec uid suid walls b) as H. cbv zeta in *. destruct H as [(m & E & A & B & C & D & N1 & N2)|(m & E & N & _)].
    - split; [intros _; exists m; auto 6|]. intros H. exfalso. auto.
    - split; [|intros _; rewrite E; reflexivity]. intros (N1 & N2). exfalso. destruct N; contradiction.
  Qed.

  (** What an exception leaves: everything up to the item that was there already. *)
Theorem C109_add_fails b m e : wm_add_building uid suid walls wm_empty b = (m, Some e) ->
    e = MeshError /\ exists ss1 s ss2, concat b = ss1 ++ s :: ss2 /\
      ((sm_solids (wm_solid m) = map (fun s => (suid s, s)) ss1 /\ pm_polys (wm_poly m) = map (fun p => (uid p, p)) (flat_map walls ss1) /\ In (suid s) (map suid ss1)) \/
       exists ps1 p ps2, walls s = ps1 ++ p :: ps2 /\ sm_solids (wm_solid m) = map (fun s => (suid s, s)) (ss1 ++ [s]) /\
         pm_polys (wm_poly m) = map (fun p => (uid p, p)) (flat_map walls ss1 ++ ps1) /\ In (uid p) (map uid (flat_map walls ss1 ++ ps1))).
  Proof.
    intros E. destruct (add_building_spec uid suid walls b) as [(m0 & E0 & _)|(m0 & E0 & _ & H)]; rewrite E in E0; [discriminate|]. injection E0 as <- ->. auto.
  Qed.

Theorem C109_generate b m m' : (forall s, (0 <= svolume s)%R) -> wm_add_building uid suid walls wm_empty b = (m, None) -> wm_generate sname svolume facing triang tetra m true = (m', None) ->
    exists parts ps bv, let polys := map (fun p => (uid p, p)) (flat_map walls (concat b)) in
      (forall k x, nth_error parts k = Some x -> meshed facing triang polys [] parts k x) /\ length parts = length polys /\
      vertices_per_polygon (wm_poly m') = Ok bv /\ bv = combine (map uid (flat_map walls (concat b))) (map (fun x => snd (fst x)) parts) /\
      Forall2 (accepted svolume tetra bv) (concat b) ps /\
      (NoDup (map sname (concat b)) -> owned_once (sm_data (wm_solid m')) /\
         forall i s p, nth_error (concat b) i = Some s -> nth_error ps i = Some p -> owns (sm_data (wm_solid m')) (sname s) (fst p) (snd p)) /\
      Forall2 (has_volume (md_vs (sm_data (wm_solid m')))) (md_els (sm_data (wm_solid m'))) (md_sizes (sm_data (wm_solid m'))) /\
      (Rabs (sum (md_sizes (sm_data (wm_solid m'))) - sum (map svolume (concat b))) <= sum (map (fun s => 1 / 100000000 + 1 / 1000000 * svolume s) (concat b)))%R.
  Proof. exact (whole_spec uid suid sname svolume walls facing triang tetra b m m'). Qed.

  (** Without the flag the volume mesh stays. *)
Theorem C109_surface m m' e : wm_generate sname svolume facing triang tetra m false = (m', e) ->
    wm_solid m' = wm_solid m /\ wm_poly m' = fst (fst (pm_generate facing triang (wm_poly m) [])).
  Proof.
    unfold wm_generate. destruct (pm_generate facing triang (wm_poly m) []) as [[pm fx] [x|]]; [intros E; injection E as <- <-; auto|].
    destruct (vertices_per_polygon pm); intros E; injection E as <- <-; auto.
  Qed.
End Props109.
Print Assumptions C109_add.
Print Assumptions C109_add_fails.
Print Assumptions C109_generate.
Print Assumptions C109_surface.

(** Each tent has one polygon with its number. *)
Definition tent_walls (s : tent) : list flat := [(tent_uid s, Z.of_nat (tent_uid s))].
Definition tent_building : list (list tent) := [[Tent 1 1 3]; []; [Tent 2 2 4]].
Example C109_generate_example : exists m m', wm_add_building flat_uid tuid tent_walls wm_empty tent_building = (m, None) /\
  wm_generate tname tvolume flat_facing flat_mesh tent_mesh m true = (m', None) /\ md_els (sm_data (wm_solid m')) = [[0; 1; 2; 3]; [4; 5; 6; 7]] /\
  md_els (pm_data (wm_poly m')) = [[0; 1; 2]; [3; 4; 5]].
Proof.
  exists (WM (flats [(1, 1%Z); (2, 2%Z)]) two_tents). eexists. split; [reflexivity|]. unfold wm_generate. cbn [wm_poly wm_solid].
  destruct (pm_generate flat_facing flat_mesh (flats [(1, 1%Z); (2, 2%Z)]) []) as [[pm f] e] eqn:E. cbv - [IZR INR triangle_area Rplus] in E. injection E as <- _ <-.
  match goal with |- context [vertices_per_polygon ?x] => assert (B : exists bv, vertices_per_polygon x = Ok bv) by (eexists; reflexivity) end.
  destruct B as (bv & B). unfold flat in *. rewrite B. clear B.
  unfold sm_generate. cbn [two_tents tents sm_solids sm_data tagged map dvals snd sm_loop]. rewrite tent_try. cbn [add_vertices rectangular forallb]. rewrite tent_try.
  split; [reflexivity|]. split; reflexivity.
Qed.
(** Two solids with the same polygon: the second solid stays although adding it failed. *)
Example C109_add_fails_example : exists m, wm_add_building flat_uid tuid (fun _ => [(3, 0%Z); (4, 0%Z)]) wm_empty [[Tent 1 1 3; Tent 2 2 4]] = (m, Some MeshError) /\
  length (sm_solids (wm_solid m)) = 2 /\ length (pm_polys (wm_poly m)) = 2.
Proof. eexists. split; [reflexivity|]. split; reflexivity. Qed.
