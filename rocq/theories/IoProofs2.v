(** Proofs about .bim files and nested default dictionaries. *)
From Coq Require Import Ascii String List Arith Bool Lia.
From Verif Require Import Prelude TreeModel TreeProofs TreeProofs2 MeshModel MeshSpec IoModel IoSpec IoProofs.
Import ListNotations.

Lemma unflat3_flat3 {A} (l : list (A * A * A)) : unflat3 (flat3 l) = Ok l.
Proof.
  induction l as [|((a, b), c) l IH]; auto. unfold flat3 in *. cbn [flat_map app unflat3].
  simpl. rewrite IH. auto.
Qed.

Section Bim.
  Context {X : Type}.
  Notation P := (X * X * X)%type.
  Context (coplanar : list P -> bool).

  (** All polygons with their info, in traversal order. *)
  Definition infos (b : building_n P str) : list (einfo * poly P) :=
    flat_map (fun z => flat_map (fun s => flat_map (fun w =>
      map (fun p => (mkInfo (n_name z) (n_uid z) (n_name s) (n_uid s) (n_name w) (n_uid w) (p_name p) (p_uid p), p))
        (n_kids w)) (n_kids s)) (n_kids z)) (n_kids b).

  Definition push (st : bim_state (X := X)) (ep : einfo * poly P) : result (bim_state (X := X)) :=
    let '(n, ms, es) := st in
    Ok (S n, ms ++ [(n, flat3 (fst (p_mesh (snd ep))), flat3 (snd (p_mesh (snd ep))))], es ++ [(n, fst ep)]).

  Fixpoint number {A} (n : nat) (l : list A) : list (nat * A) :=
    match l with [] => [] | x :: l' => (n, x) :: number (S n) l' end.

  Lemma push_fold l : forall n ms es,
    foldM push l (n, ms, es) =
      Ok (n + length l,
          ms ++ map (fun x => (fst x, flat3 (fst (p_mesh (snd (snd x)))), flat3 (snd (p_mesh (snd (snd x)))))) (number n l),
          es ++ map (fun x => (fst x, fst (snd x))) (number n l)).
  Proof.
    induction l as [|ep l IH]; intros n ms es; simpl.
    - rewrite !app_nil_r, Nat.add_0_r. auto.
    - rewrite IH. rewrite <- !app_assoc, Nat.add_succ_comm. auto.
  Qed.

  Lemma write_dotbim_spec b :
    write_dotbim b = Ok (mkBim
      (map (fun x => (fst x, flat3 (fst (p_mesh (snd (snd x)))), flat3 (snd (p_mesh (snd (snd x)))))) (number 0 (infos b)))
      (map (fun x => (fst x, fst (snd x))) (number 0 (infos b)))
      [(str_of "building_name", n_name b); (str_of "building_uid", n_uid b); (str_of "generated_by", TOOL_NAME)]).
  Proof.
    unfold write_dotbim.
    assert (E : foldM (fun st z => foldM (fun st s => foldM (fun st w => foldM (write_bim_poly z s w) (n_kids w) st) (n_kids s) st)
        (n_kids z) st) (n_kids b) (0, [], []) = foldM push (infos b) (0, [], [])).
    { unfold infos. rewrite foldM_flat_map. apply foldM_ext. intros st z.
      rewrite foldM_flat_map. apply foldM_ext. clear st. intros st s.
      rewrite foldM_flat_map. apply foldM_ext. clear st. intros st w.
      rewrite foldM_map. apply foldM_ext. clear st. intros ((n, ms), es) p. reflexivity. }
    rewrite E, push_fold. reflexivity.
  Qed.

  Definition datum (x : nat * (einfo * poly P)) : nat * entry := (fst x, (fst (p_mesh (snd (snd x))), snd (p_mesh (snd (snd x))), Some (fst (snd x)))).
  Definition datum0 (x : nat * (einfo * poly P)) : nat * entry := (fst x, (fst (p_mesh (snd (snd x))), snd (p_mesh (snd (snd x))), None)).

  Lemma number_ge {A} (l : list A) : forall n x, In x (number n l) -> n <= fst x.
  Proof. induction l as [|a l IH]; intros n x I; simpl in I; [destruct I|]. destruct I as [<-|I]; auto. apply IH in I. lia. Qed.

  Lemma load_meshes l : forall n data, (forall k, In k (dkeys data) -> k < n) ->
    foldM load_mesh (map (fun x => (fst x, flat3 (fst (p_mesh (snd (snd x)))), flat3 (snd (p_mesh (snd (snd x)))))) (number n l)) data =
    Ok (data ++ map datum0 (number n l)).
  Proof.
    induction l as [|(e, p) l IH]; intros n data B; cbn [number map foldM].
    - rewrite app_nil_r. auto.
    - cbn [fst snd load_mesh]. rewrite !unflat3_flat3. cbn [rbind]. rewrite dset_new by (intros C; apply B in C; lia).
      rewrite IH.
      + rewrite <- app_assoc. auto.
      + intros k I. unfold dkeys in I. rewrite map_app in I. apply in_app_iff in I. destruct I as [I|[<-|[]]]; [apply B in I; lia|simpl; lia].
  Qed.

  Lemma dset_mid {K V} `{EqDec K} (a b : dict K V) k v w : ~ In k (dkeys a) -> dset (a ++ (k, v) :: b) k w = a ++ (k, w) :: b.
  Proof.
    induction a as [|(k', v') a IH]; simpl; intros N.
    - destruct (eq_dec k k); congruence.
    - destruct (eq_dec k k') as [->|]; [exfalso; auto|]. rewrite IH; auto.
  Qed.

  Lemma dget_mid {K V} `{EqDec K} (a b : dict K V) k v : ~ In k (dkeys a) -> dget (a ++ (k, v) :: b) k = Some v.
  Proof.
    induction a as [|(k', v') a IH]; simpl; intros N.
    - destruct (eq_dec k k); congruence.
    - destruct (eq_dec k k') as [->|]; [exfalso; auto|]. auto.
  Qed.

  Lemma load_elements l : forall n data, (forall k, In k (dkeys data) -> k < n) ->
    foldM load_element (map (fun x => (fst x, fst (snd x))) (number n l)) (data ++ map datum0 (number n l)) =
    Ok (data ++ map datum (number n l)).
  Proof.
    induction l as [|(e, p) l IH]; intros n data B; cbn [number map foldM]; auto.
    cbn [fst snd load_element]. unfold dlookup. unfold datum0 at 1. cbn [fst snd].
    rewrite dget_mid by (intros C; apply B in C; lia). cbn [rbind].
    unfold datum0 at 1. cbn [fst snd].
    rewrite dset_mid by (intros C; apply B in C; lia).
    pose proof (IH (S n) (data ++ [datum (n, (e, p))])) as IH'. rewrite <- !app_assoc in IH'. cbn [app] in IH'.
    apply IH'.
    intros k I. unfold dkeys in I. rewrite map_app in I. apply in_app_iff in I. destruct I as [I|[<-|[]]]; [apply B in I; lia|simpl; lia].
  Qed.

  (** ** The model dictionary *)
  Definition nkey {U} (f : U -> str) {C} (x : node U C) : mkey := MPair (f (n_uid x)) (n_name x).
  Definition key {C} (x : node str C) : mkey := MPair (n_uid x) (n_name x).
  Definition pkey (p : poly P) : mkey := MPair (p_uid p) (p_name p).

  Definition bpoly_ws (p : poly P) : list (list mkey * mval (X := X)) :=
    [([MStr (str_of "vertices")], MVerts (fst (p_mesh p))); ([MStr (str_of "faces")], MFaces (snd (p_mesh p)))].
  Definition bwall_ws (w : wall_n P str) := flat_map (fun p => under (pkey p) (bpoly_ws p)) (n_kids w).
  Definition bsolid_ws (s : solid_n P str) := flat_map (fun w => under (key w) (bwall_ws w)) (n_kids s).
  Definition bzone_ws (z : zone_n P str) := flat_map (fun s => under (key s) (bsolid_ws s)) (n_kids z).
  Definition bbuilding_ws (b : building_n P str) := flat_map (fun z => under (key z) (bzone_ws z)) (n_kids b).

  Definition bpoly_its (p : poly P) : list (mkey * jv mkey mval) :=
    [(MStr (str_of "vertices"), JLeaf (MVerts (fst (p_mesh p)))); (MStr (str_of "faces"), JLeaf (MFaces (snd (p_mesh p))))].
  Definition bwall_its (w : wall_n P str) := map (fun p => (pkey p, JNode (bpoly_its p))) (n_kids w).
  Definition bsolid_its (s : solid_n P str) := map (fun w => (key w, JNode (bwall_its w))) (filter full_wall (n_kids s)).
  Definition bzone_its (z : zone_n P str) := map (fun s => (key s, JNode (bsolid_its s))) (filter full_solid (n_kids z)).
  Definition bbuilding_its (b : building_n P str) := map (fun z => (key z, JNode (bzone_its z))) (filter full_zone (n_kids b)).

  Lemma put_models b : forall d n, 
    foldM (put_model (n_name b)) (map datum (number n (infos b))) d = runw (under (MStr (n_name b)) (bbuilding_ws b)) d.
  Proof.
    intros d n.
    assert (E : forall l n d, foldM (put_model (n_name b)) (map datum (number n l)) d =
      foldM (fun d ep => put_model (n_name b) d (datum (0, ep))) l d).
    { clear. induction l as [|ep l IH]; intros n d; cbn [number map foldM]; auto.
      change (put_model (n_name b) d (datum (n, ep))) with (put_model (n_name b) d (datum (0, ep))).
      destruct (put_model _ d _); cbn [rbind]; auto. }
    rewrite E. unfold infos, bbuilding_ws. rewrite under_flat_map. unfold runw. rewrite !foldM_flat_map.
    apply foldM_ext. clear d. intros d z. unfold bzone_ws. rewrite !under_flat_map, !foldM_flat_map.
    apply foldM_ext. clear d. intros d s. unfold bsolid_ws. rewrite !under_flat_map, !foldM_flat_map.
    apply foldM_ext. clear d. intros d w. unfold bwall_ws. rewrite !under_flat_map, !foldM_flat_map, foldM_map.
    apply foldM_ext. clear d. intros d p. unfold put_model, datum, under, bpoly_ws, key, pkey. cbn [fst snd map foldM app e_zname e_zuid e_sname e_suid e_wname e_wuid e_pname e_puid].
    destruct (set_path _ _ d) as [d1|]; cbn [rbind]; auto. destruct (set_path _ _ d1); auto.
  Qed.

  Lemma NoDup_key {C} (xs : list (node str C)) : NoDup (map n_name xs) -> NoDup (map key xs).
  Proof.
    intros ND. apply (NoDup_map_inv (fun k => match k with MPair _ n => n | MStr s => s end)).
    rewrite map_map. exact ND.
  Qed.
  Lemma NoDup_pkey (xs : list (poly P)) : NoDup (map p_name xs) -> NoDup (map pkey xs).
  Proof.
    intros ND. apply (NoDup_map_inv (fun k => match k with MPair _ n => n | MStr s => s end)).
    rewrite map_map. exact ND.
  Qed.

  Lemma bfull_wall (w : wall_n P str) : (full_wall w = false -> bwall_ws w = []) /\ (full_wall w = true -> bwall_ws w <> []).
  Proof. unfold full_wall, bwall_ws. destruct (n_kids w); simpl; split; auto; try discriminate. Qed.
  Lemma bfull_solid (s : solid_n P str) : (full_solid s = false -> bsolid_ws s = []) /\ (full_solid s = true -> bsolid_ws s <> []).
  Proof. apply full_level. intros. apply bfull_wall. Qed.
  Lemma bfull_zone (s : zone_n P str) : (full_zone s = false -> bzone_ws s = []) /\ (full_zone s = true -> bzone_ws s <> []).
  Proof. apply full_level. intros. apply bfull_solid. Qed.
  Lemma bfull_building (s : building_n P str) : (full_building s = false -> bbuilding_ws s = []) /\ (full_building s = true -> bbuilding_ws s <> []).
  Proof. apply full_level. intros. apply bfull_zone. Qed.

  Lemma bwall_run (w : wall_n P str) : wf_wall coplanar w -> runw (bwall_ws w) (JNode []) = Ok (JNode (bwall_its w)).
  Proof.
    intros ((ND & _) & _). unfold bwall_ws, bwall_its.
    rewrite (runw_groups pkey bpoly_ws bpoly_its (fun _ => true)); auto.
    - f_equal. f_equal. simpl. f_equal. clear. induction (n_kids w); simpl; congruence.
    - apply NoDup_pkey; auto.
    - intros x _ _. split; [discriminate|reflexivity].
    - intros; discriminate.
  Qed.
  Lemma bsolid_run (s : solid_n P str) : wf_solid coplanar s -> runw (bsolid_ws s) (JNode []) = Ok (JNode (bsolid_its s)).
  Proof.
    intros ((ND & _) & F). unfold bsolid_ws, bsolid_its.
    rewrite (runw_groups key bwall_ws bwall_its full_wall); auto.
    - apply NoDup_key; auto.
    - intros w I E. split; [apply bfull_wall; auto|]. apply bwall_run. rewrite Forall_forall in F. apply F; auto.
    - intros w I E. apply bfull_wall; auto.
  Qed.
  Lemma bzone_run (s : zone_n P str) : wf_zone coplanar s -> runw (bzone_ws s) (JNode []) = Ok (JNode (bzone_its s)).
  Proof.
    intros ((ND & _) & F). unfold bzone_ws, bzone_its.
    rewrite (runw_groups key bsolid_ws bsolid_its full_solid); auto.
    - apply NoDup_key; auto.
    - intros w I E. split; [apply bfull_solid; auto|]. apply bsolid_run. rewrite Forall_forall in F. apply F; auto.
    - intros w I E. apply bfull_solid; auto.
  Qed.
  Lemma bbuilding_run (s : building_n P str) : wf_building coplanar s -> runw (bbuilding_ws s) (JNode []) = Ok (JNode (bbuilding_its s)).
  Proof.
    intros (_ & (ND & _) & F). unfold bbuilding_ws, bbuilding_its.
    rewrite (runw_groups key bzone_ws bzone_its full_zone); auto.
    - apply NoDup_key; auto.
    - intros w I E. split; [apply bfull_zone; auto|]. apply bzone_run. rewrite Forall_forall in F. apply F; auto.
    - intros w I E. apply bfull_zone; auto.
  Qed.

  Notation idu := (fun u : str => u).

  Lemma read_bim_wall_ok (w : wall_n P str) : ~ In PATH_SEP (n_name w) -> wf_wall coplanar w ->
    read_bim_wall coplanar (key w, JNode (bwall_its w)) = Ok (prune_wall idu w).
  Proof.
    intros V ((ND & N) & A). unfold read_bim_wall, bwall_its, key. cbn [fst snd unpair rbind entries].
    rewrite (mapM_map_ok (read_bim_poly coplanar) (fun p => (pkey p, JNode (bpoly_its p))) (fun p => p)).
    - cbn [rbind]. rewrite map_id. apply new_node_ok; auto.
    - intros p I. rewrite Forall_forall in N, A. unfold read_bim_poly, bpoly_its, pkey. cbn -[make_polygon].
      apply make_polygon_ok; auto.
  Qed.
  Lemma read_bim_solid_ok (s : solid_n P str) : ~ In PATH_SEP (n_name s) -> wf_solid coplanar s ->
    read_bim_solid coplanar (key s, JNode (bsolid_its s)) = Ok (prune_solid idu s).
  Proof.
    intros V ((ND & N) & A). unfold read_bim_solid, bsolid_its, key. cbn [fst snd unpair rbind entries].
    rewrite (mapM_map_ok (read_bim_wall coplanar) (fun w : wall_n P str => (MPair (n_uid w) (n_name w), JNode (bwall_its w))) (prune_wall idu)).
    - cbn [rbind]. apply new_node_ok; auto. rewrite map_map. simpl. apply NoDup_map_filter; auto.
    - intros p I. apply filter_In in I. destruct I as (I & _). rewrite Forall_forall in N, A. apply read_bim_wall_ok; auto.
  Qed.
  Lemma read_bim_zone_ok (s : zone_n P str) : ~ In PATH_SEP (n_name s) -> wf_zone coplanar s ->
    read_bim_zone coplanar (key s, JNode (bzone_its s)) = Ok (prune_zone idu s).
  Proof.
    intros V ((ND & N) & A). unfold read_bim_zone, bzone_its, key. cbn [fst snd unpair rbind entries].
    rewrite (mapM_map_ok (read_bim_solid coplanar) (fun w : solid_n P str => (MPair (n_uid w) (n_name w), JNode (bsolid_its w))) (prune_solid idu)).
    - cbn [rbind]. apply new_node_ok; auto. rewrite map_map. simpl. apply NoDup_map_filter; auto.
    - intros p I. apply filter_In in I. destruct I as (I & _). rewrite Forall_forall in N, A. apply read_bim_solid_ok; auto.
  Qed.

  Lemma filter_none {A} (f : A -> bool) l : existsb f l = false -> filter f l = [].
  Proof. induction l as [|x l IH]; simpl; auto. destruct (f x); simpl; [discriminate|auto]. Qed.

  Lemma bim_roundtrip (b : building_n P str) : wf_building coplanar b ->
    (do f <- write_dotbim b; read_dotbim coplanar f) = Ok (prune idu b).
  Proof.
    intros W. rewrite write_dotbim_spec. cbn [rbind]. unfold read_dotbim. cbn [f_info f_meshes f_elements].
    change (dget _ (str_of "generated_by")) with (Some TOOL_NAME). cbv iota beta. rewrite eqb_refl. cbn [negb].
    rewrite (load_meshes (infos b) 0 []) by (intros ? []). cbn [rbind app].
    change (dlookup _ (str_of "building_name")) with (Ok (n_name b)). cbn [rbind].
    change (dlookup _ (str_of "building_uid")) with (Ok (n_uid b)). cbn [rbind].
    pose proof (load_elements (infos b) 0 []) as LE. cbn [app] in LE. rewrite LE by (intros ? []). cbn [rbind].
    rewrite put_models, runw_under.
    assert (M : exists m, match bbuilding_ws b with
      | [] => Ok (JNode [])
      | _ :: _ => do c <- runw (bbuilding_ws b) (match dget [] (MStr (n_name b)) with Some c => c | None => JNode [] end);
                  Ok (JNode (dset [] (MStr (n_name b)) c))
      end = Ok m /\ (m = JNode [(MStr (n_name b), JNode (bbuilding_its b))] \/ (m = JNode [] /\ bbuilding_its b = []))).
    { destruct (bbuilding_ws b) as [|w0 ws0] eqn:Eb.
      - exists (JNode []). split; auto. right. split; auto. unfold bbuilding_its. rewrite filter_none; auto.
        destruct (existsb full_zone (n_kids b)) eqn:Ex; auto. exfalso. apply (proj2 (bfull_building b) Ex). auto.
      - rewrite <- Eb. cbn [dget]. rewrite bbuilding_run by auto. cbn [rbind]. eexists. split; [reflexivity|]. left. reflexivity. }
    destruct M as (m & -> & Hm). cbn [rbind]. destruct W as (V & (ND & N) & A). rewrite validate_ok by auto. cbn [rbind].
    assert (T : exists m', touch [MStr (n_name b)] m = Ok m' /\ item m' (MStr (n_name b)) = Ok (JNode (bbuilding_its b))).
    { destruct Hm as [->|(-> & E)].
      - unfold touch. cbn [upd dget]. destruct (eq_dec (MStr (n_name b)) (MStr (n_name b))) as [e|]; [|congruence]. cbn [rbind dset].
        destruct (eq_dec (MStr (n_name b)) (MStr (n_name b))); [|congruence]. eexists. split; [reflexivity|].
        unfold item, dlookup. cbn [dget]. destruct (eq_dec (MStr (n_name b)) (MStr (n_name b))); [auto|congruence].
      - rewrite E. unfold touch. cbn [upd dget rbind dset]. eexists. split; [reflexivity|].
        unfold item, dlookup. cbn [dget]. destruct (eq_dec (MStr (n_name b)) (MStr (n_name b))); [auto|congruence]. }
    destruct T as (m' & -> & I'). cbn [rbind]. rewrite I'. cbn [rbind entries]. unfold bbuilding_its.
    rewrite (fold_add_named (read_bim_zone coplanar) n_name (fun z => (key z, JNode (bzone_its z))) (prune_zone idu)).
    - auto.
    - intros p I. apply filter_In in I. destruct I as (I & _). rewrite Forall_forall in N, A. apply read_bim_zone_ok; auto.
    - simpl. apply NoDup_map_filter; auto.
  Qed.

  Lemma reuid_id (b : building_n P str) : reuid idu b = b.
  Proof.
    destruct b as [bn bu zs]. unfold reuid. simpl. f_equal. rewrite <- map_id. apply map_ext. intros [zn zu ss]. simpl. f_equal.
    rewrite <- map_id. apply map_ext. intros [sn su ws]. simpl. f_equal. rewrite <- map_id. apply map_ext. intros [wn wu ps]. auto.
  Qed.

  Lemma bim_roundtrip_full (b : building_n P str) : wf_building coplanar b -> no_empty b ->
    (do f <- write_dotbim b; read_dotbim coplanar f) = Ok b.
  Proof. intros W N. rewrite bim_roundtrip by auto. rewrite prune_no_empty, reuid_id by auto. auto. Qed.

  Lemma bim_foreign (f : bim (X := X)) :
    (dget (f_info f) (str_of "generated_by") = None -> read_dotbim coplanar f = Err KeyError) /\
    (forall g, dget (f_info f) (str_of "generated_by") = Some g -> g <> str_of "Building3D" -> read_dotbim coplanar f = Err ValueError).
  Proof.
    unfold read_dotbim. split.
    - intros ->. auto.
    - intros g -> N. rewrite eqb_neq by exact N. auto.
  Qed.
End Bim.

(** ** Nested default dictionaries *)
Section Jv.
  Context {K V : Type} `{EqDec K}.

  Lemma touch_find ks : forall d d' : jv K V, touch ks d = Ok d' ->
    find ks d' = Some (match find ks d with Some x => x | None => JNode [] end).
  Proof.
    unfold touch. induction ks as [|k ks IH]; intros d d' E; simpl in *; [inversion E; auto|].
    destruct d as [v|m]; [discriminate|].
    destruct (upd ks _ _) as [c|] eqn:Ec; cbn [rbind] in E; [|discriminate]. inversion E; subst.
    rewrite dget_dset_same. apply IH in Ec. rewrite Ec. destruct (dget m k); auto.
    destruct ks; simpl; auto.
  Qed.

  Lemma set_find ks : forall (d d' : jv K V) v, set_path ks v d = Ok d' -> find ks d' = Some (JLeaf v).
  Proof.
    unfold set_path. induction ks as [|k ks IH]; intros d d' v E; simpl in *; [inversion E; auto|].
    destruct d as [u|m]; [discriminate|].
    destruct (upd ks _ _) as [c|] eqn:Ec; cbn [rbind] in E; [|discriminate]. inversion E; subst.
    rewrite dget_dset_same. eapply IH; eauto.
  Qed.

  (** An access along ks' leaves a stored value at ks alone unless it is an
      assignment to ks or to a prefix of it. *)
  Lemma touch_keeps ks : forall ks' (d d' : jv K V) v, touch ks' d = Ok d' ->
    find ks d = Some (JLeaf v) -> find ks d' = Some (JLeaf v).
  Proof.
    unfold touch. induction ks as [|k ks IH]; intros ks' d d' v E F; simpl in *.
    - inversion F; subst. destruct ks'; simpl in E; [inversion E; auto|discriminate].
    - destruct ks' as [|k' ks']; simpl in E; [inversion E; subst; auto|].
      destruct d as [u|m]; [discriminate|].
      destruct (upd ks' _ _) as [c|] eqn:Ec; cbn [rbind] in E; [|discriminate]. inversion E; subst.
      destruct (eq_dec k k') as [->|N].
      + rewrite dget_dset_same. destruct (dget m k'); [|discriminate]. eapply IH; eauto.
      + rewrite dget_dset_other by auto. auto.
  Qed.

  Lemma set_keeps ks : forall ks' (d d' : jv K V) v v', set_path ks' v' d = Ok d' -> ~ prefix ks' ks ->
    find ks d = Some (JLeaf v) -> find ks d' = Some (JLeaf v).
  Proof.
    unfold set_path. induction ks as [|k ks IH]; intros ks' d d' v v' E NP F; simpl in *.
    - inversion F; subst. destruct ks'; simpl in E; [exfalso; apply NP; exists []; auto|discriminate].
    - destruct ks' as [|k' ks']; simpl in E; [exfalso; apply NP; exists (k :: ks); auto|].
      destruct d as [u|m]; [discriminate|].
      destruct (upd ks' _ _) as [c|] eqn:Ec; cbn [rbind] in E; [|discriminate]. inversion E; subst.
      destruct (eq_dec k k') as [->|N].
      + rewrite dget_dset_same. destruct (dget m k'); [|discriminate]. eapply IH; eauto.
        intros (r & ->). apply NP. exists r. auto.
      + rewrite dget_dset_other by auto. auto.
  Qed.

  Lemma set_ok ks : forall (d : jv K V) v, (forall p u, prefix p ks -> p <> ks -> find p d <> Some (JLeaf u)) ->
    exists d', set_path ks v d = Ok d'.
  Proof.
    unfold set_path. induction ks as [|k ks IH]; intros d v F; simpl; [eauto|].
    destruct d as [u|m].
    - exfalso. apply (F [] u); simpl; auto; [exists (k :: ks); auto|discriminate].
    - destruct (IH (match dget m k with Some c => c | None => JNode [] end) v) as (c & Ec).
      + intros p u (r & Er) N Fp. apply (F (k :: p) u).
        * exists r. simpl. congruence.
        * congruence.
        * simpl. destruct (dget m k); auto. destruct p; simpl in Fp; discriminate.
      + rewrite Ec. cbn [rbind]. eauto.
  Qed.

  Lemma set_type_error ks : forall (d : jv K V) v p u, prefix p ks -> p <> ks -> find p d = Some (JLeaf u) ->
    set_path ks v d = Err TypeError /\ touch ks d = Err TypeError.
  Proof.
    unfold set_path, touch. induction ks as [|k ks IH]; intros d v p u (r & Er) N F.
    - destruct p; [congruence|discriminate].
    - destruct p as [|k' p]; simpl in F.
      + inversion F; subst. auto.
      + inversion Er; subst. destruct d as [|m]; [discriminate|]. cbn [upd]. destruct (dget m k') as [c|] eqn:Ec; [|discriminate].
        destruct (IH c v p u) as (-> & ->); auto; [exists r; auto|congruence].
  Qed.

  Lemma stored_value_survives ops : forall (d d1 : jv K V) ks v,
    set_path ks v d = Ok d1 -> Forall (fun o => match o with JSet ks' _ => ~ prefix ks' ks | JGet _ => True end) ops ->
    find ks (jrun ops d1) = Some (JLeaf v).
  Proof.
    intros d d1 ks v E F. apply set_find in E. clear d. revert d1 E F. unfold jrun.
    induction ops as [|o ops IH]; intros d E F; simpl; auto. inversion F; subst. apply IH; auto.
    unfold japply. destruct o as [ks'|ks' v'].
    - destruct (touch ks' d) as [d'|] eqn:Et; auto. eapply touch_keeps; eauto.
    - destruct (set_path ks' v' d) as [d'|] eqn:Et; auto. eapply set_keeps; eauto.
  Qed.
End Jv.

(** Conversion of trees whose keys are all strings. *)
Fixpoint str_keys {V} (d : jv jkey V) : Prop :=
  match d with
  | JLeaf _ => True
  | JNode m => NoDup (map fst m) /\
      (fix go (l : list (jkey * jv jkey V)) : Prop :=
         match l with [] => True | (k, c) :: l' => (exists s, k = KStr s) /\ str_keys c /\ go l' end) m
  end.

Section Plain.
  Context {V : Type}.

  Fixpoint plain_items (l : list (jkey * jv jkey V)) : list (str * jv str V) :=
    match l with [] => [] | (k, c) :: l' => (print_key k, to_plain c) :: plain_items l' end.

  Lemma to_plain_node m : to_plain (JNode m) =
    JNode (fold_left (fun acc kc => dset acc (fst kc) (snd kc)) (plain_items m) ([] : list (str * jv str V))).
  Proof. reflexivity. Qed.

  Lemma fold_dset_new {K C} `{EqDec K} (l : list (K * C)) : forall acc, NoDup (map fst acc ++ map fst l) ->
    fold_left (fun acc kc => dset acc (fst kc) (snd kc)) l acc = acc ++ l.
  Proof.
    induction l as [|(k, c) l IH]; intros acc ND; simpl; [rewrite app_nil_r; auto|].
    assert (N : ~ In k (dkeys acc)).
    { simpl in ND. apply NoDup_remove_2 in ND. intros C0. apply ND. apply in_app_iff. auto. }
    rewrite dset_new by auto. rewrite IH.
    - rewrite <- app_assoc. auto.
    - rewrite map_app, <- app_assoc. exact ND.
  Qed.

  Lemma find_to_plain ks : forall d : jv jkey V, str_keys d ->
    find ks (to_plain d) = option_map to_plain (find (map KStr ks) d).
  Proof.
    induction ks as [|k ks IH]; intros d S; auto.
    destruct d as [v|m]; auto. rewrite to_plain_node. destruct S as (ND & S).
    rewrite fold_dset_new.
    2:{ simpl. clear IH. induction m as [|(k', c) m IHm]; simpl; [constructor|].
        inversion ND; subst. destruct S as ((s & ->) & _ & S). constructor; auto.
        intros C. apply H1. clear - C S. induction m as [|(k2, c2) m IHm]; simpl in *; auto.
        destruct S as ((s2 & ->) & _ & S). destruct C as [C|C]; simpl in C; [left; congruence|right; auto]. }
    cbn [app find map].
    clear ND. induction m as [|(k', c) m IHm]; auto. destruct S as ((s & ->) & Sc & S).
    cbn [plain_items dget print_key].
    destruct (eq_dec k s) as [->|N].
    - destruct (eq_dec (KStr s) (KStr s)); [|congruence]. auto.
    - destruct (eq_dec (KStr k) (KStr s)); [congruence|]. apply IHm. exact S.
  Qed.

  Lemma str_keys_upd ks : forall f (d d' : jv jkey V), (forall c c', f c = Ok c' -> str_keys c -> str_keys c') ->
    upd (map KStr ks) f d = Ok d' -> str_keys d -> str_keys d'.
  Proof.
    induction ks as [|k ks IH]; intros f d d' Hf E S; simpl in E; [eauto|].
    destruct d as [v|m]; [discriminate|].
    destruct (upd _ _ _) as [c|] eqn:Ec; cbn [rbind] in E; [|discriminate]. inversion E; subst. clear E.
    destruct S as (ND & S).
    assert (Sc : str_keys c).
    { apply (IH _ _ _ Hf Ec). clear - S. destruct (dget m (KStr k)) eqn:Eg; [|simpl; split; [constructor|auto]].
      induction m as [|(k', c') m IHm]; simpl in *; [discriminate|]. destruct S as (_ & Sc & S).
      destruct (eq_dec (KStr k) k'); [inversion Eg; subst; auto|auto]. }
    split.
    - clear - ND. induction m as [|(k', c') m IHm]; simpl; [repeat constructor; auto|].
      inversion ND; subst. destruct (eq_dec (KStr k) k'); simpl; [constructor; auto|]. constructor; auto.
      intros C. assert (G : forall x, In x (map fst (dset m (KStr k) c)) -> x = KStr k \/ In x (map fst m)).
      { clear. induction m as [|(k2, c2) m IHm]; simpl; [intuition|]. intros x I. destruct (eq_dec (KStr k) k2); simpl in I.
        - intuition.
        - destruct I as [I|I]; auto. apply IHm in I. intuition. }
      apply G in C. destruct C as [C|C]; [subst; congruence|auto].
    - clear - S Sc. induction m as [|(k', c') m IHm]; simpl; [repeat split; eauto|].
      destruct S as (E' & Sc' & S). destruct (eq_dec (KStr k) k'); simpl; repeat split; eauto.
    exact (IHm S).
  Qed.

  Definition str_op (o : jop str V) : jop jkey V :=
    match o with JGet ks => JGet (map KStr ks) | JSet ks v => JSet (map KStr ks) v end.

  Lemma str_keys_run (ops : list (jop str V)) : forall d : jv jkey V, str_keys d -> str_keys (jrun (map str_op ops) d).
  Proof.
    unfold jrun. induction ops as [|o ops IH]; intros d S; simpl; auto. apply IH. unfold japply.
    destruct o as [ks|ks v]; simpl.
    - destruct (touch (map KStr ks) d) as [d'|] eqn:E; auto. unfold touch in E. eapply str_keys_upd; eauto.
      intros c c' Ec. inversion Ec; auto.
    - destruct (set_path (map KStr ks) v d) as [d'|] eqn:E; auto. unfold set_path in E. eapply str_keys_upd; eauto.
      intros c c' Ec _. inversion Ec; simpl; auto.
  Qed.

  Lemma conversion_faithful (ops : list (jop str V)) ks :
    find ks (to_plain (jrun (map str_op ops) (JNode []))) =
    option_map to_plain (find (map KStr ks) (jrun (map str_op ops) (JNode []))).
  Proof. apply find_to_plain. apply str_keys_run. simpl. split; [constructor|auto]. Qed.
End Plain.
