(** Proofs: what is read from files is well formed. *)
From Coq Require Import Ascii String List Arith Bool Lia.
From Verif Require Import Prelude TreeModel MeshModel MeshSpec IoModel IoSpec TreeProofs IoProofs IoProofs2 WildProofs4.
Import ListNotations.

Lemma foldM_inv {X S} (P : S -> Prop) (f : S -> X -> result S) l : (forall s x s', In x l -> P s -> f s x = Ok s' -> P s') -> forall s s', P s -> foldM f l s = Ok s' -> P s'.
Proof.
  induction l as [|x l IH]; intros H s s' Ps E; cbn [foldM] in E; [inversion E; subst; auto|]. destruct (f s x) as [t|] eqn:F; [|discriminate]. cbn [rbind] in E.
  apply (IH ltac:(intros; eapply H; eauto; right; auto) t s'); auto. apply (H s x); auto. left; auto.
Qed.
Lemma mapM_all {X Y} (P : Y -> Prop) (f : X -> result Y) l ys : (forall x y, In x l -> f x = Ok y -> P y) -> mapM f l = Ok ys -> Forall P ys.
Proof.
  revert ys. induction l as [|x l IH]; intros ys H E; cbn [mapM] in E; [inversion E; constructor|]. destruct (f x) as [y|] eqn:F; [|discriminate]. cbn [rbind] in E. destruct (mapM f l) as [zs|] eqn:M; [|discriminate]. cbn [rbind] in E. inversion E; subst.
  constructor; [apply (H x); auto; left; auto|]. apply IH; auto. intros; eapply H; eauto. right; auto.
Qed.
Section Wf.
  Context {P : Type} (coplanar : list P -> bool).
  (** Children that can be added one by one. *)
  Definition good_kids {A} (name : A -> str) (Q : A -> Prop) (xs : list A) : Prop := names_ok name xs /\ Forall Q xs.
  Lemma good_nil {A} (name : A -> str) Q : good_kids name Q [].
  Proof. split; [split|]; constructor. Qed.
  Lemma good_add {A} (name : A -> str) (Q : A -> Prop) xs x ys : ~ In PATH_SEP (name x) -> Q x -> good_kids name Q xs -> add_named name xs x = Ok ys -> good_kids name Q ys.
  Proof.
    unfold add_named. destruct (memb (name x) (map name xs)) eqn:M; [discriminate|]. apply memb_false in M. intros N Qx ((D & F) & G) E. inversion E; subst. split; [split|].
    - rewrite map_app. cbn [map]. apply (Permutation.Permutation_NoDup (Permutation.Permutation_cons_append _ _)). constructor; auto.
    - apply Forall_app. auto.
    - apply Forall_app. auto.
  Qed.
  Lemma new_node_ok {U C} (name_of : C -> str) (Q : C -> Prop) name (uid : U) kids n : new_node name_of name uid kids = Ok n -> (forall c, In c kids -> ~ In PATH_SEP (name_of c) /\ Q c) ->
    n_name n = name /\ ~ In PATH_SEP name /\ n_uid n = uid /\ good_kids name_of Q (n_kids n).
  Proof.
    unfold new_node. intros H A. destruct (validate_name name) as [nm|] eqn:V; [|discriminate]. cbn [rbind] in H. destruct (foldM (add_named name_of) kids []) as [ks|] eqn:K; [|discriminate]. cbn [rbind] in H. inversion H; subst. cbn [n_name n_uid n_kids].
    apply validate_name_ok in V. destruct V as (-> & V). repeat (split; auto); apply (foldM_inv (good_kids name_of Q) (add_named name_of) kids) in K; try apply K; try apply good_nil; intros s x s' I G E; apply A in I; apply (good_add name_of Q s x); tauto.
  Qed.
  Lemma polygon_made name uid pts tri p : make_polygon coplanar name uid pts tri = Ok p -> p = mkPoly P name uid (pts, tri) /\ ~ In PATH_SEP name /\ accepted coplanar (pts, tri).
  Proof.
    unfold make_polygon. destruct (coplanar pts) eqn:C; [|discriminate]. cbn [negb]. destruct (Nat.ltb_spec (length pts) 3) as [L|L]; [discriminate|]. destruct (validate_name name) as [nm|] eqn:V; [|discriminate]. cbn [rbind]. apply validate_name_ok in V. destruct V as (-> & V).
    destruct (Nat.eqb_spec (length tri) 0) as [T|T]; [discriminate|]. intros E. inversion E; subst. repeat (split; auto). cbn [snd]. intros ->. apply T. auto.
  Qed.
  Lemma b3d_poly_ok pname v p : read_b3d_poly coplanar pname v = Ok p -> ~ In PATH_SEP (p_name p) /\ accepted coplanar (p_mesh p).
  Proof.
    unfold read_b3d_poly. intros H. repeat match type of H with (do _ <- ?e; _) = _ => destruct e as [?|]; [cbn [rbind] in H|discriminate] end. apply polygon_made in H. destruct H as (-> & A & B). auto.
  Qed.
  Lemma b3d_wall_ok wname v w : read_b3d_wall coplanar wname v = Ok w -> ~ In PATH_SEP (n_name w) /\ wf_wall coplanar w.
  Proof.
    unfold read_b3d_wall. destruct (validate_name wname) as [nm|] eqn:V; [|discriminate]. cbn [rbind]. destruct (entries v) as [ps|]; [|discriminate]. cbn [rbind]. destruct (foldM _ ps []) as [ks|] eqn:K; [|discriminate]. cbn [rbind]. intros E. inversion E; subst. cbn [n_name].
    apply validate_name_ok in V. destruct V as (-> & V). split; auto. unfold wf_wall. cbn [n_kids]. change (good_kids p_name (fun p => accepted coplanar (p_mesh p)) ks). revert K. apply foldM_inv; [|apply good_nil].
    intros s x s' I G H. destruct (read_b3d_poly coplanar (fst x) (snd x)) as [p|] eqn:R; [|discriminate]. cbn [rbind] in H. apply b3d_poly_ok in R. apply (good_add _ _ s p); tauto.
  Qed.
  Lemma b3d_solid_ok sname v s : read_b3d_solid coplanar sname v = Ok s -> ~ In PATH_SEP (n_name s) /\ wf_solid coplanar s.
  Proof.
    unfold read_b3d_solid. destruct (entries v) as [ps|]; [|discriminate]. cbn [rbind]. destruct (mapM _ ps) as [ks|] eqn:K; [|discriminate]. cbn [rbind]. intros E.
    apply (mapM_all (fun w => ~ In PATH_SEP (n_name w) /\ wf_wall coplanar w)) in K; [|intros x y _; apply b3d_wall_ok]. rewrite Forall_forall in K.
    apply (new_node_ok n_name (wf_wall coplanar)) in E; auto. destruct E as (En & A & _ & B). split; [|exact B]. intros C. apply A. rewrite <- En. exact C.
  Qed.
  Lemma b3d_zone_ok zname v z : read_b3d_zone coplanar zname v = Ok z -> ~ In PATH_SEP (n_name z) /\ wf_zone coplanar z.
  Proof.
    unfold read_b3d_zone. destruct (validate_name zname) as [nm|] eqn:V; [|discriminate]. cbn [rbind]. destruct (entries v) as [ps|]; [|discriminate]. cbn [rbind]. destruct (foldM _ ps []) as [ks|] eqn:K; [|discriminate]. cbn [rbind]. intros E. inversion E; subst. cbn [n_name].
    apply validate_name_ok in V. destruct V as (-> & V). split; auto. unfold wf_zone. cbn [n_kids]. change (good_kids n_name (wf_solid coplanar) ks). revert K. apply foldM_inv; [|apply good_nil].
    intros s x s' I G H. destruct (read_b3d_solid coplanar (fst x) (snd x)) as [p|] eqn:R; [|discriminate]. cbn [rbind] in H. apply b3d_solid_ok in R. apply (good_add _ _ s p); tauto.
  Qed.
  Lemma b3d_reads_wf d b : read_b3d coplanar d = Ok b -> wf_building coplanar b.
  Proof.
    unfold read_b3d. intros H. do 3 match type of H with (do _ <- ?e; _) = _ => destruct e as [?|]; [cbn [rbind] in H|discriminate] end. destruct (validate_name _) as [nm|] eqn:V; [|discriminate]. cbn [rbind] in H. do 2 match type of H with (do _ <- ?e; _) = _ => destruct e as [?|]; [cbn [rbind] in H|discriminate] end.
    match type of H with (do _ <- ?e; _) = _ => destruct e as [ks|] eqn:K; [cbn [rbind] in H|discriminate] end. inversion H; subst. apply validate_name_ok in V. destruct V as (-> & V). split; [exact V|]. cbn [n_kids]. change (good_kids n_name (wf_zone coplanar) ks). revert K. apply foldM_inv; [|apply good_nil].
    intros s x s' I G E. destruct (read_b3d_zone coplanar (fst x) (snd x)) as [p|] eqn:R; [|discriminate]. cbn [rbind] in E. apply b3d_zone_ok in R. apply (good_add _ _ s p); tauto.
  Qed.
End Wf.
Section BimWf.
  Context {X : Type}.
  Notation P := (X * X * X)%type.
  Context (coplanar : list P -> bool).
  Lemma bim_poly_ok kv p : read_bim_poly coplanar kv = Ok p -> ~ In PATH_SEP (p_name p) /\ accepted coplanar (p_mesh p).
  Proof.
    unfold read_bim_poly. intros H. repeat match type of H with (do _ <- ?e; _) = _ => destruct e as [?|]; [cbn [rbind] in H|discriminate] end. apply polygon_made in H. destruct H as (-> & A & B). auto.
  Qed.
  Lemma bim_wall_ok kv w : read_bim_wall coplanar kv = Ok w -> ~ In PATH_SEP (n_name w) /\ wf_wall coplanar w.
  Proof.
    unfold read_bim_wall. destruct (unpair (fst kv)) as [un|]; [|discriminate]. cbn [rbind]. destruct (entries (snd kv)) as [ps|]; [|discriminate]. cbn [rbind]. destruct (mapM _ ps) as [ks|] eqn:K; [|discriminate]. cbn [rbind]. intros E.
    apply (mapM_all (fun p => ~ In PATH_SEP (p_name p) /\ accepted coplanar (p_mesh p))) in K; [|intros x y _; apply bim_poly_ok]. rewrite Forall_forall in K.
    apply (new_node_ok p_name (fun p => accepted coplanar (p_mesh p))) in E; auto. destruct E as (En & A & _ & B). split; [|exact B]. intros C. apply A. rewrite <- En. exact C.
  Qed.
  Lemma bim_solid_ok kv s : read_bim_solid coplanar kv = Ok s -> ~ In PATH_SEP (n_name s) /\ wf_solid coplanar s.
  Proof.
    unfold read_bim_solid. destruct (unpair (fst kv)) as [un|]; [|discriminate]. cbn [rbind]. destruct (entries (snd kv)) as [ps|]; [|discriminate]. cbn [rbind]. destruct (mapM _ ps) as [ks|] eqn:K; [|discriminate]. cbn [rbind]. intros E.
    apply (mapM_all (fun w => ~ In PATH_SEP (n_name w) /\ wf_wall coplanar w)) in K; [|intros x y _; apply bim_wall_ok]. rewrite Forall_forall in K.
    apply (new_node_ok n_name (wf_wall coplanar)) in E; auto. destruct E as (En & A & _ & B). split; [|exact B]. intros C. apply A. rewrite <- En. exact C.
  Qed.
  Lemma bim_zone_ok kv z : read_bim_zone coplanar kv = Ok z -> ~ In PATH_SEP (n_name z) /\ wf_zone coplanar z.
  Proof.
    unfold read_bim_zone. destruct (unpair (fst kv)) as [un|]; [|discriminate]. cbn [rbind]. destruct (entries (snd kv)) as [ps|]; [|discriminate]. cbn [rbind]. destruct (mapM _ ps) as [ks|] eqn:K; [|discriminate]. cbn [rbind]. intros E.
    apply (mapM_all (fun w => ~ In PATH_SEP (n_name w) /\ wf_solid coplanar w)) in K; [|intros x y _; apply bim_solid_ok]. rewrite Forall_forall in K.
    apply (new_node_ok n_name (wf_solid coplanar)) in E; auto. destruct E as (En & A & _ & B). split; [|exact B]. intros C. apply A. rewrite <- En. exact C.
  Qed.
  Lemma load_mesh_keys ms : forall (d d' : dict nat (entry (X := X))), foldM load_mesh ms d = Ok d' -> (forall k e, In (k, e) d -> snd e = None) ->
    (forall k, In k (dkeys d') <-> In k (dkeys d) \/ In k (map (fun m => fst (fst m)) ms)) /\ (forall k e, In (k, e) d' -> snd e = None).
  Proof.
    induction ms as [|((mid, co), ix) ms IH]; intros d d' H N; cbn [foldM] in H.
    - inversion H; subst. split; [intros k; cbn [map In]; tauto|auto].
    - unfold load_mesh in H at 1. destruct (unflat3 co) as [v|]; [|discriminate]. cbn [rbind] in H. destruct (unflat3 ix) as [f|]; [|discriminate]. cbn [rbind] in H.
      apply IH in H; [|intros k e I; apply WildProofs4.dset_in in I; destruct I as [I|I]; [inversion I; auto|eauto]]. destruct H as (A & B). split; auto. intros k. rewrite A, dkeys_dset. cbn [map In fst]. intuition congruence.
  Qed.
  Lemma load_element_keys es : forall (d d' : dict nat (entry (X := X))) seen, foldM load_element es d = Ok d' -> (forall k e i, In (k, e) d -> snd e = Some i -> In (k, i) seen) ->
    (forall k, In k (dkeys d') <-> In k (dkeys d)) /\ (forall k e i, In (k, e) d' -> snd e = Some i -> In (k, i) (seen ++ es)) /\ (forall k i, In (k, i) es -> In k (dkeys d)).
  Proof.
    induction es as [|(mid, info) es IH]; intros d d' seen H N; cbn [foldM] in H.
    - inversion H; subst. rewrite app_nil_r. split; [tauto|]. split; [auto|intros k i []].
    - unfold load_element in H at 1. destruct (dlookup d mid) as [((v, f), o)|] eqn:D; [|discriminate]. cbn [rbind] in H. unfold dlookup in D. destruct (dget d mid) as [y|] eqn:G; [|discriminate]. apply dget_Some_key in G.
      apply (IH _ _ (seen ++ [(mid, info)])) in H.
      + destruct H as (A & B & C). split; [intros k; rewrite A, dkeys_dset; intuition congruence|]. split; [rewrite <- app_assoc in B; exact B|]. intros k i [E|I]; [inversion E; subst; auto|]. apply C in I. apply dkeys_dset in I. destruct I as [->|I]; auto.
      + intros k e i I S. apply WildProofs4.dset_in in I. apply in_app_iff. destruct I as [I|I]; [inversion I; subst; cbn [snd] in S; inversion S; subst; right; left; auto|left; eapply N; eauto].
  Qed.
  Lemma put_model_all (name : str) data : forall m m', foldM (put_model (X := X) name) data m = Ok m' -> forall k e, In (k, e) data -> exists i, snd e = Some i.
  Proof.
    induction data as [|(k0, ((v, f), o)) data IH]; intros m m' H k e I; [destruct I|]. cbn [foldM] in H. match type of H with rbind ?e _ = _ => destruct e as [m1|] eqn:Q; cbn [rbind] in H; [|discriminate H] end.
    destruct I as [I|I]; [|eapply IH; eauto]. inversion I; subst. unfold put_model in Q. destruct o as [i|]; [|discriminate]. exists i. auto.
  Qed.
  Lemma bim_reads_wf f b : read_dotbim coplanar f = Ok b ->
    wf_building coplanar b /\ dget (f_info f) (str_of "building_name") = Some (n_name b) /\ dget (f_info f) (str_of "building_uid") = Some (n_uid b) /\
    (forall k co ix, In (k, co, ix) (f_meshes f) -> exists i, In (k, i) (f_elements f)) /\ (forall k i, In (k, i) (f_elements f) -> exists co ix, In (k, co, ix) (f_meshes f)).
  Proof.
    unfold read_dotbim. destruct (dget (f_info f) (str_of "generated_by")) as [g|]; [|discriminate]. destruct (negb (eqb g TOOL_NAME)); [discriminate|]. intros H.
    destruct (foldM load_mesh (f_meshes f) []) as [d1|] eqn:L1; [|discriminate]. cbn [rbind] in H. unfold dlookup in H at 1 2.
    destruct (dget (f_info f) (str_of "building_name")) as [bn|]; [|discriminate]. cbn [rbind] in H. destruct (dget (f_info f) (str_of "building_uid")) as [bu|]; [|discriminate]. cbn [rbind] in H.
    destruct (foldM load_element (f_elements f) d1) as [d2|] eqn:L2; [|discriminate]. cbn [rbind] in H. destruct (foldM (put_model bn) d2 (JNode [])) as [m|] eqn:L3; [|discriminate]. cbn [rbind] in H. destruct (validate_name bn) as [nm|] eqn:V; [|discriminate]. cbn [rbind] in H.
    do 3 match type of H with (do _ <- ?e; _) = _ => destruct e as [?|]; [cbn [rbind] in H|discriminate] end. match type of H with (do _ <- ?e; _) = _ => destruct e as [ks|] eqn:K; [cbn [rbind] in H|discriminate] end. inversion H; subst. cbn [n_name n_uid].
    apply validate_name_ok in V. destruct V as (-> & V). split; [|split; [auto|split; [auto|]]].
    - split; [exact V|]. cbn [n_kids]. change (good_kids n_name (wf_zone coplanar) ks). revert K. apply foldM_inv; [|apply good_nil].
      intros s x s' I G E. destruct (read_bim_zone coplanar x) as [p|] eqn:R; [|discriminate]. cbn [rbind] in E. apply bim_zone_ok in R. apply (good_add _ _ s p); tauto.
    - destruct (load_mesh_keys _ _ _ L1 ltac:(intros k e [])) as (A1 & A2). destruct (load_element_keys _ _ _ [] L2) as (B1 & B2 & B3); [intros k e i I S; rewrite (A2 _ _ I) in S; discriminate|]. split.
      + intros k co ix I. assert (Kk : In k (dkeys d2)) by (apply B1, A1; right; apply in_map_iff; exists (k, co, ix); auto). apply in_map_iff in Kk. destruct Kk as ((k', e) & Ek & Ie). cbn [fst] in Ek. subst k'.
        destruct (put_model_all _ _ _ _ L3 _ _ Ie) as (i & Si). exists i. apply (B2 _ _ _ Ie Si).
      + intros k i I. apply B3, A1 in I. destruct I as [[]|I]. apply in_map_iff in I. destruct I as (((k', co), ix) & Ek & I). cbn [fst] in Ek. subst. eauto.
  Qed.
End BimWf.

(** ** Values where dictionaries are expected *)
Lemma foldM_each {A B} (f : B -> A -> result B) l : forall acc r x, foldM f l acc = Ok r -> In x l -> exists a a', f a x = Ok a'.
Proof.
  induction l as [|y l IH]; intros acc r x E I; [destruct I|]. cbn [foldM] in E. destruct (f acc y) as [a|e] eqn:F; cbn [rbind] in E; [|discriminate]. destruct I as [<-|I]; eauto.
Qed.
Lemma mapM_each {A B} (f : A -> result B) l : forall r x, mapM f l = Ok r -> In x l -> exists y, f x = Ok y.
Proof.
  induction l as [|y l IH]; intros r x E I; [destruct I|]. cbn [mapM] in E. destruct (f y) as [a|e] eqn:F; cbn [rbind] in E; [|discriminate]. destruct (mapM f l) as [rs|e] eqn:M; cbn [rbind] in E; [|discriminate]. destruct I as [<-|I]; eauto.
Qed.
Lemma dget_member {K V} `{EqDec K} (m : dict K V) k v : dget m k = Some v -> In (k, v) m.
Proof. induction m as [|(k', v') m IH]; cbn [dget]; [discriminate|]. destruct (eq_dec k k') as [->|]; [intros E; injection E as ->; left; auto|right; auto]. Qed.
Lemma wall_dict {P} (cp : list P -> bool) n v w : read_b3d_wall cp n v = Ok w -> exists m, v = JNode m.
Proof. unfold read_b3d_wall. destruct (validate_name n); [|discriminate]. cbn [rbind]. destruct v as [x|m]; [discriminate|eauto]. Qed.
Lemma solid_dict {P} (cp : list P -> bool) n v s : read_b3d_solid cp n v = Ok s -> exists m, v = JNode m /\ forall k x, In (k, x) m -> exists m', x = JNode m'.
Proof.
  unfold read_b3d_solid. destruct v as [x|m]; [discriminate|]. cbn [entries rbind]. destruct (mapM _ m) as [ws|] eqn:M; [|discriminate]. intros _. exists m. split; auto. intros k x I. destruct (mapM_each _ _ _ _ M I) as (w & Ew). exact (wall_dict cp _ _ _ Ew).
Qed.
Lemma zone_dict {P} (cp : list P -> bool) n v z : read_b3d_zone cp n v = Ok z -> exists m, v = JNode m /\ forall k x, In (k, x) m -> exists m', x = JNode m' /\ forall k' x', In (k', x') m' -> exists m'', x' = JNode m''.
Proof.
  unfold read_b3d_zone. destruct (validate_name n); [|discriminate]. cbn [rbind]. destruct v as [x|m]; [discriminate|]. cbn [entries rbind]. destruct (foldM _ m []) as [ss|] eqn:M; [|discriminate]. intros _. exists m. split; auto. intros k x I. destruct (foldM_each _ _ _ _ _ M I) as (u0 & u1 & E). cbn [fst snd] in E.
  destruct (read_b3d_solid cp k x) as [s|] eqn:S; [|discriminate]. exact (solid_dict cp _ _ _ S).
Qed.
Lemma b3d_values {P} (cp : list P -> bool) (d : jv str (bval (P := P))) p u : length p <= 3 -> find (str_of "zones" :: p) d = Some (JLeaf u) -> exists e, read_b3d cp d = Err e.
Proof.
  intros L F. destruct (read_b3d cp d) as [b|e] eqn:E; [exfalso|eauto]. unfold read_b3d in E. destruct d as [x|m]; [discriminate F|]. cbn [find] in F. cbn [item] in E. destruct (dlookup m (str_of "name")) as [nm|]; [|discriminate]. cbn [rbind] in E. destruct (leaf nm) as [nm'|]; [|discriminate]. cbn [rbind] in E.
  destruct (as_str nm') as [nm''|]; [|discriminate]. cbn [rbind] in E. destruct (validate_name nm''); [|discriminate]. cbn [rbind] in E. destruct (dget m (str_of "zones")) as [zs|] eqn:Z; [|discriminate]. unfold dlookup in E. rewrite Z in E. cbn [rbind] in E.
  destruct zs as [x|zs]; [discriminate E|]. cbn [entries rbind] in E. destruct (foldM _ zs []) as [ks|] eqn:M; [|discriminate]. clear E.
  destruct p as [|z p]; [discriminate F|]. cbn [find] in F. destruct (dget zs z) as [vz|] eqn:Dz; [|discriminate]. apply dget_member in Dz. destruct (foldM_each _ _ _ _ _ M Dz) as (u0 & u1 & E). cbn [fst snd] in E. destruct (read_b3d_zone cp z vz) as [zn|] eqn:Ez; [|discriminate].
  destruct (zone_dict cp _ _ _ Ez) as (mz & -> & Hz). destruct p as [|s p]; [discriminate F|]. cbn [find] in F. destruct (dget mz s) as [vs|] eqn:Ds; [|discriminate]. apply dget_member in Ds. destruct (Hz s vs Ds) as (ms & -> & Hs).
  destruct p as [|w p]; [discriminate F|]. cbn [find] in F. destruct (dget ms w) as [vw|] eqn:Dw; [|discriminate]. apply dget_member in Dw. destruct (Hs w vw Dw) as (mw & ->). destruct p as [|q p]; [discriminate F|]. cbn [length] in L. lia.
Qed.
