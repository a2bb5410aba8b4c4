(** Proofs about nested dictionaries, B3D and .bim. *)
From Coq Require Import Ascii String List Arith Bool Lia.
From Verif Require Import Prelude TreeModel TreeProofs MeshModel MeshSpec IoModel IoSpec.
Import ListNotations.

Lemma dset_dset {K V} `{EqDec K} (d : dict K V) k a b : dset (dset d k a) k b = dset d k b.
Proof.
  induction d as [|(k', v) d IH]; simpl.
  - destruct (eq_dec k k); congruence.
  - destruct (eq_dec k k') as [->|N]; simpl.
    + destruct (eq_dec k' k'); congruence.
    + destruct (eq_dec k k'); congruence.
Qed.

Lemma foldM_app {A S} (f : S -> A -> result S) l1 l2 : forall s,
  foldM f (l1 ++ l2) s = do s' <- foldM f l1 s; foldM f l2 s'.
Proof. induction l1 as [|x l1 IH]; intros s; simpl; auto. destruct (f s x); simpl; auto. Qed.

Lemma foldM_flat_map {A B S} (f : S -> B -> result S) (g : A -> list B) l : forall s,
  foldM f (flat_map g l) s = foldM (fun s x => foldM f (g x) s) l s.
Proof.
  induction l as [|x l IH]; intros s; simpl; auto. rewrite foldM_app. destruct (foldM f (g x) s); simpl; auto.
Qed.

Lemma foldM_map {A B S} (f : S -> B -> result S) (g : A -> B) l : forall s,
  foldM f (map g l) s = foldM (fun s x => f s (g x)) l s.
Proof. induction l as [|x l IH]; intros s; simpl; auto. destruct (f s (g x)); simpl; auto. Qed.

Lemma foldM_ext {A S} (f g : S -> A -> result S) l : (forall s x, f s x = g s x) -> forall s, foldM f l s = foldM g l s.
Proof. intros E. induction l as [|x l IH]; intros s; simpl; auto. rewrite E. destruct (g s x); simpl; auto. Qed.

Lemma mapM_map_ok {A B C} (f : B -> result C) (g : A -> B) (h : A -> C) l :
  (forall x, In x l -> f (g x) = Ok (h x)) -> mapM f (map g l) = Ok (map h l).
Proof.
  induction l as [|x l IH]; intros E; simpl; auto. rewrite E by (simpl; auto). cbn [rbind].
  rewrite IH by (intros; apply E; simpl; auto). auto.
Qed.

(** ** Writes as lists *)
Section Writes.
  Context {K V : Type} `{EqDec K}.

  Definition runw (ws : list (list K * V)) (d : jv K V) : result (jv K V) :=
    foldM (fun d kv => set_path (fst kv) (snd kv) d) ws d.
  Definition under (k : K) (ws : list (list K * V)) : list (list K * V) :=
    map (fun kv => (k :: fst kv, snd kv)) ws.

  Lemma runw_under k ws : forall m,
    runw (under k ws) (JNode m) =
    match ws with
    | [] => Ok (JNode m)
    | _ => do c <- runw ws (match dget m k with Some c => c | None => JNode [] end); Ok (JNode (dset m k c))
    end.
  Proof.
    induction ws as [|(ks, v) ws IH]; intros m; auto.
    cbn [under map fst snd]. unfold runw at 1. cbn [foldM fst snd]. unfold set_path at 1. cbn [upd].
    fold (set_path ks v (match dget m k with Some c => c | None => JNode [] end)).
    unfold runw. cbn [foldM fst snd].
    destruct (set_path ks v _) as [c|e]; cbn [rbind]; auto.
    fold (under k ws). fold (runw (under k ws) (JNode (dset m k c))). rewrite IH.
    destruct ws as [|kv ws]; auto.
    rewrite dget_dset_same. unfold runw. destruct (foldM _ (kv :: ws) c); cbn [rbind]; auto.
    rewrite dset_dset. auto.
  Qed.

  Lemma runw_app a b d : runw (a ++ b) d = do d' <- runw a d; runw b d'.
  Proof. apply foldM_app. Qed.

  Lemma runw_groups {A} (key : A -> K) (ws : A -> list (list K * V)) (its : A -> list (K * jv K V)) (full : A -> bool) xs :
    forall m,
    NoDup (map key xs) -> (forall x, In x xs -> ~ In (key x) (dkeys m)) ->
    (forall x, In x xs -> full x = true -> ws x <> [] /\ runw (ws x) (JNode []) = Ok (JNode (its x))) ->
    (forall x, In x xs -> full x = false -> ws x = []) ->
    runw (flat_map (fun x => under (key x) (ws x)) xs) (JNode m) =
      Ok (JNode (m ++ map (fun x => (key x, JNode (its x))) (filter full xs))).
  Proof.
    induction xs as [|x xs IH]; intros m ND D F E; simpl.
    - rewrite app_nil_r. auto.
    - rewrite runw_app, runw_under. inversion ND as [|? ? Nx ND']; subst.
      destruct (full x) eqn:Fx.
      + destruct (F x (or_introl eq_refl) Fx) as (Nw & R). destruct (ws x) as [|w l]; [congruence|].
        rewrite (proj2 (dget_None m (key x)) (D x (or_introl eq_refl))), R. cbn [rbind].
        rewrite dset_new by (apply D; simpl; auto).
        rewrite IH; auto.
        * simpl. rewrite <- app_assoc. auto.
        * intros y Iy C. unfold dkeys in C. rewrite map_app in C. apply in_app_iff in C. destruct C as [C|[C|[]]].
          -- apply (D y); simpl; auto.
          -- simpl in C. apply Nx. rewrite C. apply in_map; auto.
        * intros y Iy. apply F. simpl; auto.
        * intros y Iy. apply E. simpl; auto.
      + rewrite (E x (or_introl eq_refl) Fx). cbn [rbind]. apply IH; auto.
        * intros y Iy. apply D. simpl; auto.
        * intros y Iy. apply F. simpl; auto.
        * intros y Iy. apply E. simpl; auto.
  Qed.

  Lemma under_flat_map {A} k (f : A -> list (list K * V)) l : under k (flat_map f l) = flat_map (fun x => under k (f x)) l.
  Proof. unfold under. induction l as [|x l IH]; simpl; auto. rewrite map_app, IH. auto. Qed.

  Lemma under_nil k ws : under k ws = [] <-> ws = [].
  Proof. unfold under. destruct ws; simpl; split; auto; discriminate. Qed.

  Lemma flat_map_nil_iff {A B} (f : A -> list B) l : flat_map f l = [] <-> (forall x, In x l -> f x = []).
  Proof.
    induction l as [|x l IH]; simpl; [split; auto; intros _ ? []|]. split.
    - intros E. apply app_eq_nil in E. destruct E as (E1 & E2). intros y [<-|I]; auto. apply IH; auto.
    - intros E. rewrite (E x), (proj2 IH); auto.
  Qed.
  Lemma full_level {A} (full : A -> bool) (ws : A -> list (list K * V)) (key : A -> K) l :
    (forall x, In x l -> (full x = false -> ws x = []) /\ (full x = true -> ws x <> [])) ->
    (existsb full l = false -> flat_map (fun x => under (key x) (ws x)) l = []) /\
    (existsb full l = true -> flat_map (fun x => under (key x) (ws x)) l <> []).
  Proof.
    intros HF. split; intros E.
    - apply flat_map_nil_iff. intros x I. apply under_nil. apply HF; auto.
      apply not_true_is_false. intros T. assert (existsb full l = true) by (apply existsb_exists; eauto). congruence.
    - apply existsb_exists in E. destruct E as (x & I & F). intros C. rewrite flat_map_nil_iff in C.
      specialize (C x I). apply under_nil in C. apply (HF x I); auto.
  Qed.

End Writes.

(** Adding named objects read from a dictionary. *)
Lemma fold_add_named {A B E} (rd : E -> result B) (name : B -> str) (ent : A -> E) (h : A -> B) xs : forall acc,
  (forall x, In x xs -> rd (ent x) = Ok (h x)) -> NoDup (map name acc ++ map (fun x => name (h x)) xs) ->
  foldM (fun acc kv => do x <- rd kv; add_named name acc x) (map ent xs) acc = Ok (acc ++ map h xs).
Proof.
  induction xs as [|x xs IH]; intros acc R ND; simpl; [rewrite app_nil_r; auto|].
  rewrite R by (simpl; auto). cbn [rbind]. unfold add_named.
  replace (memb (name (h x)) (map name acc)) with false.
  - cbn [rbind]. rewrite IH.
    + rewrite <- app_assoc. auto.
    + intros y I. apply R. simpl; auto.
    + rewrite map_app, <- app_assoc. exact ND.
  - symmetry. apply memb_false. intros C. simpl in ND. apply NoDup_remove_2 in ND. apply ND.
    apply in_app_iff. auto.
Qed.

Lemma fold_add_plain {B} (name : B -> str) xs : NoDup (map name xs) -> foldM (add_named name) xs [] = Ok xs.
Proof.
  intros ND. pose proof (fold_add_named (fun x : B => Ok x) name (fun x => x) (fun x => x) xs []) as E.
  rewrite !map_id in E. simpl in E. rewrite <- E; auto.
Qed.

Lemma validate_ok name : ~ In PATH_SEP name -> validate_name name = Ok name.
Proof.
  intros V. unfold validate_name. replace (existsb (Ascii.eqb PATH_SEP) name) with false; auto.
  symmetry. apply not_true_is_false. intros C. apply existsb_exists in C. destruct C as (x & I & E).
  apply Ascii.eqb_eq in E. subst. auto.
Qed.

Lemma new_node_ok {U C} (name_of : C -> str) name (uid : U) kids :
  ~ In PATH_SEP name -> NoDup (map name_of kids) -> new_node name_of name uid kids = Ok (mkNode name uid kids).
Proof.
  intros V ND. unfold new_node. rewrite validate_ok by auto. cbn [rbind]. rewrite fold_add_plain by auto. auto.
Qed.

Lemma NoDup_map_filter {A B} (f : A -> B) g l : NoDup (map f l) -> NoDup (map f (filter g l)).
Proof.
  induction l as [|x l IH]; simpl; intros ND; auto. inversion ND; subst. destruct (g x); simpl; auto.
  constructor; auto. intros C. apply H1. apply in_map_iff in C. destruct C as (y & E & I). apply filter_In in I.
  rewrite <- E. apply in_map. tauto.
Qed.

Section P.
  Context {P : Type} (coplanar : list P -> bool).

  Lemma make_polygon_ok (p : poly P) : ~ In PATH_SEP (p_name p) -> accepted coplanar (p_mesh p) ->
    make_polygon coplanar (p_name p) (p_uid p) (fst (p_mesh p)) (snd (p_mesh p)) = Ok p.
  Proof.
    intros V (C & L & N). unfold make_polygon. rewrite C. cbn [negb].
    destruct (Nat.ltb_spec (length (fst (p_mesh p))) 3); [lia|]. rewrite validate_ok by auto. cbn [rbind].
    destruct (snd (p_mesh p)) eqn:E; [congruence|]. simpl. rewrite <- E. destruct p as [n u (a, b)]. simpl in *. auto.
  Qed.

  (** ** B3D *)
  Definition poly_ws (p : poly P) : list (list str * bval) :=
    [([str_of "pts"], BPts (fst (p_mesh p))); ([str_of "tri"], BTri (snd (p_mesh p))); ([str_of "uid"], BStr (p_uid p))].
  Definition wall_ws {U} (w : wall_n P U) := flat_map (fun p => under (p_name p) (poly_ws p)) (n_kids w).
  Definition solid_ws {U} (s : solid_n P U) := flat_map (fun w => under (n_name w) (wall_ws w)) (n_kids s).
  Definition zone_ws {U} (z : zone_n P U) := flat_map (fun s => under (n_name s) (solid_ws s)) (n_kids z).
  Definition building_ws {U} (b : building_n P U) := flat_map (fun z => under (n_name z) (zone_ws z)) (n_kids b).

  Definition poly_its (p : poly P) : list (str * jv str bval) :=
    [(str_of "pts", JLeaf (BPts (fst (p_mesh p)))); (str_of "tri", JLeaf (BTri (snd (p_mesh p))));
     (str_of "uid", JLeaf (BStr (p_uid p)))].
  Definition wall_its {U} (w : wall_n P U) := map (fun p => (p_name p, JNode (poly_its p))) (n_kids w).
  Definition solid_its {U} (s : solid_n P U) := map (fun w => (n_name w, JNode (wall_its w))) (filter full_wall (n_kids s)).
  Definition zone_its {U} (z : zone_n P U) := map (fun s => (n_name s, JNode (solid_its s))) (filter full_solid (n_kids z)).
  Definition building_its {U} (b : building_n P U) := map (fun z => (n_name z, JNode (zone_its z))) (filter full_zone (n_kids b)).

  Lemma put_b3d_runw z s w d (p : poly P) :
    put_b3d_poly z s w d p = runw (under (str_of "zones") (under z (under s (under w (under (p_name p) (poly_ws p)))))) d.
  Proof.
    unfold put_b3d_poly, runw, under, poly_ws. cbn [map fst snd foldM].
    destruct (set_path _ _ d) as [d1|]; cbn [rbind]; auto. destruct (set_path _ _ d1) as [d2|]; cbn [rbind]; auto.
    destruct (set_path _ _ d2); auto.
  Qed.

  Lemma write_b3d_runw {U} (b : building_n P U) :
    write_b3d b = runw (under (str_of "zones") (building_ws b)) (JNode [(str_of "name", JLeaf (BStr (n_name b)))]).
  Proof.
    unfold write_b3d, building_ws. rewrite under_flat_map.
    change (set_path [str_of "name"] (BStr (n_name b)) (JNode [])) with
      (Ok (JNode [(str_of "name", JLeaf (K := str) (BStr (P := P) (n_name b)))])). cbn [rbind].
    unfold runw. rewrite foldM_flat_map. apply foldM_ext. intros d z.
    unfold zone_ws. rewrite !under_flat_map, foldM_flat_map. apply foldM_ext. clear d. intros d s.
    unfold solid_ws. rewrite !under_flat_map, foldM_flat_map. apply foldM_ext. clear d. intros d w.
    unfold wall_ws. rewrite !under_flat_map, foldM_flat_map. apply foldM_ext. clear d. intros d p.
    apply put_b3d_runw.
  Qed.

  Lemma wall_ws_run {U} (w : wall_n P U) : NoDup (map p_name (n_kids w)) ->
    runw (wall_ws w) (JNode []) = Ok (JNode (wall_its w)).
  Proof.
    intros ND. unfold wall_ws, wall_its.
    rewrite (runw_groups p_name poly_ws poly_its (fun _ => true)); auto.
    - f_equal. f_equal. simpl. f_equal. clear. induction (n_kids w); simpl; congruence.
    - intros x _ _. split; [discriminate|reflexivity].
    - intros; discriminate.
  Qed.

  Lemma full_wall_ws {U} (w : wall_n P U) : (full_wall w = false -> wall_ws w = []) /\ (full_wall w = true -> wall_ws w <> []).
  Proof.
    unfold full_wall, wall_ws. destruct (n_kids w); simpl; split; auto; try discriminate.
  Qed.

  Lemma full_solid_ws {U} (s : solid_n P U) : (full_solid s = false -> solid_ws s = []) /\ (full_solid s = true -> solid_ws s <> []).
  Proof. apply full_level. intros. apply full_wall_ws. Qed.
  Lemma full_zone_ws {U} (s : zone_n P U) : (full_zone s = false -> zone_ws s = []) /\ (full_zone s = true -> zone_ws s <> []).
  Proof. apply full_level. intros. apply full_solid_ws. Qed.
  Lemma full_building_ws {U} (s : building_n P U) : (full_building s = false -> building_ws s = []) /\ (full_building s = true -> building_ws s <> []).
  Proof. apply full_level. intros. apply full_zone_ws. Qed.

  Lemma solid_ws_run {U} (s : solid_n P U) : wf_solid coplanar s ->
    runw (solid_ws s) (JNode []) = Ok (JNode (solid_its s)).
  Proof.
    intros ((ND & _) & F). unfold solid_ws, solid_its.
    rewrite (runw_groups n_name wall_ws wall_its full_wall); auto.
    - intros w I E. split; [apply full_wall_ws; auto|]. apply wall_ws_run.
      rewrite Forall_forall in F. apply F; auto.
    - intros w I E. apply full_wall_ws; auto.
  Qed.

  Lemma zone_ws_run {U} (s : zone_n P U) : wf_zone coplanar s ->
    runw (zone_ws s) (JNode []) = Ok (JNode (zone_its s)).
  Proof.
    intros ((ND & _) & F). unfold zone_ws, zone_its.
    rewrite (runw_groups n_name solid_ws solid_its full_solid); auto.
    - intros w I E. split; [apply full_solid_ws; auto|]. apply solid_ws_run.
      rewrite Forall_forall in F. apply F; auto.
    - intros w I E. apply full_solid_ws; auto.
  Qed.

  Lemma building_ws_run {U} (s : building_n P U) : wf_building coplanar s ->
    runw (building_ws s) (JNode []) = Ok (JNode (building_its s)).
  Proof.
    intros (_ & (ND & _) & F). unfold building_ws, building_its.
    rewrite (runw_groups n_name zone_ws zone_its full_zone); auto.
    - intros w I E. split; [apply full_zone_ws; auto|]. apply zone_ws_run.
      rewrite Forall_forall in F. apply F; auto.
    - intros w I E. apply full_zone_ws; auto.
  Qed.

  Lemma names_filter {U C} (name : node U C -> str) full (xs : list (node U C)) : names_ok name xs ->
    NoDup (map name (filter full xs)).
  Proof. intros (ND & _). apply NoDup_map_filter; auto. Qed.

  Lemma read_b3d_poly_ok (p : poly P) : ~ In PATH_SEP (p_name p) -> accepted coplanar (p_mesh p) ->
    read_b3d_poly coplanar (p_name p) (JNode (poly_its p)) = Ok p.
  Proof. intros V A. unfold read_b3d_poly, poly_its. cbn -[make_polygon]. apply make_polygon_ok; auto. Qed.

  Lemma read_b3d_wall_ok {U} (w : wall_n P U) : ~ In PATH_SEP (n_name w) -> wf_wall coplanar w ->
    read_b3d_wall coplanar (n_name w) (JNode (wall_its w)) = Ok (prune_wall (fun _ => tt) w).
  Proof.
    intros V ((ND & N) & A). unfold read_b3d_wall, wall_its. rewrite validate_ok by auto. cbn [rbind entries].
    rewrite (fold_add_named (fun kv => read_b3d_poly coplanar (fst kv) (snd kv)) p_name
      (fun p => (p_name p, JNode (poly_its p))) (fun p => p)).
    - rewrite map_id. auto.
    - intros p I. rewrite Forall_forall in N, A. apply read_b3d_poly_ok; auto.
    - simpl. auto.
  Qed.

  Lemma read_b3d_solid_ok {U} (s : solid_n P U) : ~ In PATH_SEP (n_name s) -> wf_solid coplanar s ->
    read_b3d_solid coplanar (n_name s) (JNode (solid_its s)) = Ok (prune_solid (fun _ => tt) s).
  Proof.
    intros V ((ND & N) & A). unfold read_b3d_solid, solid_its. cbn [rbind entries].
    rewrite (mapM_map_ok (fun kv : str * jv str (bval (P := P)) => read_b3d_wall coplanar (fst kv) (snd kv))
      (fun w : wall_n P U => (n_name w, JNode (wall_its w))) (prune_wall (fun _ => tt))).
    - cbn [rbind]. apply new_node_ok; auto. rewrite map_map. simpl. apply NoDup_map_filter; auto.
    - intros w I. apply filter_In in I. destruct I as (I & _). rewrite Forall_forall in N, A.
      apply read_b3d_wall_ok; auto.
  Qed.

  Lemma read_b3d_zone_ok {U} (z : zone_n P U) : ~ In PATH_SEP (n_name z) -> wf_zone coplanar z ->
    read_b3d_zone coplanar (n_name z) (JNode (zone_its z)) = Ok (prune_zone (fun _ => tt) z).
  Proof.
    intros V ((ND & N) & A). unfold read_b3d_zone, zone_its. rewrite validate_ok by auto. cbn [rbind entries].
    rewrite (fold_add_named (fun kv => read_b3d_solid coplanar (fst kv) (snd kv)) n_name
      (fun p => (n_name p, JNode (solid_its p))) (prune_solid (fun _ => tt))).
    - auto.
    - intros p I. apply filter_In in I. destruct I as (I & _). rewrite Forall_forall in N, A. apply read_b3d_solid_ok; auto.
    - simpl. apply NoDup_map_filter; auto.
  Qed.

  Lemma b3d_roundtrip {U} (b : building_n P U) : wf_building coplanar b -> full_building b = true ->
    (do d <- write_b3d b; read_b3d coplanar d) = Ok (prune (fun _ => tt) b).
  Proof.
    intros W F. rewrite write_b3d_runw, runw_under.
    destruct (building_ws b) as [|w0 ws0] eqn:Eb; [exfalso; apply (proj2 (full_building_ws b) F); auto|]. rewrite <- Eb.
    change (dget [(str_of "name", JLeaf (K := str) (BStr (P := P) (n_name b)))] (str_of "zones")) with (@None (jv str (bval (P := P)))).
    cbv iota. rewrite building_ws_run by auto. cbn [rbind].
    change (dset [(str_of "name", JLeaf (BStr (n_name b)))] (str_of "zones") (JNode (building_its b)))
      with [(str_of "name", JLeaf (BStr (n_name b))); (str_of "zones", JNode (building_its b))].
    unfold read_b3d. destruct W as (V & (ND & N) & A).
    change (item (JNode [(str_of "name", JLeaf (BStr (n_name b))); (str_of "zones", JNode (building_its b))]) (str_of "name"))
      with (Ok (JLeaf (K := str) (BStr (P := P) (n_name b)))). cbn [rbind leaf as_str].
    rewrite validate_ok by auto. cbn [rbind].
    change (item (JNode [(str_of "name", JLeaf (BStr (n_name b))); (str_of "zones", JNode (building_its b))]) (str_of "zones"))
      with (Ok (JNode (building_its b))). cbn [rbind entries]. unfold building_its.
    rewrite (fold_add_named (fun kv => read_b3d_zone coplanar (fst kv) (snd kv)) n_name
      (fun p => (n_name p, JNode (zone_its p))) (prune_zone (fun _ => tt))).
    - auto.
    - intros p I. apply filter_In in I. destruct I as (I & _). rewrite Forall_forall in N, A. apply read_b3d_zone_ok; auto.
    - simpl. apply NoDup_map_filter; auto.
  Qed.

  Lemma b3d_no_polygons {U} (b : building_n P U) : ~ In PATH_SEP (n_name b) -> full_building b = false ->
    (do d <- write_b3d b; read_b3d coplanar d) = Err KeyError.
  Proof.
    intros V F. rewrite write_b3d_runw, runw_under. rewrite (proj1 (full_building_ws b) F). cbn [rbind].
    unfold read_b3d.
    change (item (JNode [(str_of "name", JLeaf (BStr (n_name b)))]) (str_of "name"))
      with (Ok (JLeaf (K := str) (BStr (P := P) (n_name b)))). cbn [rbind leaf as_str].
    rewrite validate_ok by auto. auto.
  Qed.

  Lemma filter_all {A} (f : A -> bool) l : (forall x, In x l -> f x = true) -> filter f l = l.
  Proof.
    induction l as [|x l IH]; intros E; simpl; auto. rewrite E by (simpl; auto). rewrite IH; auto.
    intros; apply E; simpl; auto.
  Qed.

  Lemma prune_no_empty {U U'} (g : U -> U') (b : building_n P U) : no_empty b -> prune g b = reuid g b.
  Proof.
    intros N. unfold prune, reuid. f_equal. rewrite filter_all by (intros z I; apply N; auto).
    apply map_ext_in. intros z Iz. destruct (N z Iz) as (_ & Nz). unfold prune_zone. f_equal.
    rewrite filter_all by (intros s I; apply Nz; auto). apply map_ext_in. intros s Is. destruct (Nz s Is) as (_ & Ns).
    unfold prune_solid. f_equal. rewrite filter_all by (intros w I; apply Ns; auto). auto.
  Qed.

  Lemma no_empty_full {U} (b : building_n P U) : no_empty b -> n_kids b <> [] -> full_building b = true.
  Proof.
    intros N E. unfold full_building. apply existsb_exists. destruct (n_kids b) as [|z zs] eqn:Ek; [congruence|].
    exists z. split; [simpl; auto|]. apply N. rewrite Ek. simpl; auto.
  Qed.

  Lemma b3d_roundtrip_full {U} (b : building_n P U) : wf_building coplanar b -> n_kids b <> [] -> no_empty b ->
    (do d <- write_b3d b; read_b3d coplanar d) = Ok (reuid (fun _ => tt) b).
  Proof.
    intros W E N. rewrite b3d_roundtrip by (auto; apply no_empty_full; auto). rewrite prune_no_empty by auto. auto.
  Qed.
End P.
