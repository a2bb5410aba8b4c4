(** Listing of polygon paths, replacement of children. *)
From Coq Require Import Ascii String List Arith Bool ZArith Lia Permutation.
From Verif Require Import Prelude TreeModel TreeSpec TreeProofs.
Import ListNotations.

Lemma map_flat_map {A B C} (f : B -> C) (g : A -> list B) l :
  map f (flat_map g l) = flat_map (fun x => map f (g x)) l.
Proof. induction l as [|x l IH]; simpl; auto. rewrite map_app, IH. reflexivity. Qed.

Lemma flat_map_ext_in {A B} (f g : A -> list B) l :
  (forall x, In x l -> f x = g x) -> flat_map f l = flat_map g l.
Proof. induction l as [|x l IH]; simpl; intros E; auto. rewrite E, IH; auto. Qed.

(** Paths of everything n levels below i, prefixed with [pre]. *)
Definition paths_below (h : heap) (n : nat) (pre : list str) (i : oid) : list str :=
  map (fun '(ns, _) => join_with PATH_SEP (pre ++ ns)) (below h n i).

Lemma paths_below_S h n pre i o : nth_error h i = Some o ->
  paths_below h (S n) pre i = flat_map (fun '(k, c) => paths_below h n (pre ++ [k]) c) (o_children o).
Proof.
  intros E. unfold paths_below. simpl. rewrite E, map_flat_map. apply flat_map_ext_in.
  intros (k, c) _. rewrite map_map. apply map_ext. intros (ns, j).
  rewrite <- app_assoc. reflexivity.
Qed.

Lemma kids_ok h i o : nth_error h i = Some o -> kids h i = Ok (o_children o).
Proof. intros E. unfold kids. rewrite (proj2 (deref_ok _ _ _) E). reflexivity. Qed.

Lemma wall_level h w wo pre : nth_error h w = Some wo ->
  map (fun '(pn, _) => join_with PATH_SEP (pre ++ [pn])) (o_children wo) = paths_below h 1 pre w.
Proof.
  intros E. rewrite (paths_below_S h 0 pre w wo E). unfold paths_below. simpl.
  induction (o_children wo) as [|(k, c) d IH]; simpl; auto. rewrite IH, app_nil_r. reflexivity.
Qed.

Lemma solid_level h s so pre : wf h -> nth_error h s = Some so ->
  concatM (fun '(wn, w) => do ps <- kids h w;
     Ok (map (fun '(pn, _) => join_with PATH_SEP (pre ++ [wn; pn])) ps)) (o_children so)
  = Ok (paths_below h 2 pre s).
Proof.
  intros W E. rewrite (paths_below_S h 1 pre s so E).
  apply concatM_ok. intros (wn, w) I. destruct (W s so E) as (_ & B & _).
  destruct (B wn w I) as (wo & Ew & _). rewrite (kids_ok h w wo Ew). simpl. f_equal.
  rewrite <- (wall_level h w wo (pre ++ [wn]) Ew). apply map_ext. intros (a, b).
  rewrite <- app_assoc. reflexivity.
Qed.

Lemma zone_level h z zo pre : wf h -> nth_error h z = Some zo ->
  concatM (fun '(sn, s) => do ws <- kids h s;
    concatM (fun '(wn, w) => do ps <- kids h w;
       Ok (map (fun '(pn, _) => join_with PATH_SEP (pre ++ [sn; wn; pn])) ps)) ws) (o_children zo)
  = Ok (paths_below h 3 pre z).
Proof.
  intros W E. rewrite (paths_below_S h 2 pre z zo E).
  apply concatM_ok. intros (sn, s) I. destruct (W z zo E) as (_ & B & _).
  destruct (B sn s I) as (so & Es & _). rewrite (kids_ok h s so Es). cbn [rbind].
  rewrite <- (solid_level h s so (pre ++ [sn]) W Es). apply concatM_ext. intros (wn, w) _.
  destruct (kids h w); simpl; auto. f_equal. apply map_ext. intros (x1, x2).
  rewrite <- app_assoc. reflexivity.
Qed.

Lemma building_paths_ok h b bo : wf h -> nth_error h b = Some bo ->
  building_polygon_paths h b = Ok (paths_below h 4 [o_name bo] b).
Proof.
  intros W E. unfold building_polygon_paths. rewrite (proj2 (deref_ok _ _ _) E). cbn [rbind].
  rewrite (paths_below_S h 3 _ b bo E).
  apply concatM_ok. intros (zn, z) I. destruct (W b bo E) as (_ & B & _).
  destruct (B zn z I) as (zo & Ez & _). rewrite (kids_ok h z zo Ez). cbn [rbind].
  exact (zone_level h z zo [o_name bo; zn] W Ez).
Qed.

Lemma zone_paths_ok h b bo z zo : wf h -> nth_error h b = Some bo -> nth_error h z = Some zo ->
  o_parent zo = Some b ->
  zone_polygon_paths h z = Ok (paths_below h 3 [o_name bo; o_name zo] z).
Proof.
  intros W Eb Ez P. unfold zone_polygon_paths, parent_asserted.
  rewrite (proj2 (deref_ok _ _ _) Ez). cbn [rbind]. rewrite P. cbn [rbind].
  rewrite (proj2 (deref_ok _ _ _) Eb). cbn [rbind].
  exact (zone_level h z zo [o_name bo; o_name zo] W Ez).
Qed.

Lemma solid_paths_ok h b bo z zo s so : wf h -> nth_error h b = Some bo -> nth_error h z = Some zo ->
  nth_error h s = Some so -> o_parent zo = Some b -> o_parent so = Some z ->
  solid_polygon_paths h s = Ok (paths_below h 2 [o_name bo; o_name zo; o_name so] s).
Proof.
  intros W Eb Ez Es P P2. unfold solid_polygon_paths, parent_asserted.
  rewrite (proj2 (deref_ok _ _ _) Es). cbn [rbind]. rewrite P2. cbn [rbind].
  rewrite (proj2 (deref_ok _ _ _) Ez). cbn [rbind]. rewrite P. cbn [rbind].
  rewrite (proj2 (deref_ok _ _ _) Eb). cbn [rbind].
  exact (solid_level h s so [o_name bo; o_name zo; o_name so] W Es).
Qed.

Lemma wall_paths_ok h b bo z zo s so w wo : nth_error h b = Some bo -> nth_error h z = Some zo ->
  nth_error h s = Some so -> nth_error h w = Some wo ->
  o_parent zo = Some b -> o_parent so = Some z -> o_parent wo = Some s ->
  wall_polygon_paths h w = Ok (paths_below h 1 [o_name bo; o_name zo; o_name so; o_name wo] w).
Proof.
  intros Eb Ez Es Ew P P2 P3. unfold wall_polygon_paths, parent_asserted.
  rewrite (proj2 (deref_ok _ _ _) Ew). cbn [rbind]. rewrite P3. cbn [rbind].
  rewrite (proj2 (deref_ok _ _ _) Es). cbn [rbind]. rewrite P2. cbn [rbind].
  rewrite (proj2 (deref_ok _ _ _) Ez). cbn [rbind]. rewrite P. cbn [rbind].
  rewrite (proj2 (deref_ok _ _ _) Eb). cbn [rbind]. f_equal.
  exact (wall_level h w wo [o_name bo; o_name zo; o_name so; o_name wo] Ew).
Qed.

Lemma building_paths_spec h b bo : wf h -> nth_error h b = Some bo -> o_kind bo = KBuilding ->
  exists l, building_polygon_paths h b = Ok l /\ NoDup l /\
    (forall p, In p l <-> exists names i o, p = join_with PATH_SEP (o_name bo :: names) /\
        descends h b names i /\ nth_error h i = Some o /\ o_kind o = KPolygon).
Proof.
  intros W E K. exists (paths_below h 4 [o_name bo] b). split; [apply building_paths_ok; auto|].
  destruct (W b bo E) as (_ & _ & _ & Nb).
  assert (Fb : forall ns j, In (ns, j) (below h 4 b) -> Forall (fun n => ~ In PATH_SEP n) (o_name bo :: ns)).
  { intros ns j I. apply in_below in I. destruct I as (_ & D).
    destruct (descends_kind h b bo ns j W E K D) as (_ & _ & _ & F). constructor; auto. }
  split.
  - unfold paths_below.
    replace (map (fun '(ns, _) => join_with PATH_SEP ([o_name bo] ++ ns)) (below h 4 b))
      with (map (fun ns => join_with PATH_SEP (o_name bo :: ns)) (map fst (below h 4 b))).
    2:{ rewrite map_map. apply map_ext. intros (a, c). reflexivity. }
    pose proof (NoDup_below h 4 W b) as ND.
    assert (Fi : forall ns, In ns (map fst (below h 4 b)) -> Forall (fun n => ~ In PATH_SEP n) (o_name bo :: ns)).
    { intros ns I. apply in_map_iff in I. destruct I as ((ns', j) & <- & I). eauto. }
    clear Fb. induction (map fst (below h 4 b)) as [|x l IH]; cbn [map]; [constructor|].
    inversion ND; subst. constructor.
    + intros C. apply in_map_iff in C. destruct C as (y & Q & Iy).
      apply H1. apply (f_equal (split_on PATH_SEP)) in Q.
      rewrite !split_join in Q; try discriminate; try (apply Fi; simpl; auto).
      inversion Q; subst. exact Iy.
    + apply IH; auto. intros ns I. apply Fi. simpl. auto.
  - intros p. unfold paths_below. rewrite in_map_iff. split.
    + intros ((ns, j) & <- & I). apply in_below in I. destruct I as (L & D).
      destruct (descends_kind h b bo ns j W E K D) as (o & Ej & Dk & _).
      exists ns, j, o. repeat split; auto. rewrite L in Dk. simpl in Dk. congruence.
    + intros (names & i & o & -> & D & Ei & Ko).
      exists (names, i). split; auto. apply in_below. split; auto.
      destruct (descends_kind h b bo names i W E K D) as (o' & Ei' & Dk & _).
      rewrite Ei in Ei'. inversion Ei'; subst o'. rewrite Ko in Dk.
      pose proof (depth_kind_le4 _ _ Dk).
      do 5 (destruct names as [|? names]; [simpl in Dk; try discriminate; auto|]). simpl in H. lia.
Qed.

Lemma concat_zones h b bo : wf h -> linked h -> nth_error h b = Some bo ->
  building_polygon_paths h b = concatM (fun '(_, z) => zone_polygon_paths h z) (o_children bo).
Proof.
  intros W L E. rewrite (building_paths_ok h b bo W E), (paths_below_S h 3 _ b bo E).
  symmetry. apply concatM_ok. intros (zn, z) I.
  destruct (L b bo zn z E I) as (zo & Ez & P). destruct (W b bo E) as (_ & B & _).
  destruct (B zn z I) as (zo' & Ez' & N & _). rewrite Ez in Ez'. inversion Ez'; subst zo'.
  rewrite (zone_paths_ok h b bo z zo W E Ez P), N. reflexivity.
Qed.

Lemma concat_solids h b bo z zo : wf h -> linked h -> nth_error h b = Some bo ->
  nth_error h z = Some zo -> o_parent zo = Some b ->
  zone_polygon_paths h z = concatM (fun '(_, s) => solid_polygon_paths h s) (o_children zo).
Proof.
  intros W L E Ez P. rewrite (zone_paths_ok h b bo z zo W E Ez P), (paths_below_S h 2 _ z zo Ez).
  symmetry. apply concatM_ok. intros (sn, s) I.
  destruct (L z zo sn s Ez I) as (so & Es & Ps). destruct (W z zo Ez) as (_ & B & _).
  destruct (B sn s I) as (so' & Es' & N & _). rewrite Es in Es'. inversion Es'; subst so'.
  rewrite (solid_paths_ok h b bo z zo s so W E Ez Es P Ps), N. reflexivity.
Qed.

Lemma concat_walls h b bo z zo s so : wf h -> linked h -> nth_error h b = Some bo ->
  nth_error h z = Some zo -> o_parent zo = Some b -> nth_error h s = Some so -> o_parent so = Some z ->
  solid_polygon_paths h s = concatM (fun '(_, w) => wall_polygon_paths h w) (o_children so).
Proof.
  intros W L E Ez P Es Ps. rewrite (solid_paths_ok h b bo z zo s so W E Ez Es P Ps), (paths_below_S h 1 _ s so Es).
  symmetry. apply concatM_ok. intros (wn, w) I.
  destruct (L s so wn w Es I) as (wo & Ew & Pw). destruct (W s so Es) as (_ & B & _).
  destruct (B wn w I) as (wo' & Ew' & N & _). rewrite Ew in Ew'. inversion Ew'; subst wo'.
  rewrite (wall_paths_ok h b bo z zo s so w wo E Ez Es Ew P Ps Pw), N. reflexivity.
Qed.

Lemma wall_lists_children h b bo z zo s so w wo : nth_error h b = Some bo -> nth_error h z = Some zo ->
  nth_error h s = Some so -> nth_error h w = Some wo ->
  o_parent zo = Some b -> o_parent so = Some z -> o_parent wo = Some s ->
  wall_polygon_paths h w =
  Ok (map (fun pn => join_with PATH_SEP [o_name bo; o_name zo; o_name so; o_name wo; pn]) (dkeys (o_children wo))).
Proof.
  intros Eb Ez Es Ew P P2 P3. unfold wall_polygon_paths, parent_asserted.
  rewrite (proj2 (deref_ok _ _ _) Ew). cbn [rbind]. rewrite P3. cbn [rbind].
  rewrite (proj2 (deref_ok _ _ _) Es). cbn [rbind]. rewrite P2. cbn [rbind].
  rewrite (proj2 (deref_ok _ _ _) Ez). cbn [rbind]. rewrite P. cbn [rbind].
  rewrite (proj2 (deref_ok _ _ _) Eb). cbn [rbind]. f_equal.
  unfold dkeys. rewrite map_map. apply map_ext. intros (a, c). reflexivity.
Qed.


Lemma ext_name_in h h' c : ext h h' -> nth_error h c <> None -> name_in h' c = name_in h c.
Proof.
  intros X N. unfold name_in. destruct (nth_error h c) as [o|] eqn:E; [|congruence].
  destruct (X c o E) as (o' & E' & _ & Nm & _). rewrite E'. exact Nm.
Qed.

Lemma ext_is_kind h h' k c : ext h h' -> is_kind h k c -> is_kind h' k c.
Proof.
  intros X (o & E & K). destruct (X c o E) as (o' & E' & K' & _). exists o'. split; congruence.
Qed.

Lemma add_children_spec cs : forall h p po k, wf h -> nth_error h p = Some po ->
  child_kind (o_kind po) = Some k -> Forall (is_kind h k) cs ->
  exists done rest h' r,
    add_children h p cs = (h', r) /\ cs = done ++ rest /\
    nth_error h' p = Some (set_children po (o_children po ++ map (fun c => (name_in h c, c)) done)) /\
    ((r = Ok tt /\ rest = []) \/
     (r = Err GeometryError /\ exists c rest', rest = c :: rest' /\
        In (name_in h c) (dkeys (o_children po) ++ map (name_in h) done))) /\
    (forall i, i <> p -> ~ In i done -> nth_error h' i = nth_error h i) /\
    (forall i o, In i done -> nth_error h i = Some o -> nth_error h' i = Some (set_parent o p)).
Proof.
  induction cs as [|c cs IH]; intros h p po k W Ep Ek F.
  - exists [], [], h, (Ok tt). simpl. repeat split; auto; try tauto.
    rewrite app_nil_r. destruct po; exact Ep.
  - inversion F as [|? ? (co & Ec & Kc) F']; subst.
    simpl. unfold add_child at 1. rewrite (proj2 (deref_ok _ _ _) Ep), (proj2 (deref_ok _ _ _) Ec).
    rewrite Ek, (proj2 (kind_eqb_eq _ _) eq_refl).
    assert (Npc : p <> c). { intros ->. rewrite Ep in Ec. inversion Ec; subst. eapply child_kind_neq; eauto. }
    assert (Nc : name_in h c = o_name co) by (unfold name_in; rewrite Ec; reflexivity).
    destruct (memb (o_name co) (dkeys (o_children po))) eqn:M.
    + apply memb_true in M. exists [], (c :: cs), h, (Err GeometryError). simpl.
      repeat split; auto; try tauto.
      * rewrite app_nil_r. destruct po; exact Ep.
      * right. split; auto. exists c, cs. split; auto. rewrite Nc, app_nil_r. exact M.
    + apply memb_false in M.
      pose proof (add_child_effect h p c) as Ef. pose proof (add_child_wf h p c W) as W1.
      pose proof (add_child_ext h p c) as X1.
      unfold add_child in Ef, W1, X1. rewrite (proj2 (deref_ok _ _ _) Ep), (proj2 (deref_ok _ _ _) Ec), Ek, (proj2 (kind_eqb_eq _ _) eq_refl), (proj2 (memb_false _ _) M) in Ef, W1, X1.
      rewrite dset_new in * by exact M. simpl in W1, X1. clear Ef.
      set (h1 := set_nth (set_nth h c (set_parent co p)) p
        (set_children po (o_children po ++ [(o_name co, c)]))) in *.
      assert (Ep1 : nth_error h1 p = Some (set_children po (o_children po ++ [(o_name co, c)]))).
      { unfold h1. eapply nth_error_set_nth_same. rewrite nth_error_set_nth_other by auto. exact Ep. }
      assert (Ec1 : nth_error h1 c = Some (set_parent co p)).
      { unfold h1. rewrite nth_error_set_nth_other by auto. eapply nth_error_set_nth_same; eauto. }
      assert (Eo : forall x, x <> c -> x <> p -> nth_error h1 x = nth_error h x).
      { intros x A B. unfold h1. rewrite !nth_error_set_nth_other by auto. reflexivity. }
      assert (Nm : forall x, is_kind h (o_kind co) x -> name_in h1 x = name_in h x).
      { intros x (xo & Ex & _). apply ext_name_in; auto. congruence. }
      destruct (IH h1 p _ (o_kind co) W1 Ep1 Ek) as (done & rest & h' & r & E1 & E2 & E3 & E4 & E5 & E6).
      { eapply Forall_impl; [|exact F']. intros x. apply ext_is_kind; auto. }
      assert (Fd : forall x, In x done -> is_kind h (o_kind co) x).
      { intros x Ix. rewrite Forall_forall in F'. apply F'. rewrite E2. apply in_app_iff. auto. }
      assert (ED : map (name_in h1) done = map (name_in h) done).
      { apply map_ext_in. intros x Ix. apply Nm. auto. }
      assert (ED2 : map (fun x => (name_in h1 x, x)) done = map (fun x => (name_in h x, x)) done).
      { apply map_ext_in. intros x Ix. rewrite Nm; auto. }
      assert (NIc : ~ In c done).
      { intros Ic. pose proof (E6 c _ Ic Ec1) as E6'.
        (* c in done would be listed twice *)
        assert (ND : NoDup (dkeys (o_children po ++ [(o_name co, c)] ++ map (fun x => (name_in h x, x)) done))).
        { pose proof (add_children_wf cs h1 p W1) as W2. rewrite E1 in W2. simpl in W2.
          destruct (W2 p _ E3) as (ND & _). simpl in ND. rewrite ED2 in ND. rewrite app_assoc. exact ND. }
        unfold dkeys in ND. rewrite map_app in ND. apply NoDup_app_split in ND. destruct ND as (_ & ND & _).
        simpl in ND. inversion ND; subst. apply H1. rewrite map_map. simpl. apply in_map_iff. exists c. auto. }
      exists (c :: done), rest, h', r. split; [exact E1|]. split; [simpl; congruence|]. split; [|split; [|split]].
      * rewrite E3. simpl. unfold set_children. simpl. rewrite ED2, <- app_assoc, Nc. reflexivity.
      * destruct E4 as [E4|(R & c' & rest' & Er & Ir)]; [auto|]. right. split; auto. exists c', rest'. split; auto.
        rewrite Nm in Ir.
        2:{ rewrite Forall_forall in F'. apply F'. rewrite E2, Er. apply in_app_iff. simpl. auto. }
        rewrite ED in Ir. simpl in Ir. unfold dkeys in *. rewrite map_app, <- app_assoc in Ir. simpl in Ir.
        simpl. rewrite Nc. exact Ir.
      * intros i Ni Di. simpl in Di. rewrite E5 by tauto. apply Eo; auto.
      * intros i o Ii Ei. simpl in Ii. destruct (Nat.eq_dec i c) as [->|Nic].
        -- rewrite E5 by auto. rewrite Ec in Ei. inversion Ei; subst. exact Ec1.
        -- destruct Ii as [->|Ii]; [congruence|]. apply (E6 i o Ii). rewrite Eo; auto.
           intros ->. destruct (Fd p Ii) as (x & Ex & Kx). rewrite Ep in Ex. inversion Ex; subst x.
           rewrite Kx in Ek. eapply child_kind_neq; eauto.
Qed.

Lemma replace_polygon_spec h w wo old news : wf h -> nth_error h w = Some wo -> o_kind wo = KWall ->
  Forall (is_kind h KPolygon) news ->
  (~ In old (dkeys (o_children wo)) -> replace_polygon h w old news = (h, Err KeyError)) /\
  (In old (dkeys (o_children wo)) ->
   exists done rest h' r wo',
    replace_polygon h w old news = (h', r) /\ news = done ++ rest /\
    nth_error h' w = Some wo' /\ o_name wo' = o_name wo /\ o_parent wo' = o_parent wo /\
    o_children wo' = filter (fun e => negb (eqb (fst e) old)) (o_children wo)
                     ++ map (fun c => (name_in h c, c)) done /\
    ((r = Ok tt /\ rest = []) \/
     (r = Err GeometryError /\ exists c rest', rest = c :: rest' /\
        In (name_in h c) (dkeys (o_children wo')))) /\
    (forall i, i <> w -> ~ In i done -> nth_error h' i = nth_error h i) /\
    (forall i o, In i done -> nth_error h i = Some o -> nth_error h' i = Some (set_parent o w))).
Proof.
  intros W E K F. unfold replace_polygon. rewrite (proj2 (deref_ok _ _ _) E), K. split.
  - intros N. rewrite (proj2 (dget_None _ _) N). reflexivity.
  - intros I. destruct (dget (o_children wo) old) as [x|] eqn:G.
    2:{ apply dget_None in G. tauto. }
    set (wo1 := set_children wo (ddel (o_children wo) old)).
    assert (E1 : nth_error (set_nth h w wo1) w = Some wo1) by (eapply nth_error_set_nth_same; eauto).
    assert (X : ext h (set_nth h w wo1)) by (eapply ext_set_nth; eauto; repeat split).
    destruct (add_children_spec news (set_nth h w wo1) w wo1 KPolygon) as
      (done & rest & h' & r & A1 & A2 & A3 & A4 & A5 & A6); auto.
    { apply del_child_wf; auto. }
    { unfold wo1. simpl. rewrite K. reflexivity. }
    { eapply Forall_impl; [|exact F]. intros y. apply ext_is_kind; auto. }
    assert (Nm : forall y, In y news -> name_in (set_nth h w wo1) y = name_in h y).
    { intros y Iy. rewrite Forall_forall in F. destruct (F y Iy) as (yo & Ey & _). apply ext_name_in; auto. congruence. }
    destruct (W w wo E) as (ND & _).
    eexists done, rest, h', r, _. split; [exact A1|]. split; [exact A2|]. split; [exact A3|].
    assert (Ech : ddel (o_children wo) old ++ map (fun c => (name_in (set_nth h w wo1) c, c)) done =
      filter (fun e => negb (eqb (fst e) old)) (o_children wo) ++ map (fun c => (name_in h c, c)) done).
    { rewrite ddel_filter by exact ND. f_equal. apply map_ext_in. intros y Iy. rewrite Nm; auto.
      rewrite A2. apply in_app_iff. auto. }
    split; [reflexivity|]. split; [reflexivity|]. split; [simpl; exact Ech|]. split; [|split].
    + destruct A4 as [A4|(R & c & rest' & Er & Ir)]; auto. right. split; auto. exists c, rest'. split; auto.
      simpl. unfold dkeys in *. rewrite map_app, map_map. simpl in *. rewrite Nm in Ir; [|rewrite A2, Er; apply in_app_iff; simpl; auto].
      rewrite <- (Nm c) in * by (rewrite A2, Er; apply in_app_iff; simpl; auto). exact Ir.
    + intros i Ni Di. rewrite A5 by auto. apply nth_error_set_nth_other; auto.
    + intros i o Ii Ei. apply A6; auto. rewrite nth_error_set_nth_other; auto. intros ->.
      rewrite Forall_forall in F. destruct (F w) as (x1 & Ex & Kx); [rewrite A2; apply in_app_iff; auto|].
      rewrite E in Ex. inversion Ex; subst x1. congruence.
Qed.

Lemma replace_wall_spec h s so old nw nwo : wf h -> nth_error h s = Some so -> o_kind so = KSolid ->
  nth_error h nw = Some nwo -> o_kind nwo = KWall ->
  (~ In old (dkeys (o_children so)) -> replace_wall h s old nw = (h, Err KeyError)) /\
  (In old (dkeys (o_children so)) ->
   (~ In (o_name nwo) (filter (fun n => negb (eqb n old)) (dkeys (o_children so))) ->
    exists h', replace_wall h s old nw = (h', Ok tt) /\
      nth_error h' s = Some (set_children so
         (filter (fun e => negb (eqb (fst e) old)) (o_children so) ++ [(o_name nwo, nw)])) /\
      nth_error h' nw = Some (set_parent nwo s) /\
      (forall i, i <> s -> i <> nw -> nth_error h' i = nth_error h i)) /\
   (In (o_name nwo) (filter (fun n => negb (eqb n old)) (dkeys (o_children so))) ->
    exists h', replace_wall h s old nw = (h', Err GeometryError) /\
      nth_error h' s = Some (set_children so
         (filter (fun e => negb (eqb (fst e) old)) (o_children so))) /\
      (forall i, i <> s -> nth_error h' i = nth_error h i))).
Proof.
  intros W E K En Kn. unfold replace_wall. rewrite (proj2 (deref_ok _ _ _) E), K. split.
  - intros N. rewrite (proj2 (dget_None _ _) N). reflexivity.
  - intros I. destruct (dget (o_children so) old) as [x|] eqn:G; [|apply dget_None in G; tauto].
    destruct (W s so E) as (ND & _). rewrite ddel_filter by exact ND.
    assert (Ek : filter (fun n => negb (eqb n old)) (dkeys (o_children so)) =
                 dkeys (filter (fun e => negb (eqb (fst e) old)) (o_children so))).
    { unfold dkeys. clear. induction (o_children so) as [|(a, b) d IH]; simpl; auto.
      destruct (eqb a old); simpl; congruence. }
    rewrite Ek. clear Ek.
    set (d := filter (fun e => negb (eqb (fst e) old)) (o_children so)).
    assert (E1 : nth_error (set_nth h s (set_children so d)) s = Some (set_children so d))
      by (eapply nth_error_set_nth_same; eauto).
    assert (Nsn : nw <> s) by (intros ->; congruence).
    assert (E2 : nth_error (set_nth h s (set_children so d)) nw = Some nwo)
      by (rewrite nth_error_set_nth_other; auto).
    unfold add_child. rewrite (proj2 (deref_ok _ _ _) E1), (proj2 (deref_ok _ _ _) E2). simpl. rewrite K, Kn.
    simpl (kind_eqb _ _). cbn iota. split; intros M.
    + rewrite (proj2 (memb_false _ _) M), dset_new by exact M. eexists. split; [reflexivity|].
      split; [|split].
      * eapply nth_error_set_nth_same. rewrite nth_error_set_nth_other by auto. exact E1.
      * rewrite nth_error_set_nth_other by auto. eapply nth_error_set_nth_same; eauto.
      * intros i A B. rewrite !nth_error_set_nth_other; auto.
    + rewrite (proj2 (memb_true _ _) M). eexists. split; [reflexivity|]. split; [exact E1|].
      intros i A. apply nth_error_set_nth_other; auto.
Qed.

(** ** stitch.replace_polygon *)

Lemma replace_polygon_ext h w old news : ext h (fst (replace_polygon h w old news)).
Proof.
  unfold replace_polygon. destruct (deref h w) as [wo|] eqn:E; [|apply ext_refl]. apply deref_ok in E.
  destruct (o_kind wo); try apply ext_refl. destruct (dget (o_children wo) old); [|apply ext_refl].
  apply (ext_trans _ (set_nth h w (set_children wo (ddel (o_children wo) old)))).
  - eapply ext_set_nth; eauto. repeat split.
  - apply add_children_ext.
Qed.

Lemma replace_named_none wpl : forall h name news,
  (forall w p, In (w, p) wpl -> exists o, nth_error h p = Some o /\ o_name o <> name) ->
  replace_named h wpl name news = (h, Ok tt).
Proof.
  induction wpl as [|(w, p) wpl IH]; intros h name news F; simpl; auto.
  destruct (F w p (or_introl eq_refl)) as (o & E & N).
  rewrite (proj2 (deref_ok _ _ _) E), eqb_neq by exact N. apply IH. intros w' p' I. apply (F w' p'). simpl. auto.
Qed.

Lemma replace_named_one l1 w p l2 h po name news :
  (forall w' p', In (w', p') (l1 ++ l2) -> exists o, nth_error h p' = Some o /\ o_name o <> name) ->
  nth_error h p = Some po -> o_name po = name ->
  replace_named h (l1 ++ (w, p) :: l2) name news = replace_polygon h w name news.
Proof.
  intros F Ep Np. induction l1 as [|(w', p') l1 IH]; simpl.
  - rewrite (proj2 (deref_ok _ _ _) Ep), Np, eqb_refl.
    pose proof (replace_polygon_ext h w name news) as X.
    destruct (replace_polygon h w name news) as (h', [[]|e]); auto. simpl in X.
    apply replace_named_none. intros w2 p2 I. destruct (F w2 p2) as (o & E & N); auto.
    destruct (X p2 o E) as (o' & E' & _ & Nm & _). exists o'. split; auto. congruence.
  - destruct (F w' p') as (o & E & N); [simpl; auto|].
    rewrite (proj2 (deref_ok _ _ _) E), eqb_neq by exact N. apply IH; intros wx px I; apply (F wx px); simpl; auto.
Qed.

Lemma walls_and_polygons_ok h s so : wf h -> nth_error h s = Some so ->
  walls_and_polygons h s =
  Ok (flat_map (fun '(_, w) => match nth_error h w with
        | Some wo => map (fun '(_, p) => (w, p)) (o_children wo) | None => [] end) (o_children so)).
Proof.
  intros W E. unfold walls_and_polygons. rewrite (kids_ok h s so E). cbn [rbind].
  apply concatM_ok. intros (wn, w) I. destruct (W s so E) as (_ & B & _).
  destruct (B wn w I) as (wo & Ew & _). rewrite (kids_ok h w wo Ew), Ew. reflexivity.
Qed.

Lemma solid_replace_unique h s so wn w wo old oo p news : wf h ->
  nth_error h s = Some so -> nth_error h old = Some oo ->
  In (wn, w) (o_children so) -> nth_error h w = Some wo -> In (o_name oo, p) (o_children wo) ->
  (forall wn' w' wo', In (wn', w') (o_children so) -> nth_error h w' = Some wo' ->
     In (o_name oo) (dkeys (o_children wo')) -> w' = w) ->
  solid_replace_polygon h s old news = replace_polygon h w (o_name oo) news.
Proof.
  intros W Es Eo Iw Ew Ip U. unfold solid_replace_polygon.
  rewrite (walls_and_polygons_ok h s so W Es), (proj2 (deref_ok _ _ _) Eo).
  destruct (W s so Es) as (NDs & Bs & _). destruct (W w wo Ew) as (NDw & Bw & _).
  destruct (in_split _ _ Iw) as (d1 & d2 & Ed). destruct (in_split _ _ Ip) as (e1 & e2 & Ee).
  destruct (Bw _ _ Ip) as (po & Ep & Np & _).
  rewrite Ed, flat_map_app. simpl. rewrite Ew, Ee, map_app. simpl.
  match goal with |- replace_named _ (?a ++ (?b ++ ?x :: ?c) ++ ?d) _ _ = _ =>
    replace (a ++ (b ++ x :: c) ++ d) with ((a ++ b) ++ x :: (c ++ d)) by (rewrite <- !app_assoc; reflexivity) end.
  apply (replace_named_one _ w p _ h po); auto.
  assert (Other : forall w' p', In (w', p') (flat_map (fun '(_, w0) => match nth_error h w0 with
        | Some wo0 => map (fun '(_, p0) => (w0, p0)) (o_children wo0) | None => [] end) (d1 ++ d2)) ->
      exists o, nth_error h p' = Some o /\ o_name o <> o_name oo).
  { intros w' p' I. apply in_flat_map in I. destruct I as ((wn', w0) & I0 & I).
    destruct (nth_error h w0) as [wo0|] eqn:E0; [|destruct I].
    apply in_map_iff in I. destruct I as ((pn, p0) & Q & I). inversion Q; subst w' p'. clear Q.
    assert (I1 : In (wn', w0) (o_children so)).
    { rewrite Ed. apply in_app_iff in I0. apply in_app_iff. simpl. tauto. }
    destruct (W w0 wo0 E0) as (_ & B0 & _). destruct (B0 _ _ I) as (o & Eo' & Nn & _).
    exists o. split; auto. rewrite Nn. intros ->.
    assert (w0 = w).
    { eapply U; eauto. apply (in_map fst) in I. exact I. }
    subst w0. destruct (Bs _ _ I1) as (c1 & Ec1 & N1 & _). destruct (Bs _ _ Iw) as (c2 & Ec2 & N2 & _).
    assert (Hwn : wn' = wn) by congruence. rewrite Hwn in I0. clear Hwn.
    unfold dkeys in NDs. rewrite Ed, map_app in NDs. simpl in NDs. apply NoDup_remove_2 in NDs. apply NDs.
    rewrite <- map_app. apply (in_map fst) in I0. exact I0. }
  assert (Same : forall pn p', In (pn, p') (e1 ++ e2) -> exists o, nth_error h p' = Some o /\ o_name o <> o_name oo).
  { intros pn p' I. assert (I' : In (pn, p') (o_children wo)).
    { rewrite Ee. apply in_app_iff in I. apply in_app_iff. simpl. tauto. }
    destruct (Bw _ _ I') as (o & E' & N' & _). exists o. split; auto. rewrite N'. intros ->.
    unfold dkeys in NDw. rewrite Ee, map_app in NDw. simpl in NDw. apply NoDup_remove_2 in NDw. apply NDw.
    rewrite <- map_app. apply (in_map fst) in I. exact I. }
  intros w' p' I. rewrite !in_app_iff in I.
  destruct I as [[I|I]|[I|I]].
  - apply (Other w' p'). rewrite flat_map_app, in_app_iff. auto.
  - apply in_map_iff in I. destruct I as ((pn, p0) & Q & I). inversion Q; subst. apply (Same pn). apply in_app_iff. auto.
  - apply in_map_iff in I. destruct I as ((pn, p0) & Q & I). inversion Q; subst. apply (Same pn). apply in_app_iff. auto.
  - apply (Other w' p'). rewrite flat_map_app, in_app_iff. auto.
Qed.

(** ** Remaining facts used by the property file *)

Lemma add_child_refused h p c po co : nth_error h p = Some po -> nth_error h c = Some co ->
  child_kind (o_kind po) = Some (o_kind co) ->
  (snd (add_child h p c) = Err GeometryError <-> In (o_name co) (dkeys (o_children po))) /\
  (snd (add_child h p c) = Ok tt <-> ~ In (o_name co) (dkeys (o_children po))).
Proof.
  intros Ep Ec K. unfold add_child.
  rewrite (proj2 (deref_ok _ _ _) Ep), (proj2 (deref_ok _ _ _) Ec), K, (proj2 (kind_eqb_eq _ _) eq_refl).
  destruct (memb (o_name co) (dkeys (o_children po))) eqn:M.
  - apply memb_true in M. simpl. split; split; intros; auto; try discriminate; contradiction.
  - apply memb_false in M. simpl. split; split; intros; auto; try discriminate; contradiction.
Qed.

Lemma shared_object_counterexample :
  ~ (forall int_of ops b bo names i p,
       nth_error (run [] ops) b = Some bo -> o_kind bo = KBuilding ->
       descends (run [] ops) b names i -> path (run [] ops) i = Ok p ->
       building_get int_of (run [] ops) b p = Ok (GotObj i)).
Proof.
  intros H.
  set (ops := [ OpNew KBuilding (str_of "b") 0 []; OpNew KZone (str_of "z") 0 []; OpNew KBuilding (str_of "c") 0 [];
                OpAdd 0 1; OpAdd 2 1 ]).
  assert (D : descends (run [] ops) 0 [str_of "z"] 1).
  { apply (follow_descends _ _ 0 _ 1 (run_wf ops [] wf_nil) eq_refl). reflexivity. }
  specialize (H (fun _ => None) ops 0 _ _ 1 (str_of "c/z") eq_refl eq_refl D eq_refl).
  vm_compute in H. discriminate.
Qed.

Lemma descends_class h b bo names i : wf h -> nth_error h b = Some bo -> o_kind bo = KBuilding ->
  descends h b names i ->
  exists o, nth_error h i = Some o /\
    nth_error [KBuilding; KZone; KSolid; KWall; KPolygon] (length names) = Some (o_kind o).
Proof.
  intros W E K D. destruct (descends_kind h b bo names i W E K D) as (o & Ei & Dk & _).
  exists o. split; auto. rewrite <- Dk. pose proof (depth_kind_le4 _ _ Dk).
  destruct (length names) as [|[|[|[|[|n]]]]]; auto; lia.
Qed.

Lemma obj_get_orphan int_of h i o p : nth_error h i = Some o -> o_kind o <> KBuilding ->
  o_parent o = None -> obj_get int_of h i p = Err RecursionError.
Proof.
  intros E K P. unfold obj_get. cbn [root_fuel]. rewrite (proj2 (deref_ok _ _ _) E). cbn [rbind]. rewrite P.
  destruct (o_kind o) eqn:Ko; try congruence; cbn [rbind]; rewrite (proj2 (deref_ok _ _ _) E); cbn [rbind];
    rewrite Ko; reflexivity.
Qed.

Lemma listed_paths_resolve int_of h b bo l p : wf h -> nth_error h b = Some bo -> o_kind bo = KBuilding ->
  building_polygon_paths h b = Ok l -> In p l ->
  exists i o, building_get int_of h b p = Ok (GotObj i) /\ nth_error h i = Some o /\ o_kind o = KPolygon.
Proof.
  intros W E K El Ip. destruct (building_paths_spec h b bo W E K) as (l' & El' & _ & Sp).
  rewrite El in El'. inversion El'; subst l'. apply Sp in Ip.
  destruct Ip as (names & i & o & -> & D & Ei & Ko). exists i, o. split; [|auto].
  apply (building_get_obj int_of h b bo _ i W E). exists names.
  destruct (descends_kind h b bo names i W E K D) as (o' & _ & Dk & F).
  pose proof (depth_kind_le4 _ _ Dk). auto.
Qed.

Lemma replace_not_atomic :
  ~ (forall h w old news e, snd (replace_polygon h w old news) = Err e ->
       fst (replace_polygon h w old news) = h).
Proof.
  intros H.
  specialize (H [ mkObj KWall (str_of "w") None [(str_of "a", 1); (str_of "b", 2)] 0;
                  mkObj KPolygon (str_of "a") (Some 0) [] 3; mkObj KPolygon (str_of "b") (Some 0) [] 3 ]
                0 (str_of "a") [2] GeometryError eq_refl).
  vm_compute in H. discriminate.
Qed.

Lemma replaces_both_walls :
  ~ (forall ops s old oo news w wo,
       let h := run [] ops in
       nth_error h old = Some oo -> nth_error h w = Some wo -> o_kind wo = KWall ->
       o_parent oo <> Some w ->
       nth_error (fst (solid_replace_polygon h s old news)) w = Some wo).
Proof.
  intros H.
  specialize (H [ OpNew KSolid (str_of "s") 0 []; OpNew KWall (str_of "w1") 0 []; OpNew KWall (str_of "w2") 0 [];
    OpNew KPolygon (str_of "p") 4 []; OpNew KPolygon (str_of "p") 4 []; OpNew KPolygon (str_of "n") 3 [];
    OpAdd 0 1; OpAdd 0 2; OpAdd 1 3; OpAdd 2 4 ] 0 3 _ [5] 2 _ eq_refl eq_refl eq_refl).
  vm_compute in H. assert (C : Some 1 <> Some 2) by congruence. specialize (H C). discriminate.
Qed.
