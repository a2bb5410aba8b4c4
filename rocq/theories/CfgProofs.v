(** Proofs about surface parameters. *)
From Coq Require Import Ascii String List Arith Bool ZArith Lia.
From Verif Require Import Prelude TreeModel TreeSpec TreeProofs TreeProofs2 MeshModel CfgModel CfgSpec.
Import ListNotations.

(** ** Paths *)
Lemma split_on_sep c a b : split_on c (a ++ c :: b) = split_on c a ++ split_on c b.
Proof.
  induction a as [|x a IH]; cbn [app split_on].
  - rewrite Ascii.eqb_refl. auto.
  - destruct (Ascii.eqb x c); [rewrite IH; auto|]. rewrite IH.
    destruct (split_on_cons c a) as (w & ws & E). rewrite E. auto.
Qed.

Lemma join_app c l1 l2 : l1 <> [] -> l2 <> [] -> join_with c (l1 ++ l2) = join_with c l1 ++ c :: join_with c l2.
Proof.
  intros N1 N2. induction l1 as [|w l1 IH]; [congruence|]. destruct l1 as [|w' l1].
  - destruct l2 as [|u l2]; [congruence|]. auto.
  - cbn [app]. rewrite !join_cons_cons. rewrite <- app_assoc. cbn [app]. f_equal. f_equal. apply IH. discriminate.
Qed.

Lemma at_or_below_pieces n1 n2 : n1 <> [] -> n2 <> [] ->
  Forall (fun w => ~ In PATH_SEP w) n1 -> Forall (fun w => ~ In PATH_SEP w) n2 ->
  (at_or_below (join_with PATH_SEP n1) (join_with PATH_SEP n2) <-> exists ns, n2 = n1 ++ ns).
Proof.
  intros N1 N2 F1 F2. split.
  - intros [E|(r & E)].
    + exists []. rewrite app_nil_r. apply (f_equal (split_on PATH_SEP)) in E. rewrite !split_join in E; auto.
    + exists (split_on PATH_SEP r). apply (f_equal (split_on PATH_SEP)) in E. change "/"%char with PATH_SEP in E.
      rewrite split_on_sep in E. rewrite !split_join in E; auto.
  - intros (ns & ->). destruct ns as [|n ns]; [left; rewrite app_nil_r; auto|]. right.
    exists (join_with PATH_SEP (n :: ns)). apply join_app; auto. discriminate.
Qed.

Lemma descends_split h b l1 : forall l2 j, descends h b (l1 ++ l2) j -> exists i, descends h b l1 i /\ descends h i l2 j.
Proof.
  intros l2. induction l2 as [|x l2 IH] using rev_ind; intros j D.
  - rewrite app_nil_r in D. exists j. split; auto. constructor.
  - rewrite app_assoc in D. inversion D as [E|names j' o key c D' Ej Ic E E2].
    + destruct (l1 ++ l2); discriminate.
    + apply app_inj_tail in E. destruct E as (-> & ->). destruct (IH j' D') as (i & D1 & D2). exists i. split; auto.
      econstructor; eauto.
Qed.

Lemma descends_unique h b names i : wf h -> forall j, descends h b names i -> descends h b names j -> i = j.
Proof.
  intros W. revert i. induction names as [|n names IH] using rev_ind; intros i j D1 D2.
  - inversion D1 as [E|? ? ? ? ? ? ? ? E]; [|destruct names; discriminate].
    inversion D2 as [E2|? ? ? ? ? ? ? ? E2]; [|destruct names; discriminate]. congruence.
  - inversion D1 as [E|n1 j1 o1 k1 c1 A1 B1 C1 E]; [destruct names; discriminate|]. apply app_inj_tail in E. destruct E as (-> & ->).
    inversion D2 as [E|n2 j2 o2 k2 c2 A2 B2 C2 E]; [destruct names; discriminate|]. apply app_inj_tail in E. destruct E as (-> & ->).
    assert (j1 = j2) by (eapply IH; eauto). subst. rewrite B1 in B2. inversion B2; subst.
    destruct (W _ _ B1) as (ND & _). clear - ND C1 C2. induction (o_children o2) as [|(k, v) d IHd]; [destruct C1|].
    simpl in *. inversion ND; subst. destruct C1 as [C1|C1], C2 as [C2|C2]; try congruence; auto.
    + inversion C1; subst. exfalso. apply H1. apply in_map_iff. exists (n, j). auto.
    + inversion C2; subst. exfalso. apply H1. apply in_map_iff. exists (n, i). auto.
Qed.

Section Building.
  Context (h : heap) (W : wf h) (L : linked h) (b : oid) (bo : obj) (Eb : nth_error h b = Some bo) (Kb : o_kind bo = KBuilding).
  Context (int_of : str -> option Z) {V : Type}.

  Lemma listed_in p l : building_polygon_paths h b = Ok l ->
    (In p l <-> exists names i o, p = join_with PATH_SEP (o_name bo :: names) /\
        descends h b names i /\ nth_error h i = Some o /\ o_kind o = KPolygon).
  Proof.
    intros E. destruct (building_paths_spec h b bo W Eb Kb) as (l' & E' & _ & S). rewrite E in E'. inversion E'; subst. auto.
  Qed.

  Lemma parent_of_child j o key c : nth_error h j = Some o -> In (key, c) (o_children o) ->
    exists co, nth_error h c = Some co /\ o_parent co = Some j /\ o_name co = key.
  Proof.
    intros E I. destruct (L j o key c E I) as (co & Ec & P). exists co. destruct (W j o E) as (_ & B & _).
    destruct (B key c I) as (co' & Ec' & N & _). split; auto. split; auto. congruence.
  Qed.

  Lemma container_paths names i o : descends h b names i -> nth_error h i = Some o -> o_kind o <> KPolygon ->
    polygon_paths_of h i = Ok (paths_below h (4 - length names) (o_name bo :: names) i).
  Proof.
    intros D E NK. destruct (descends_kind h b bo names i W Eb Kb D) as (o' & E' & DK & _). rewrite E in E'. inversion E'; subst o'.
    unfold polygon_paths_of. rewrite (proj2 (deref_ok _ _ _) E). cbn [rbind].
    inversion D as [Q|n1 i1 o1 k1 c1 D1 E1 I1 Q Q2]; subst.
    { assert (o = bo) by congruence. subst. rewrite Kb. apply building_paths_ok; auto. }
    destruct (parent_of_child i1 o1 k1 i E1 I1) as (x & Ex & Px & Nx). rewrite E in Ex. inversion Ex; subst x.
    inversion D1 as [Q|n2 i2 o2 k2 c2 D2 E2 I2 Q Q2]; subst.
    { simpl in DK. injection DK as DK. rewrite <- DK. assert (o1 = bo) by congruence. subst.
      apply zone_paths_ok with (b := i1); auto. }
    destruct (parent_of_child i2 o2 k2 i1 E2 I2) as (x & Ex2 & Px2 & Nx2). rewrite E1 in Ex2. inversion Ex2; subst x.
    inversion D2 as [Q|n3 i3 o3 k3 c3 D3 E3 I3 Q Q2]; subst.
    { simpl in DK. injection DK as DK. rewrite <- DK. assert (o2 = bo) by congruence. subst.
      apply solid_paths_ok with (b := i2) (z := i1); auto. }
    destruct (parent_of_child i3 o3 k3 i2 E3 I3) as (x & Ex3 & Px3 & Nx3). rewrite E2 in Ex3. inversion Ex3; subst x.
    inversion D3 as [Q|n4 i4 o4 k4 c4 D4 E4 I4 Q Q2]; subst.
    { simpl in DK. injection DK as DK. rewrite <- DK. assert (o3 = bo) by congruence. subst.
      apply wall_paths_ok with (b := i3) (z := i2) (s := i1); auto. }
    exfalso. rewrite !app_length in DK. simpl in DK. rewrite Nat.add_1_r, !Nat.add_1_r in DK.
    destruct (length n4) as [|m]; [simpl in DK; congruence|].
    replace (S (S (S (S (S m))))) with (5 + m) in DK by lia. rewrite depth_kind_none in DK. discriminate.
  Qed.

  (** What [get] of a text that is a prefix of a listed path returns. *)
  Lemma paths_below_in names i p l : building_polygon_paths h b = Ok l -> descends h b names i ->
    (In p (paths_below h (4 - length names) (o_name bo :: names) i) <->
     In p l /\ at_or_below (join_with PATH_SEP (o_name bo :: names)) p).
  Proof.
    intros El D. rewrite (listed_in p l El).
    destruct (descends_kind h b bo names i W Eb Kb D) as (o & E & DK & F).
    destruct (W b bo Eb) as (_ & _ & _ & Nb).
    assert (Len := depth_kind_le4 _ _ DK).
    assert (F4 : forall nm j, descends h b nm j -> Forall (fun w => ~ In PATH_SEP w) (o_name bo :: nm)).
    { intros nm j Dj. destruct (descends_kind h b bo nm j W Eb Kb Dj) as (_ & _ & _ & Fj). constructor; auto. }
    unfold paths_below. rewrite in_map_iff. split.
    - intros ((ns, j) & <- & I). apply in_below in I. destruct I as (Ln & Dj).
      assert (Df := descends_trans h b names i ns j D Dj).
      destruct (descends_kind h b bo _ j W Eb Kb Df) as (oj & Ej & DKj & _).
      rewrite app_length, Ln in DKj. replace (length names + (4 - length names)) with 4 in DKj by lia.
      simpl in DKj. split.
      + exists (names ++ ns), j, oj. split; auto. split; auto. split; auto. congruence.
      + change (o_name bo :: names) with ([o_name bo] ++ names). rewrite <- app_assoc. cbn [app].
        apply at_or_below_pieces; try discriminate; try (eapply F4; eauto). exists ns. auto.
    - intros ((nm & j & oj & -> & Dj & Ej & Kj) & AB). apply at_or_below_pieces in AB; try discriminate; try (eapply F4; eauto).
      destruct AB as (ns & AB). cbn [app] in AB. inversion AB; subst nm. exists (ns, j). split; auto.
      apply in_below. destruct (descends_split h b names ns j Dj) as (i' & D1 & D2).
      rewrite (descends_unique h b names i W i' D D1). split; auto.
      destruct (descends_kind h b bo _ j W Eb Kb Dj) as (oj' & Ej' & DKj & _). rewrite Ej in Ej'. inversion Ej'; subst oj'.
      rewrite Kj, app_length in DKj. pose proof (depth_kind_le4 _ _ DKj).
      unfold str in *. remember (length names + length ns) as m eqn:Em.
      assert (m = 4) by (destruct m as [|[|[|[|[|m]]]]]; simpl in DKj; try discriminate; auto; lia). lia.
  Qed.

  Lemma prefix_resolves sp p l : building_polygon_paths h b = Ok l -> In p l -> at_or_below sp p ->
    exists names i o, sp = join_with PATH_SEP (o_name bo :: names) /\ descends h b names i /\ nth_error h i = Some o /\
      building_get int_of h b sp = Ok (GotObj i).
  Proof.
    intros El I AB. apply (listed_in p l El) in I. destruct I as (nm & j & oj & -> & Dj & Ej & Kj).
    destruct (descends_kind h b bo nm j W Eb Kb Dj) as (oj2 & _ & DKj & Fj).
    assert (Lj := depth_kind_le4 _ _ DKj).
    destruct (W b bo Eb) as (_ & _ & _ & Nb).
    assert (Esp : sp = join_with PATH_SEP (split_on PATH_SEP sp)) by (rewrite join_split; auto).
    destruct (split_on_cons PATH_SEP sp) as (w & ws & Es).
    rewrite Esp in AB. apply at_or_below_pieces in AB; try discriminate.
    2:{ rewrite Es. discriminate. }
    2:{ apply split_pieces. }
    2:{ constructor; auto. }
    destruct AB as (ns & AB). rewrite Es in AB. cbn [app] in AB. inversion AB; subst w nm.
    destruct (descends_split h b ws ns j Dj) as (i & D1 & D2).
    destruct (descends_kind h b bo ws i W Eb Kb D1) as (o & E & DK & F).
    exists ws, i, o. rewrite <- Es. split; auto. split; auto. split; auto.
    apply (building_get_obj int_of h b bo sp i W Eb). exists ws. rewrite <- Es. split; auto. split; auto.
    eapply depth_kind_le4; eauto.
  Qed.

  (** ** Values *)
  Lemma value_set_value (sf sf' : dict str (dict str V)) param key v : set_value sf param key v = Ok sf' ->
    forall param' p, value_of sf' param' p = if eq_dec param' param then (if eq_dec p key then Some v else value_of sf param' p) else value_of sf param' p.
  Proof.
    unfold set_value, dlookup. destruct (dget sf param) as [d|] eqn:D; cbn [rbind]; [|discriminate]. intros E. inversion E; subst.
    intros param' p. unfold value_of. destruct (eq_dec param' param) as [->|N].
    - rewrite dget_dset_same, D. destruct (eq_dec p key) as [->|N]; [rewrite dget_dset_same; auto|rewrite dget_dset_other; auto].
    - rewrite dget_dset_other by auto. auto.
  Qed.

  Lemma value_set_many (l : list str) param (v : V) : forall (sf sf' : dict str (dict str V)),
    foldM (fun sf path => set_value sf param path v) l sf = Ok sf' ->
    forall param' p, value_of sf' param' p =
      if eq_dec param' param then (if in_dec eq_dec p l then Some v else value_of sf param' p) else value_of sf param' p.
  Proof.
    induction l as [|k l IH]; intros sf sf' E param' p; cbn [foldM] in E.
    - inversion E; subst. destruct (eq_dec param' param); auto.
    - destruct (set_value sf param k v) as [sf1|] eqn:E1; cbn [rbind] in E; [|discriminate].
      rewrite (IH sf1 sf' E). rewrite (value_set_value _ _ _ _ _ E1).
      destruct (eq_dec param' param); auto. destruct (in_dec eq_dec p l), (in_dec eq_dec p (k :: l)), (eq_dec p k); subst; simpl in *; auto; intuition congruence.
  Qed.

  Lemma set_value_ok (sf : dict str (dict str V)) param key v : dget sf param <> None -> exists sf', set_value sf param key v = Ok sf' /\ dget sf' param <> None.
  Proof.
    unfold set_value, dlookup. intros N. destruct (dget sf param) as [d|] eqn:D; [|congruence]. cbn [rbind].
    eexists. split; [reflexivity|]. rewrite dget_dset_same. discriminate.
  Qed.

  Lemma set_many_ok (l : list str) param (v : V) : forall (sf : dict str (dict str V)), dget sf param <> None ->
    exists sf', foldM (fun sf path => set_value sf param path v) l sf = Ok sf'.
  Proof.
    induction l as [|k l IH]; intros sf N; cbn [foldM]; [eauto|]. destruct (set_value_ok sf param k v N) as (sf1 & E & N1).
    rewrite E. cbn [rbind]. auto.
  Qed.

  Lemma set_param_effect (sf sf' : dict str (dict str V)) param sp v l : building_polygon_paths h b = Ok l ->
    set_surface_param int_of h b sf param sp v = Ok sf' -> forall param' p,
    (param' = param /\ In p l /\ at_or_below sp p -> value_of sf' param' p = Some v) /\
    (~ (param' = param /\ In p l /\ at_or_below sp p) -> value_of sf' param' p = value_of sf param' p).
  Proof.
    intros El S param' p. unfold set_surface_param in S.
    destruct (building_get int_of h b sp) as [[i|i k]|] eqn:G; cbn [rbind] in S; try discriminate.
    apply (building_get_obj int_of h b bo sp i W Eb) in G. destruct G as (names & -> & Ln & F & D).
    destruct (descends_kind h b bo names i W Eb Kb D) as (o & E & DK & _).
    rewrite (proj2 (deref_ok _ _ _) E) in S. cbn [rbind] in S.
    assert (PB := paths_below_in names i p l El D).
    destruct (o_kind o) eqn:K.
    5:{ rewrite (value_set_value _ _ _ _ _ S).
        assert (L4 : length names = 4).
        { clear - DK Ln. destruct (length names) as [|[|[|[|[|n]]]]]; simpl in DK; try discriminate; auto; lia. }
        rewrite L4 in PB. unfold paths_below in PB. cbn [Nat.sub below map] in PB. rewrite app_nil_r in PB.
        destruct (eq_dec param' param) as [->|N]; [|split; [tauto|auto]].
        destruct (eq_dec p (join_with PATH_SEP (o_name bo :: names))) as [->|N].
        - split; auto. intros X. exfalso. apply X. split; auto. apply PB. left. auto.
        - split; [|auto]. intros (_ & X). apply PB in X. destruct X as [X|[]]. congruence. }
    all: (assert (NP : o_kind o <> KPolygon) by congruence;
      rewrite (container_paths names i o D E NP) in S; cbn [rbind] in S;
      rewrite (value_set_many _ _ _ _ _ S);
      destruct (eq_dec param' param) as [->|N]; [|split; [tauto|auto]];
      destruct (in_dec eq_dec p (paths_below h (4 - length names) (o_name bo :: names) i)) as [I|NI];
      [split; auto; intros X; exfalso; apply X; split; auto; apply PB; auto
      |split; [|auto]; intros (_ & X); apply PB in X; contradiction]).
  Qed.

  (** A call succeeds when the path names an object (not a point) and the
      parameter exists; otherwise the error of [get] is raised. *)
  Lemma set_param_ok (sf : dict str (dict str V)) param sp v i : building_get int_of h b sp = Ok (GotObj i) -> dget sf param <> None ->
    exists sf', set_surface_param int_of h b sf param sp v = Ok sf'.
  Proof.
    intros G N. unfold set_surface_param. rewrite G. cbn [rbind].
    apply (building_get_obj int_of h b bo sp i W Eb) in G. destruct G as (names & -> & Ln & F & D).
    destruct (descends_kind h b bo names i W Eb Kb D) as (o & E & DK & _).
    rewrite (proj2 (deref_ok _ _ _) E). cbn [rbind]. destruct (o_kind o) eqn:K.
    5:{ destruct (set_value_ok sf param (join_with PATH_SEP (o_name bo :: names)) v N) as (sf' & X & _). eauto. }
    all: (assert (NP : o_kind o <> KPolygon) by congruence;
      rewrite (container_paths names i o D E NP); cbn [rbind]; apply set_many_ok; auto).
  Qed.

  Lemma set_param_err (sf : dict str (dict str V)) param sp v :
    (forall e, building_get int_of h b sp = Err e -> set_surface_param int_of h b sf param sp v = Err e) /\
    (forall i k, building_get int_of h b sp = Ok (GotPoint i k) -> set_surface_param int_of h b sf param sp v = Err TypeError).
  Proof. unfold set_surface_param. split; [intros e E|intros i k E]; rewrite E; auto. Qed.

  Lemma value_has_param (sf : dict str (dict str V)) param p v : value_of sf param p = Some v -> dget sf param <> None.
  Proof. unfold value_of. destruct (dget sf param); discriminate. Qed.

  (** The set of parameters never changes. *)
  Lemma set_many_keeps (l : list str) param param' (v : V) : forall sf sf' : dict str (dict str V), foldM (fun sf path => set_value sf param path v) l sf = Ok sf' ->
    dget sf param' <> None -> dget sf' param' <> None.
  Proof.
    induction l as [|k l IH]; intros sf sf' E N; cbn [foldM] in E; [inversion E; subst; auto|].
    destruct (set_value sf param k v) as [sf1|] eqn:E1; cbn [rbind] in E; [|discriminate]. apply (IH sf1); auto.
    unfold set_value in E1. destruct (dlookup sf param); cbn [rbind] in E1; [|discriminate]. inversion E1; subst.
    destruct (eq_dec param' param) as [->|X]; [rewrite dget_dset_same; discriminate|rewrite dget_dset_other; auto].
  Qed.

  Lemma set_param_keeps (sf sf' : dict str (dict str V)) param sp v param' : set_surface_param int_of h b sf param sp v = Ok sf' ->
    dget sf param' <> None -> dget sf' param' <> None.
  Proof.
    unfold set_surface_param. intros S N.
    destruct (building_get int_of h b sp) as [[i|i k]|] eqn:G; cbn [rbind] in S; try discriminate.
    destruct (deref h i) as [o|]; cbn [rbind] in S; [|discriminate].
    assert (One : set_value sf param sp v = Ok sf' -> dget sf' param' <> None).
    { intros X. apply (set_many_keeps [sp] param param' v sf sf'); auto. cbn [foldM]. rewrite X. auto. }
    destruct (o_kind o); auto; (destruct (polygon_paths_of h i); cbn [rbind] in S; [|discriminate]; eapply set_many_keeps; eauto).
  Qed.

  (** ** Sequences of settings *)
  Lemma settings_untouched l (st : list (str * str * V)) param p : building_polygon_paths h b = Ok l ->
    forall sf, (forall sp v, In (param, sp, v) st -> ~ (In p l /\ at_or_below sp p)) ->
    value_of (apply_settings int_of h b sf st) param p = value_of sf param p.
  Proof.
    intros El. induction st as [|((q, sp), v) st IH]; intros sf U; auto. cbn [apply_settings].
    destruct (set_surface_param int_of h b sf q sp v) as [sf'|] eqn:S.
    - rewrite IH by (intros; eapply U; simpl; eauto).
      apply (set_param_effect sf sf' q sp v l El S param p). intros (-> & X). apply (U sp v); simpl; auto.
    - apply IH. intros; eapply U; simpl; eauto.
  Qed.

  Lemma settings_last l st1 param sp (v : V) st2 p sf : building_polygon_paths h b = Ok l -> In p l -> dget sf param <> None ->
    at_or_below sp p -> (forall sp' v', In (param, sp', v') st2 -> ~ at_or_below sp' p) ->
    value_of (apply_settings int_of h b sf (st1 ++ (param, sp, v) :: st2)) param p = Some v.
  Proof.
    intros El I N AB U. revert sf N. induction st1 as [|((q, sp1), v1) st1 IH]; intros sf N; cbn [app apply_settings].
    - destruct (prefix_resolves sp p l El I AB) as (names & i & o & -> & D & E & G).
      destruct (set_param_ok sf param _ v i G N) as (sf' & S). rewrite S.
      rewrite (settings_untouched l st2 param p El); [|intros sp' v' I' (_ & X); apply (U sp' v' I' X)].
      apply (set_param_effect sf sf' param _ v l El S param p). auto.
    - destruct (set_surface_param int_of h b sf q sp1 v1) as [sf'|] eqn:S; apply IH; auto.
      eapply set_param_keeps; eauto.
  Qed.

  (** ** The constructor *)
  Lemma listed_has_sep l p : building_polygon_paths h b = Ok l -> In p l -> In PATH_SEP p.
  Proof.
    intros El I. apply (listed_in p l El) in I. destruct I as (nm & j & oj & -> & Dj & Ej & Kj).
    destruct nm as [|n nm].
    - inversion Dj as [Q|names ? ? ? ? ? ? ? Q]; [subst; congruence|destruct names; discriminate].
    - rewrite join_cons_cons. apply in_app_iff. right. simpl. auto.
  Qed.

  Lemma default_not_listed l : building_polygon_paths h b = Ok l -> ~ In DEFAULT l.
  Proof. intros El I. apply (listed_has_sep l _ El) in I. simpl in I. repeat (destruct I as [I|I]; [discriminate|]). destruct I. Qed.

  Lemma defaults_loop l0 key : forall sf (d : dict str V) dv, (forall p, In p l0 -> p <> DEFAULT) ->
    dget sf key = Some d -> dget d DEFAULT = Some dv ->
    exists sf', foldM (fun sf path => do d <- dlookup sf key; do v <- dlookup d DEFAULT; set_value sf key path v) l0 sf = Ok sf' /\
      forall param p, value_of sf' param p = if eq_dec param key then (if in_dec eq_dec p l0 then Some dv else value_of sf param p) else value_of sf param p.
  Proof.
    induction l0 as [|k l0 IH]; intros sf d dv ND E1 E2; cbn [foldM].
    - exists sf. split; auto. intros param p. destruct (eq_dec param key); auto.
    - unfold dlookup at 1. rewrite E1. cbn [rbind]. unfold dlookup at 1. rewrite E2. cbn [rbind].
      destruct (set_value sf key k dv) as [sf1|] eqn:S.
      2:{ unfold set_value, dlookup in S. rewrite E1 in S. discriminate. }
      cbn [rbind]. assert (V1 := value_set_value _ _ _ _ _ S).
      assert (D1 : exists d1, dget sf1 key = Some d1 /\ dget d1 DEFAULT = Some dv).
      { unfold set_value, dlookup in S. rewrite E1 in S. cbn [rbind] in S. inversion S; subst.
        exists (dset d k dv). rewrite dget_dset_same. split; auto. rewrite dget_dset_other; auto. intros X. apply (ND k); simpl; auto. }
      destruct D1 as (d1 & D1 & D2).
      destruct (IH sf1 d1 dv) as (sf' & E & Vs); auto; [intros p Ip; apply ND; simpl; auto|].
      exists sf'. split; auto. intros param p. rewrite Vs, V1.
      destruct (eq_dec param key); auto. destruct (in_dec eq_dec p l0), (in_dec eq_dec p (k :: l0)), (eq_dec p k); subst; simpl in *; auto; intuition congruence.
  Qed.

  Lemma new_surfaces_ok (dv : V) l : building_polygon_paths h b = Ok l ->
    exists sf, new_surfaces h b dv = Ok sf /\ dget sf (str_of "absorption") <> None /\
      forall p, value_of sf (str_of "absorption") p = if in_dec eq_dec p (DEFAULT :: l) then Some dv else None.
  Proof.
    intros El. unfold new_surfaces, set_default_surface_paths. rewrite El. cbn [rbind dkeys map fst foldM].
    destruct (defaults_loop l (str_of "absorption") [(str_of "absorption", [(DEFAULT, dv)])] [(DEFAULT, dv)] dv) as (sf' & E & Vs).
    - intros p I ->. apply (default_not_listed l El I).
    - reflexivity.
    - reflexivity.
    - rewrite E. cbn [rbind]. exists sf'. split; auto.
      assert (VD := Vs (str_of "absorption") DEFAULT).
      destruct (eq_dec (str_of "absorption") (str_of "absorption")) as [_|N]; [|congruence].
      split. { apply (value_has_param sf' _ DEFAULT dv). rewrite VD. destruct (in_dec _ _ _); auto. }
      intros p. rewrite Vs. destruct (eq_dec (str_of "absorption") (str_of "absorption")) as [_|N]; [|congruence].
      assert (VP : value_of [(str_of "absorption", [(DEFAULT, dv)])] (str_of "absorption") p = if eq_dec p DEFAULT then Some dv else None) by reflexivity.
      rewrite VP. destruct (in_dec eq_dec p l), (in_dec eq_dec p (DEFAULT :: l)), (eq_dec p DEFAULT); subst; simpl in *; auto; try tauto.
      exfalso. destruct i; auto.
  Qed.

  (** The default entry is never overwritten. *)
  Lemma default_kept (st : list (str * str * V)) sf param :
    value_of (apply_settings int_of h b sf st) param DEFAULT = value_of sf param DEFAULT.
  Proof.
    destruct (building_paths_spec h b bo W Eb Kb) as (l & El & _).
    apply (settings_untouched l st param DEFAULT El). intros sp v _ (I & _). apply (default_not_listed l El I).
  Qed.

  Lemma absorption_default (sf : dict str (dict str V)) n :
    simulation_absorption sf n = match dget sf (str_of "absorption") with
      | Some d => match dget d DEFAULT with Some v => Ok (repeat v n) | None => Err KeyError end | None => Err KeyError end.
  Proof.
    unfold simulation_absorption, dlookup. destruct (dget sf _) as [d|]; cbn [rbind]; auto. destruct (dget d DEFAULT); auto.
  Qed.

  Lemma simulation_ignores_settings (st : list (str * str * V)) sf dv n : value_of sf (str_of "absorption") DEFAULT = Some dv ->
    simulation_absorption (apply_settings int_of h b sf st) n = Ok (repeat dv n).
  Proof.
    intros E. rewrite <- (default_kept st) in E. unfold value_of in E. rewrite absorption_default.
    destruct (dget _ _) as [d|]; [|discriminate]. rewrite E. auto.
  Qed.

  (** ** The array *)
  Section Array.
    Context (num : oid -> option Z) (zero : V).

    Definition number_of (p : str) : option Z :=
      match building_get int_of h b p with Ok (GotObj i) => num i | _ => None end.

    Lemma array_loop n (d : dict str V) (dv : V) (l0 : list str) :
      (forall p, In p l0 -> exists i o, building_get int_of h b p = Ok (GotObj i) /\ nth_error h i = Some o /\ o_kind o = KPolygon) ->
      dget d DEFAULT = Some dv ->
      (forall p, In p l0 -> exists k, number_of p = Some k /\ (0 <= k < Z.of_nat n)%Z) ->
      forall (sf : dict str (dict str V)) (param : str), dget sf param = Some d ->
      (forall p q, In p l0 -> In q l0 -> number_of p = number_of q -> p = q) -> NoDup l0 ->
      forall values : list V, length values = n ->
      exists arr, foldM (fun values pp =>
        do g <- building_get int_of h b pp;
        match g with
        | GotPoint _ _ => Err AssertionError
        | GotObj i =>
            do o <- deref h i;
            match o_kind o with
            | KPolygon =>
                match num i with
                | None => Err RuntimeError
                | Some k =>
                    if (0 <=? k)%Z && (k <? Z.of_nat n)%Z then
                      do d <- dlookup sf param;
                      do v <- (match dget d pp with Some v => Ok v | None => dlookup d DEFAULT end);
                      Ok (set_nth values (Z.to_nat k) v)
                    else Err AssertionError
                end
            | _ => Err AssertionError
            end
        end) l0 values = Ok arr /\ length arr = n /\
        (forall p k, In p l0 -> number_of p = Some k -> nth_error arr (Z.to_nat k) = Some (match dget d p with Some v => v | None => dv end)) /\
        (forall m, (forall p, In p l0 -> number_of p <> Some (Z.of_nat m)) -> nth_error arr m = nth_error values m).
    Proof.
      intros R Ed Rn sf param Esf. revert R Rn. induction l0 as [|p l0 IH]; intros R Rn Inj ND values Ln.
      - exists values. simpl. repeat split; auto. intros p k [].
      - destruct (R p) as (i & o & G & E & K); [simpl; auto|].
        destruct (Rn p) as (k & Nk & Rk); [simpl; auto|]. assert (Nk' := Nk). unfold number_of in Nk'. rewrite G in Nk'.
        cbn [foldM]. rewrite G. cbn [rbind]. rewrite (proj2 (deref_ok _ _ _) E). cbn [rbind]. rewrite K, Nk'.
        replace ((0 <=? k)%Z && (k <? Z.of_nat n)%Z) with true by (symmetry; apply andb_true_iff; split; [apply Z.leb_le|apply Z.ltb_lt]; lia).
        unfold dlookup at 1. rewrite Esf. cbn [rbind].
        assert (EV : (match dget d p with Some v => Ok v | None => dlookup d DEFAULT end) = Ok (match dget d p with Some v => v | None => dv end)).
        { destruct (dget d p); auto. unfold dlookup. rewrite Ed. auto. }
        rewrite EV. cbn [rbind]. inversion ND; subst.
        destruct (IH (fun q I => R q (or_intror I)) (fun q I => Rn q (or_intror I)) (fun q r Iq Ir => Inj q r (or_intror Iq) (or_intror Ir)) H2
          (set_nth values (Z.to_nat k) (match dget d p with Some v => v | None => dv end))) as (arr & Ea & La & V1 & V2).
        { rewrite set_nth_length. auto. }
        exists arr. split; [exact Ea|]. split; auto. split.
        + intros q k' [<-|Iq] Nq; [|eauto]. rewrite Nk in Nq. inversion Nq; subst k'. rewrite V2.
          * rewrite nth_error_set_nth. destruct (Nat.eq_dec _ _); [|congruence]. destruct (lt_dec _ _); auto. lia.
          * intros q Iq Nq'. apply H1. rewrite Z2Nat.id in Nq' by lia. rewrite <- Nk in Nq'.
            rewrite (Inj p q); simpl; auto.
        + intros m Hm. rewrite V2 by (intros q Iq; apply Hm; simpl; auto). rewrite nth_error_set_nth.
          destruct (Nat.eq_dec m (Z.to_nat k)) as [->|]; auto. exfalso. apply (Hm p); simpl; auto. rewrite Z2Nat.id by lia. auto.
    Qed.

    Lemma array_ok l (sf : dict str (dict str V)) param dv : building_polygon_paths h b = Ok l ->
      value_of sf param DEFAULT = Some dv ->
      (forall p, In p l -> exists k, number_of p = Some k /\ (0 <= k < Z.of_nat (length l))%Z) ->
      (forall p q, In p l -> In q l -> number_of p = number_of q -> p = q) ->
      exists arr, surface_params_to_array int_of zero num h b sf param = Ok arr /\ length arr = length l /\
        forall p k, In p l -> number_of p = Some k ->
          nth_error arr (Z.to_nat k) = Some (match value_of sf param p with Some v => v | None => dv end).
    Proof.
      intros El E Rn Inj. unfold value_of in *. destruct (dget sf param) as [d|] eqn:D; [|discriminate].
      destruct (building_paths_spec h b bo W Eb Kb) as (l' & El' & ND & _). rewrite El in El'. inversion El'; subst l'.
      destruct (array_loop (length l) d dv l) with (sf := sf) (param := param) (values := repeat zero (length l)) as (arr & Ea & La & Va & _); auto.
      { intros p I. apply (listed_paths_resolve int_of h b bo l p W Eb Kb El I). }
      { apply repeat_length. }
      exists arr. split; [|auto]. unfold surface_params_to_array. rewrite El. cbn [rbind]. exact Ea.
    Qed.

    Lemma array_unnumbered l (sf : dict str (dict str V)) param d dv : building_polygon_paths h b = Ok l ->
      dget sf param = Some d -> dget d DEFAULT = Some dv ->
      (forall p k, In p l -> number_of p = Some k -> (0 <= k < Z.of_nat (length l))%Z) ->
      (exists p, In p l /\ number_of p = None) ->
      surface_params_to_array int_of zero num h b sf param = Err RuntimeError.
    Proof.
      intros El D Ed Rn (p0 & I0 & N0). unfold surface_params_to_array. rewrite El. cbn [rbind].
      assert (R : forall p, In p l -> exists i o, building_get int_of h b p = Ok (GotObj i) /\ nth_error h i = Some o /\ o_kind o = KPolygon).
      { intros p I. apply (listed_paths_resolve int_of h b bo l p W Eb Kb El I). }
      generalize (repeat zero (length l)). remember (length l) as n eqn:En. clear En El. revert R Rn I0.
      induction l as [|p l IH]; intros R Rn I0 values; [destruct I0|].
      destruct (R p) as (i & o & G & E & K); [simpl; auto|]. cbn [foldM]. rewrite G. cbn [rbind].
      rewrite (proj2 (deref_ok _ _ _) E). cbn [rbind]. rewrite K.
      assert (Np : number_of p = num i) by (unfold number_of; rewrite G; auto).
      destruct (num i) as [k|]; [|auto].
      assert (Rk := Rn p k (or_introl eq_refl) Np).
      replace ((0 <=? k)%Z && (k <? Z.of_nat n)%Z) with true by (symmetry; apply andb_true_iff; split; [apply Z.leb_le|apply Z.ltb_lt]; lia).
      unfold dlookup at 1. rewrite D. cbn [rbind].
      assert (EV : exists v, (match dget d p with Some v => Ok v | None => dlookup d DEFAULT end) = Ok v).
      { destruct (dget d p); eauto. unfold dlookup. rewrite Ed. eauto. }
      destruct EV as (v & EV). rewrite EV. cbn [rbind]. apply IH.
      - intros q I. apply R. simpl. auto.
      - intros q k' I. apply Rn. simpl. auto.
      - destruct I0 as [<-|I0]; auto. congruence.
    Qed.
  End Array.
End Building.
