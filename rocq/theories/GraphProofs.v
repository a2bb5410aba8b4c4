(** Proofs about building graphs. *)
From Coq Require Import Ascii String List Arith Bool Lia.
From Verif Require Import Prelude TreeModel TreeSpec TreeProofs TreeProofs2 GraphModel GraphSpec.
Import ListNotations.


Section PG.
  Context (path_of : oid -> str).
  Context (bbox isf isc ist : oid -> oid -> bool).
  Context (f o t : bool).
  Let P := path_of.
  Notation visit_pair := (visit_pair path_of bbox isf isc ist f o t).
  Notation visit_all := (visit_all path_of bbox isf isc ist f o t).
  Definition link a b := bbox a b && connected isf isc ist f o t a b.

  Lemma ensure_key g k x : In x (dkeys (ensure g k)) <-> x = k \/ In x (dkeys g).
  Proof.
    unfold ensure. destruct (dget g k) eqn:E.
    - split; auto. intros [->|H]; auto. apply dget_Some_key in E. auto.
    - apply dkeys_dset.
  Qed.
  Lemma ensure_NoDup g k : NoDup (dkeys g) -> NoDup (dkeys (ensure g k)).
  Proof. unfold ensure. destruct (dget g k); auto. apply NoDup_dset. Qed.
  Lemma ensure_nbrs g k x : nbrs (ensure g k) x = nbrs g x.
  Proof.
    unfold ensure, nbrs. destruct (dget g k) eqn:E; auto.
    destruct (eq_dec x k) as [->|N].
    - rewrite dget_dset_same, E. auto.
    - rewrite dget_dset_other; auto.
  Qed.
  Lemma append_ok g k x : In k (dkeys g) -> exists g', append_to g k x = Ok g' /\
    dkeys g' = dkeys g /\ nbrs g' k = nbrs g k ++ [x] /\ (forall y, y <> k -> nbrs g' y = nbrs g y).
  Proof.
    intros I. unfold append_to, dlookup. destruct (dget g k) as [l|] eqn:E.
    - simpl. eexists. split; [reflexivity|]. split; [apply dkeys_dset_old; auto|].
      unfold nbrs. rewrite dget_dset_same, E. split; auto.
      intros y N. rewrite dget_dset_other; auto.
    - apply dget_None in E. tauto.
  Qed.

  Definition inv (polys : list oid) (done : list (oid * oid)) (st : graph * list (str * str)) : Prop :=
    let '(g, ck) := st in
    NoDup (dkeys g) /\
    (forall k, In k (dkeys g) <-> exists a b, In (a, b) done /\ a <> b /\ (k = P a \/ k = P b)) /\
    (forall k, NoDup (nbrs g k)) /\
    (forall x y, In y (nbrs g x) <-> In (x, y) ck) /\
    (forall x y, In (x, y) ck -> exists a b, In a polys /\ In b polys /\ x = P a /\ y = P b) /\
    (forall a b, In a polys -> In b polys ->
       (In (P a, P b) ck <-> a <> b /\ ((In (a, b) done /\ link a b = true) \/
                                       (In (b, a) done /\ link b a = true)))).

  Context (polys : list oid).
  Context (inj : forall a b, In a polys -> In b polys -> P a = P b -> a = b).

  Lemma visit_step done st a b : In a polys -> In b polys -> inv polys done st ->
    exists st', visit_pair st a b = Ok st' /\ inv polys (done ++ [(a, b)]) st'.
  Proof.
    intros Ia Ib I. destruct st as (g, ck). unfold visit_pair, GraphModel.visit_pair.
    destruct I as (I1 & I2 & I3 & I4 & I5 & I6).
    destruct (Nat.eqb_spec a b) as [->|Nab].
    { eexists. split; [reflexivity|]. repeat split; auto.
      - intros H. apply I2 in H. destruct H as (u & v & H & H2). exists u, v. rewrite in_app_iff. tauto.
      - intros (u & v & H & H2 & H3). apply I2. exists u, v. apply in_app_iff in H.
        destruct H as [H|[H|[]]]; auto. inversion H; subst; congruence.
      - apply I4.
      - apply I4.
      - apply (I6 a b0); auto.
      - apply (I6 a b0) in H1; auto. destruct H1 as (_ & H1). rewrite !in_app_iff. tauto.
      - intros (H1 & H2). apply I6; auto. split; auto. rewrite !in_app_iff in H2. simpl in H2.
        destruct H2 as [[[H2|[H2|[]]] H3]|[[H2|[H2|[]]] H3]]; auto; inversion H2; subst; congruence. }
    destruct (memb (path_of a, path_of b) ck) eqn:M.
    { apply memb_true in M. eexists. split; [reflexivity|].
      pose proof (proj1 (I6 a b Ia Ib) M) as (_ & Q).
      repeat split; auto.
      - intros H. apply I2 in H. destruct H as (u & v & H & H2). exists u, v. rewrite in_app_iff. tauto.
      - intros (u & v & H & H2 & H3). apply I2. apply in_app_iff in H.
        destruct H as [H|[H|[]]]; [exists u, v; auto|]. inversion H; subst u v.
        destruct Q as [(Q & _)|(Q & _)]; [exists a, b|exists b, a]; repeat split; auto. destruct H3; auto.
      - apply I4.
      - apply I4.
      - apply (I6 a0 b0); auto.
      - apply (I6 a0 b0) in H1; auto. destruct H1 as (_ & H1). rewrite !in_app_iff. tauto.
      - intros (H1 & H2). apply I6; auto. split; auto. rewrite !in_app_iff in H2. simpl in H2.
        destruct H2 as [[[H2|[H2|[]]] H3]|[[H2|[H2|[]]] H3]]; auto; inversion H2; subst; tauto. }
    apply memb_false in M. cbv zeta.
    set (g2 := ensure (ensure g (path_of a)) (path_of b)).
    assert (K2 : forall k, In k (dkeys g2) <-> k = P a \/ k = P b \/ In k (dkeys g)).
    { intros k. unfold g2. rewrite !ensure_key. unfold P. tauto. }
    assert (N2 : forall k, nbrs g2 k = nbrs g k).
    { intros k. unfold g2. rewrite !ensure_nbrs. auto. }
    assert (D2 : NoDup (dkeys g2)).
    { unfold g2. apply ensure_NoDup, ensure_NoDup; auto. }
    assert (KK : forall k, (k = P a \/ k = P b \/ In k (dkeys g)) <->
       exists u v, In (u, v) (done ++ [(a, b)]) /\ u <> v /\ (k = P u \/ k = P v)).
    { intros k. rewrite I2. split.
      - intros [->|[->|(u & v & H1 & H2)]].
        + exists a, b. rewrite in_app_iff. simpl. tauto.
        + exists a, b. rewrite in_app_iff. simpl. tauto.
        + exists u, v. rewrite in_app_iff. tauto.
      - intros (u & v & H1 & H2 & H3). apply in_app_iff in H1. destruct H1 as [H1|[H1|[]]].
        + right. right. exists u, v. auto.
        + inversion H1; subst u v. destruct H3; auto. }
    assert (NL : link a b = false -> inv polys (done ++ [(a, b)]) (g2, ck)).
    { intros L. unfold inv. split; [exact D2|]. split; [intros k; rewrite K2; apply KK|].
      split; [intros k; rewrite N2; auto|].
      split; [intros x y; rewrite N2; apply I4|]. split; auto.
      intros u v Iu Iv. rewrite I6; auto. rewrite !in_app_iff. simpl.
      split; [tauto|]. intros (H1 & H2). split; auto.
      destruct H2 as [[[H2|[H2|[]]] H3]|[[H2|[H2|[]]] H3]]; auto; inversion H2; subst; congruence. }
    destruct (bbox a b) eqn:B; cbn [negb].
    2:{ eexists. split; [reflexivity|]. apply NL. unfold link. rewrite B. auto. }
    destruct (connected isf isc ist f o t a b) eqn:C.
    2:{ eexists. split; [reflexivity|]. apply NL. unfold link. rewrite B, C. auto. }
    assert (L : link a b = true) by (unfold link; rewrite B, C; auto).
    assert (Npab : P a <> P b) by (intros Q; apply Nab; apply inj; auto).
    destruct (append_ok g2 (path_of a) (path_of b)) as (g3 & E3 & K3 & S3 & O3);
      [apply K2; auto|]. rewrite E3. cbn [rbind].
    destruct (append_ok g3 (path_of b) (path_of a)) as (g4 & E4 & K4 & S4 & O4);
      [rewrite K3; apply K2; auto|]. rewrite E4. cbn [rbind].
    eexists. split; [reflexivity|].
    assert (Mba : ~ In (P b, P a) ck).
    { intros Q. apply M. apply I6; auto. apply I6 in Q; auto. destruct Q; split; auto. tauto. }
    assert (NA : nbrs g4 (P a) = nbrs g (P a) ++ [P b]).
    { rewrite O4; auto. unfold P in *. rewrite S3, N2. auto. }
    assert (NB : nbrs g4 (P b) = nbrs g (P b) ++ [P a]).
    { unfold P in *. rewrite S4, O3; auto. rewrite N2. auto. }
    assert (NO : forall x, x <> P a -> x <> P b -> nbrs g4 x = nbrs g x).
    { intros x Xa Xb. rewrite O4, O3; auto. }
    unfold inv. split; [rewrite K4, K3; auto|].
    split; [intros k; rewrite K4, K3, K2; apply KK|].
    split.
    { intros k. destruct (eq_dec k (P a)) as [->|Na]; [|destruct (eq_dec k (P b)) as [->|Nb]].
      - rewrite NA. apply NoDup_snoc; auto. rewrite I4. auto.
      - rewrite NB. apply NoDup_snoc; auto. rewrite I4. auto.
      - rewrite NO; auto. }
    split.
    { intros x y. fold P. simpl In. destruct (eq_dec x (P a)) as [->|Na]; [|destruct (eq_dec x (P b)) as [->|Nb]].
      - rewrite NA, in_app_iff, I4. simpl. split.
        + intros [H|[H|[]]]; subst; auto.
        + intros [H|[H|H]]; auto; inversion H; auto; congruence.
      - rewrite NB, in_app_iff, I4. simpl. split.
        + intros [H|[H|[]]]; subst; auto.
        + intros [H|[H|H]]; auto; inversion H; auto; congruence.
      - rewrite NO, I4; auto. split; auto. intros [H|[H|H]]; auto; inversion H; subst; congruence. }
    split.
    { intros x y [H|[H|H]].
      - inversion H; subst. exists a, b. auto.
      - inversion H; subst. exists b, a. auto.
      - auto. }
    intros u v Iu Iv. simpl In. fold P. rewrite I6; auto. rewrite !in_app_iff. simpl. split.
    - intros [H|[H|H]].
      + inversion H as [[H1 H2]]. apply inj in H1; auto. apply inj in H2; auto. subst. auto 8.
      + inversion H as [[H1 H2]]. apply inj in H1; auto. apply inj in H2; auto. subst. auto 8.
      + destruct H as (H1 & H2). split; auto. tauto.
    - intros (H1 & [([H2|[H2|[]]] & H3)|([H2|[H2|[]]] & H3)]).
      + auto 8.
      + inversion H2; subst. auto.
      + auto 8.
      + inversion H2; subst. auto.
  Qed.

  Lemma visit_all_inv pairs : forall done st, (forall a b, In (a, b) pairs -> In a polys /\ In b polys) ->
    inv polys done st -> exists st', visit_all st pairs = Ok st' /\ inv polys (done ++ pairs) st'.
  Proof.
    induction pairs as [|(a, b) rest IH]; intros done st HP I; simpl.
    - rewrite app_nil_r. eauto.
    - destruct (HP a b) as (Ia & Ib); [left; auto|].
      destruct (visit_step done st a b Ia Ib I) as (st' & E & I').
      rewrite E. cbn [rbind]. destruct (IH (done ++ [(a, b)]) st') as (st'' & E2 & I2); auto.
      { intros u v H. apply HP. right. auto. }
      exists st''. rewrite <- app_assoc in I2. auto.
  Qed.

  Lemma graph_polygon_spec :
    exists g, graph_polygon path_of bbox isf isc ist f o t polys = Ok g /\
      NoDup (dkeys g) /\
      (forall k, In k (dkeys g) <-> exists a b, In a polys /\ In b polys /\ a <> b /\ k = P a) /\
      (forall k, NoDup (nbrs g k)) /\
      (forall k x, In x (nbrs g k) -> exists a b, In a polys /\ In b polys /\ k = P a /\ x = P b) /\
      (forall a b, In a polys -> In b polys ->
        (In (P b) (nbrs g (P a)) <-> a <> b /\ (link a b = true \/ link b a = true))).
  Proof.
    destruct (visit_all_inv (list_prod polys polys) [] ([], [])) as ((g, ck) & E & I).
    - intros a b H. apply in_prod_iff in H. auto.
    - unfold inv. cbn [dkeys map In]. split; [constructor|]. split.
      { intros k. split; [intros []|]. intros (a & b & [] & _). }
      split; [intros k; constructor|]. split; [intros x y; unfold nbrs; simpl; tauto|].
      split; [intros x y []|]. intros a b _ _. tauto.
    - destruct I as (I1 & I2 & I3 & I4 & I5 & I6). simpl in I2, I6.
      exists g. unfold graph_polygon. rewrite E. cbn [rbind fst]. split; auto. split; auto.
      split.
      { intros k. rewrite I2. split.
        - intros (a & b & H & N & [->| ->]); apply in_prod_iff in H; destruct H.
          + exists a, b. auto.
          + exists b, a. auto.
        - intros (a & b & Ia & Ib & N & ->). exists a, b. rewrite in_prod_iff. auto. }
      split; auto. split.
      { intros k x H. apply I5. apply I4. auto. }
      intros a b Ia Ib. rewrite I4, I6; auto. rewrite !in_prod_iff. tauto.
  Qed.
End PG.

Lemma connected_true isf isc ist f o t a b : connected isf isc ist f o t a b = true <->
  (f = true /\ isf a b = true) \/ (o = true /\ isc a b = true) \/ (t = true /\ ist a b = true).
Proof.
  unfold connected. rewrite existsb_exists. split.
  - intros (x & I & ->). rewrite !in_app_iff in I.
    destruct I as [I|[I|I]].
    + destruct f; [|destruct I]. destruct I as [I|[]]. auto.
    + destruct o; [|destruct I]. destruct I as [I|[]]. auto.
    + destruct t; [|destruct I]. destruct I as [I|[]]. auto.
  - intros H. exists true. split; auto. rewrite !in_app_iff.
    destruct H as [(-> & H)|[(-> & H)|(-> & H)]]; rewrite H; simpl; auto.
Qed.

(** ** The polygons of a building *)

Lemma level_ok h n i o (F : oid -> result (list oid)) : wf h -> nth_error h i = Some o ->
  (forall c, nth_error h c <> None -> F c = Ok (map snd (below h n c))) ->
  concatM (fun '(_, c) => F c) (o_children o) = Ok (map snd (below h (S n) i)).
Proof.
  intros W E HF. simpl. rewrite E, map_flat_map. apply concatM_ok.
  intros (k, c) I. destruct (W i o E) as (_ & B & _). destruct (B k c I) as (co & Ec & _).
  rewrite HF by congruence. f_equal. rewrite map_map. apply map_ext. intros (a, b). reflexivity.
Qed.

Lemma iter_polygons_ok h b bo : wf h -> nth_error h b = Some bo ->
  iter_polygons h b = Ok (map snd (below h 4 b)).
Proof.
  intros W E. unfold iter_polygons. rewrite (kids_ok h b bo E). cbn [rbind].
  apply (level_ok h 3 b bo (fun z => do ss <- kids h z;
    concatM (fun '(_, s) =>
      do ws <- kids h s;
      concatM (fun '(_, w) => do ps <- kids h w; Ok (dvals ps)) ws) ss)); auto.
  intros z Nz. destruct (nth_error h z) as [zo|] eqn:Ez; [|congruence].
  rewrite (kids_ok h z zo Ez). cbn [rbind].
  apply (level_ok h 2 z zo (fun s => do ws <- kids h s;
      concatM (fun '(_, w) => do ps <- kids h w; Ok (dvals ps)) ws)); auto.
  intros s Ns. destruct (nth_error h s) as [so|] eqn:Es; [|congruence].
  rewrite (kids_ok h s so Es). cbn [rbind].
  apply (level_ok h 1 s so (fun w => do ps <- kids h w; Ok (dvals ps))); auto.
  intros w Nw. destruct (nth_error h w) as [wo|] eqn:Ew; [|congruence].
  rewrite (kids_ok h w wo Ew). cbn [rbind]. f_equal. simpl. rewrite Ew, map_flat_map.
  unfold dvals. induction (o_children wo) as [|(k, c) d IH]; simpl; auto. rewrite IH. auto.
Qed.

Lemma descends_path h b bo names i : wf h -> linked h -> nth_error h b = Some bo ->
  o_kind bo = KBuilding -> descends h b names i ->
  path h i = Ok (join_with PATH_SEP (o_name bo :: names)).
Proof.
  intros W L Eb Kb D.
  destruct (descends_kind h b bo names i W Eb Kb D) as (o & Ei & Dk & F).
  pose proof (depth_kind_le4 _ _ Dk) as Hl.
  destruct (descends_parent h b bo names i W L Eb Kb D 5 ltac:(lia)) as (Hp & Hr). exact Hp.
Qed.

(** Distinct polygons of a building have distinct paths. *)
Lemma descends_same_path h b bo ns1 i1 ns2 i2 p : wf h -> linked h -> nth_error h b = Some bo ->
  o_kind bo = KBuilding -> descends h b ns1 i1 -> descends h b ns2 i2 ->
  path h i1 = Ok p -> path h i2 = Ok p -> i1 = i2 /\ ns1 = ns2.
Proof.
  intros W L Eb Kb D1 D2 P1 P2.
  destruct (path_get_roundtrip (fun _ => None) h b bo ns1 i1 W L Eb Kb D1) as (p1 & Q1 & G1 & _).
  destruct (path_get_roundtrip (fun _ => None) h b bo ns2 i2 W L Eb Kb D2) as (p2 & Q2 & G2 & _).
  assert (p1 = p2) by congruence. subst p2. split; [congruence|].
  rewrite (descends_path h b bo ns1 i1 W L Eb Kb D1) in P1.
  rewrite (descends_path h b bo ns2 i2 W L Eb Kb D2) in P2.
  destruct (descends_kind h b bo ns1 i1 W Eb Kb D1) as (_ & _ & _ & F1).
  destruct (descends_kind h b bo ns2 i2 W Eb Kb D2) as (_ & _ & _ & F2).
  destruct (W b bo Eb) as (_ & _ & _ & Nb).
  assert (Q : join_with PATH_SEP (o_name bo :: ns1) = join_with PATH_SEP (o_name bo :: ns2)) by congruence.
  apply (f_equal (split_on PATH_SEP)) in Q. rewrite !split_join in Q; try discriminate; try constructor; auto.
  congruence.
Qed.

Lemma mapM_all {A B} (F : A -> result B) l : (forall x, In x l -> exists y, F x = Ok y) ->
  exists ys, mapM F l = Ok ys.
Proof.
  induction l as [|x l IH]; simpl; intros H; eauto.
  destruct (H x (or_introl eq_refl)) as (y & ->). destruct IH as (ys & ->); eauto.
  simpl. eauto.
Qed.


Lemma polygon_of_kind h b bo i : wf h -> nth_error h b = Some bo -> o_kind bo = KBuilding ->
  (polygon_of h b i <-> exists names o, descends h b names i /\ nth_error h i = Some o /\ o_kind o = KPolygon).
Proof.
  intros W E K. split.
  - intros (ns & L & D). destruct (descends_kind h b bo ns i W E K D) as (o & Ei & Dk & _).
    rewrite L in Dk. simpl in Dk. exists ns, o. repeat split; auto. congruence.
  - intros (ns & o & D & Ei & Ko). exists ns. split; auto.
    destruct (descends_kind h b bo ns i W E K D) as (o' & Ei' & Dk & _).
    rewrite Ei in Ei'. inversion Ei'; subst o'. rewrite Ko in Dk.
    pose proof (depth_kind_le4 _ _ Dk).
    do 5 (destruct ns as [|? ns]; [simpl in Dk; try discriminate; auto|]). simpl in H. lia.
Qed.

Lemma building_graph_spec bbox isf isc ist f o t h b bo : wf h -> linked h ->
  nth_error h b = Some bo -> o_kind bo = KBuilding ->
  exists g, building_graph bbox isf isc ist f o t h b = Ok g /\
    NoDup (dkeys g) /\
    (forall k, In k (dkeys g) <-> exists i j, polygon_of h b i /\ polygon_of h b j /\ i <> j /\ path h i = Ok k) /\
    (forall k, NoDup (nbrs g k)) /\
    (forall k x, In x (nbrs g k) <-> exists i j, polygon_of h b i /\ polygon_of h b j /\ i <> j /\
       path h i = Ok k /\ path h j = Ok x /\
       (link bbox isf isc ist f o t i j = true \/ link bbox isf isc ist f o t j i = true)).
Proof.
  intros W L E K. unfold building_graph. rewrite (iter_polygons_ok h b bo W E). cbn [rbind].
  set (polys := map snd (below h 4 b)).
  assert (IP : forall i, In i polys <-> polygon_of h b i).
  { intros i. unfold polys. rewrite in_map_iff. split.
    - intros ((ns, j) & <- & I). apply in_below in I. exists ns. auto.
    - intros (ns & Ln & D). exists (ns, i). split; auto. apply in_below. auto. }
  assert (PO : forall i, In i polys -> path h i = Ok (path_of h i)).
  { intros i I. apply IP in I. destruct I as (ns & _ & D). unfold path_of.
    rewrite (descends_path h b bo ns i W L E K D). auto. }
  destruct (mapM_all (path h) polys) as (ps & ->); [eauto|]. cbn [rbind].
  assert (INJ : forall a c, In a polys -> In c polys -> path_of h a = path_of h c -> a = c).
  { intros a c Ia Ic Q. pose proof (PO a Ia). pose proof (PO c Ic).
    apply IP in Ia. apply IP in Ic. destruct Ia as (ns & _ & D). destruct Ic as (ns' & _ & D').
    eapply (descends_same_path h b bo ns a ns' c); eauto. congruence. }
  destruct (graph_polygon_spec (path_of h) bbox isf isc ist f o t polys INJ)
    as (g & Eg & G1 & G2 & G3 & G4 & G5).
  exists g. split; auto. split; auto. split; [|split; auto].
  - intros k. rewrite G2. split.
    + intros (a & c & Ia & Ic & N & ->). exists a, c. rewrite <- !IP. auto.
    + intros (a & c & Ia & Ic & N & Q). exists a, c. rewrite <- !IP in *. rewrite PO in Q; auto.
      repeat split; auto. congruence.
  - intros k x. split.
    + intros I. destruct (G4 k x I) as (a & c & Ia & Ic & -> & ->). apply G5 in I; auto.
      destruct I. exists a, c. rewrite <- !IP. auto 8.
    + intros (a & c & Ia & Ic & N & Qa & Qc & Lk). rewrite <- IP in Ia, Ic.
      rewrite PO in Qa, Qc; auto. inversion Qa; subst k. inversion Qc; subst x. apply G5; auto.
Qed.

(** ** strip_graph *)

Lemma removelast_firstn' {A} (l : list A) : removelast l = firstn (length l - 1) l.
Proof.
  induction l as [|x l IH]; auto. destruct l as [|y l]; auto.
  change (removelast (x :: y :: l)) with (x :: removelast (y :: l)). rewrite IH.
  replace (length (x :: y :: l) - 1) with (S (length (y :: l) - 1)) by (simpl; lia). auto.
Qed.

Lemma remove_last_join n : forall names, n < length names -> Forall (fun w => ~ In PATH_SEP w) names ->
  remove_last (join_with PATH_SEP names) n = join_with PATH_SEP (firstn (length names - n) names).
Proof.
  induction n as [|n IH]; intros names Hl F.
  - cbn [remove_last]. rewrite Nat.sub_0_r, firstn_all. auto.
  - cbn [remove_last].
    rewrite split_join; auto; [|destruct names; [simpl in Hl; lia|discriminate]].
    rewrite removelast_firstn'. rewrite IH.
    + rewrite firstn_length, firstn_firstn. unfold str in *.
      replace (Nat.min (Nat.min (length names - 1) (length names) - n) (length names - 1))
        with (length names - S n) by lia. reflexivity.
    + rewrite firstn_length. unfold str in *. lia.
    + apply Forall_forall. intros w Iw.
      rewrite Forall_forall in F. apply F. rewrite <- (firstn_skipn (length names - 1) names).
      apply in_app_iff. auto.
Qed.


Lemma edge_nbrs g x y : NoDup (dkeys g) -> (edge g x y <-> In y (nbrs g x)).
Proof.
  intros ND. unfold edge, nbrs. split.
  - intros (v & I & J). rewrite (dget_in _ _ _ ND I). auto.
  - destruct (dget g x) as [v|] eqn:E; [|intros []]. intros J. exists v. split; auto.
    apply dget_Some_in; auto.
Qed.

Lemma strip_collect_spec n g : forall g0, NoDup (dkeys g0) ->
  let g1 := strip_collect g0 g n in
  NoDup (dkeys g1) /\
  (forall k, In k (dkeys g1) <-> In k (dkeys g0) \/ exists x, In x (dkeys g) /\ k = remove_last x n) /\
  (forall A B, In B (nbrs g1 A) <-> In B (nbrs g0 A) \/
     (A <> B /\ exists x y, edge g x y /\ A = remove_last x n /\ B = remove_last y n)).
Proof.
  induction g as [|(k, v) rest IH]; intros g0 ND; simpl.
  - split; auto. split.
    + intros k. split; auto. intros [H|(x & [] & _)]; auto.
    + intros A B. split; auto. intros [H|(_ & x & y & (w & [] & _) & _)]; auto.
  - set (nk := remove_last k n).
    set (nv := filter (fun x => negb (eqb x nk)) (map (fun x => remove_last x n) v)).
    set (g' := match dget g0 nk with Some old => dset g0 nk (old ++ nv) | None => dset g0 nk nv end).
    assert (ND' : NoDup (dkeys g')) by (unfold g'; destruct (dget g0 nk); apply NoDup_dset; auto).
    assert (K' : forall x, In x (dkeys g') <-> x = nk \/ In x (dkeys g0)).
    { intros x. unfold g'. destruct (dget g0 nk); apply dkeys_dset. }
    assert (B' : forall A B, In B (nbrs g' A) <-> In B (nbrs g0 A) \/ (A = nk /\ In B nv)).
    { intros A B. unfold g', nbrs. destruct (eq_dec A nk) as [->|N].
      - destruct (dget g0 nk) as [old|]; rewrite dget_dset_same; try rewrite in_app_iff; simpl; tauto.
      - destruct (dget g0 nk) as [old|]; rewrite dget_dset_other; auto; tauto. }
    destruct (IH g' ND') as (H1 & H2 & H3). split; auto. split.
    + intros x. rewrite H2, K'. split.
      * intros [[->|H]|(y & Iy & ->)]; auto.
        -- right. exists k. auto.
        -- right. exists y. auto.
      * intros [H|(y & [<-|Iy] & ->)]; auto. right. exists y. auto.
    + intros A B. rewrite H3, B'. unfold nv. rewrite filter_In, in_map_iff. unfold edge. split.
      * intros [[H|(-> & (y & <- & Iy) & Q)]|(N & x & y & (w & I & J) & HA & HB)]; auto.
        -- right. apply negb_true_iff in Q. rewrite eqb_false in Q. split; [congruence|].
           exists k, y. split; [exists v; split; [left; auto|auto]|]. split; reflexivity.
        -- right. split; auto. exists x, y. repeat split; auto. exists w. split; [right; auto|auto].
      * intros [H|(N & x & y & (w & [I|I] & J) & HA & HB)]; auto.
        -- inversion I; subst x w. left. right. split; auto. split; [exists y; auto|].
           apply negb_true_iff. rewrite eqb_false. unfold nk. congruence.
        -- right. split; auto. exists x, y. repeat split; auto. exists w. auto.
Qed.


Lemma dget_map_snd (F : list str -> list str) (g : graph) k :
  dget (map (fun '(k, v) => (k, F v)) g) k = option_map F (dget g k).
Proof.
  induction g as [|(k', v) g IH]; simpl; auto. destruct (eq_dec k k'); auto.
Qed.

Lemma strip_graph_spec los g n : set_listing los ->
  let g1 := strip_graph los g n in
  NoDup (dkeys g1) /\
  (forall k, In k (dkeys g1) <-> exists x, In x (dkeys g) /\ k = remove_last x n) /\
  (forall k, NoDup (nbrs g1 k)) /\
  (forall A B, In B (nbrs g1 A) <->
     A <> B /\ exists x y, edge g x y /\ A = remove_last x n /\ B = remove_last y n).
Proof.
  intros HS. destruct (strip_collect_spec n g [] ltac:(constructor)) as (H1 & H2 & H3).
  unfold strip_graph. cbv zeta.
  assert (KE : dkeys (map (fun '(k, v) => (k, los v)) (strip_collect [] g n)) = dkeys (strip_collect [] g n)).
  { unfold dkeys. rewrite map_map. apply map_ext. intros (a, b); auto. }
  rewrite KE. split; auto. split; [|split].
  - intros k. rewrite H2. simpl. tauto.
  - intros k. unfold nbrs. rewrite dget_map_snd. destruct (dget _ k); simpl; [apply HS|constructor].
  - intros A B. unfold nbrs at 1. rewrite dget_map_snd.
    specialize (H3 A B). unfold nbrs at 1 2 in H3. simpl in H3.
    destruct (dget (strip_collect [] g n) A); simpl; [rewrite (proj2 (HS l))|]; tauto.
Qed.

Lemma strip_graph_symmetric los g n : set_listing los ->
  (forall x y, edge g x y -> edge g y x) ->
  forall A B, In B (nbrs (strip_graph los g n) A) -> In A (nbrs (strip_graph los g n) B).
Proof.
  intros HS S A B H. apply (strip_graph_spec los g n HS) in H.
  apply (strip_graph_spec los g n HS). destruct H as (N & x & y & E & HA & HB).
  split; auto. exists y, x. auto.
Qed.

(** ** Cache *)
Section Cache.
  Context (los : list str -> list str) {bdg : Type} (gp : bdg -> bool -> bool -> bool -> graph).
  Notation get_graph := (get_graph los gp).
  Notation history := (history los gp).
  Notation fresh := (fresh los gp).

  Lemma graph_level_same b f o t n : graph_level los gp b f o t (gp b f o t) n = strip_graph los (gp b f o t) n.
  Proof. unfold graph_level. destruct (gp b f o t); auto. Qed.

  Lemma get_graph_new c b lv f o t : snd (get_graph c b true lv f o t) = fresh b lv f o t.
  Proof.
    unfold get_graph, GraphModel.get_graph.
    destruct (c_graph c); destruct lv; simpl; auto; rewrite graph_level_same; auto.
  Qed.

  Lemma get_graph_first c b new lv f o t : c_graph c = [] ->
    get_graph c b new lv f o t = get_graph c b true lv f o t.
  Proof. unfold get_graph, GraphModel.get_graph. intros ->. auto. Qed.

  Lemma get_graph_cached c b lv f o t : c_graph c <> [] ->
    fst (get_graph c b false lv f o t) = c.
  Proof. unfold get_graph, GraphModel.get_graph. destruct (c_graph c); auto. congruence. Qed.

  (** Cache invariant: all four graphs come from one polygon graph, computed by
      the last recomputing call. *)
  Definition derived (c : cache) : Prop :=
    c = cache0 \/ exists b f o t, c = mkCache (gp b f o t) (strip_graph los (gp b f o t) 1)
      (strip_graph los (gp b f o t) 2) (strip_graph los (gp b f o t) 3).

  Lemma get_graph_derived c b new lv f o t : derived c -> derived (fst (get_graph c b new lv f o t)).
  Proof.
    intros D. unfold get_graph, GraphModel.get_graph.
    destruct (match c_graph c with [] => true | _ :: _ => new end); simpl; auto.
    right. exists b, f, o, t. rewrite !graph_level_same. auto.
  Qed.

  Lemma history_derived cs : forall c b, derived c -> derived (fst (history c b cs)).
  Proof.
    induction cs as [|[b'|new lv f o t] rest IH]; intros c b D; cbn [history]; auto.
    apply IH. apply get_graph_derived; auto.
  Qed.

  (** Result of a call at the end of any history. *)
  Lemma history_result cs b0 new lv f o t :
    let '(c, b) := history cache0 b0 cs in
    snd (get_graph c b new lv f o t) = fresh b lv f o t \/
    (new = false /\ exists b' f' o' t', gp b' f' o' t' <> [] /\
       c_graph c = gp b' f' o' t' /\
       snd (get_graph c b new lv f o t) = fresh b' lv f' o' t').
  Proof.
    destruct (history cache0 b0 cs) as (c, b) eqn:E.
    pose proof (history_derived cs cache0 b0 (or_introl eq_refl)) as D. rewrite E in D. simpl in D.
    destruct new; [left; apply get_graph_new|].
    destruct (c_graph c) eqn:Q.
    - left. rewrite get_graph_first; auto. apply get_graph_new.
    - right. split; auto. destruct D as [->|(b' & f' & o' & t' & ->)]; [discriminate|].
      exists b', f', o', t'. simpl in Q. split; [congruence|]. split; [congruence|].
      unfold get_graph, GraphModel.get_graph. simpl. rewrite Q. destruct lv; simpl; rewrite ?Q; auto.
  Qed.

  (** Which computation is the cached one: the last call that recomputed. *)
  Lemma history_cached_full pre b0 new lv f o t post b c :
    history cache0 b0 pre = (c, b) -> (new = true \/ c_graph c = []) -> gp b f o t <> [] ->
    Forall (fun x => match x with CEdit _ => True | CGet n _ _ _ _ => n = false end) post ->
    fst (history cache0 b0 (pre ++ CGet new lv f o t :: post)) =
      mkCache (gp b f o t) (strip_graph los (gp b f o t) 1)
      (strip_graph los (gp b f o t) 2) (strip_graph los (gp b f o t) 3).
  Proof.
    intros E N G F.
    assert (A : forall pre c0 b0 rest, history c0 b0 (pre ++ rest) =
       history (fst (history c0 b0 pre)) (snd (history c0 b0 pre)) rest).
    { induction pre0 as [|[b'|? ? ? ? ?] pre0 IH]; intros; cbn [GraphSpec.history app]; auto. }
    rewrite A, E. cbn [fst snd GraphSpec.history].
    set (c1 := fst (get_graph c b new lv f o t)).
    set (c2 := mkCache _ _ _ _).
    assert (C1 : c1 = c2).
    { unfold c1, c2, get_graph, GraphModel.get_graph.
      destruct N as [->| ->]; [destruct (c_graph c)|]; cbn [fst]; rewrite !graph_level_same; reflexivity. }
    rewrite C1. assert (G2 : c_graph c2 <> []) by exact G. clearbody c2. clear A E N C1 c1. revert F.
    generalize b at 1 as b1.
    induction post as [|[b'|n' lv' f' o' t'] post IH]; intros b1 F; cbn [GraphSpec.history]; auto.
    - inversion F; subst. apply IH; auto.
    - inversion F; subst. rewrite get_graph_cached; auto.
  Qed.
End Cache.
