(** Proofs: numbers of polygons and which of them are transparent. *)
From Coq Require Import Reals ZArith Ascii String List Arith Bool Lia Permutation Classical.
From Verif Require Import Prelude TreeModel TreeSpec TreeProofs TreeProofs2 GraphModel GraphSpec GraphProofs GraphProofs2 VecModel GeomModel GeomSpec GeomProofs1 GeomProofs4 PolyModel PolySpec PolyProofs1 PolyProofs3 SliceSpec InsideSpec LoopProofs6 TransModel TransSpec.
Import ListNotations.

Lemma number_from_other ps : forall k num i, ~ In i ps -> dget (number_from k ps num) i = dget num i.
Proof.
  induction ps as [|p ps IH]; intros k num i N; cbn [number_from]; auto. rewrite IH by (intros I; apply N; right; auto). apply dget_dset_other. intros ->. apply N. left. auto.
Qed.
Lemma number_from_at ps : forall k num j i, NoDup ps -> nth_error ps j = Some i -> dget (number_from k ps num) i = Some (k + Z.of_nat j)%Z.
Proof.
  induction ps as [|p ps IH]; intros k num j i N E; [destruct j; discriminate|]. inversion N as [|? ? N1 N2]; subst. cbn [number_from]. destruct j as [|j]; cbn [nth_error] in E.
  - injection E as ->. rewrite number_from_other, dget_dset_same by auto. f_equal. lia.
  - rewrite (IH _ _ j); auto. f_equal. lia.
Qed.

Section Building.
  Context (h : heap) (W : wf h) (L : linked h) (b : oid) (bo : obj) (Eb : nth_error h b = Some bo) (Kb : o_kind bo = KBuilding).
  Notation inside := (inside_of h KPolygon b).
  Definition polys_of : list oid := map snd (below h 4 b).

  Lemma polys_in i : In i polys_of <-> inside i.
  Proof.
    rewrite (inside_polygon h b bo i W Eb Kb). unfold polys_of. rewrite in_map_iff. split.
    - intros ((ns, j) & <- & I). apply in_below in I. exists ns. auto.
    - intros (ns & Ln & D). exists (ns, i). split; auto. apply in_below. auto.
  Qed.
  Lemma polys_path k i : nth_error polys_of k = Some i -> exists p, path h i = Ok p /\ nth_error (paths_below h 4 [o_name bo] b) k = Some p.
  Proof.
    unfold polys_of, paths_below. rewrite !nth_error_map. destruct (nth_error (below h 4 b) k) as [(ns, j)|] eqn:E; [|discriminate]. cbn [option_map snd]. intros H. injection H as <-.
    apply nth_error_In, in_below in E. destruct E as (_ & D). exists (join_with PATH_SEP (o_name bo :: ns)). split; auto. apply (descends_path h b bo ns j W L Eb Kb D).
  Qed.
  Lemma polys_nodup : NoDup polys_of.
  Proof.
    destruct (building_paths_spec h b bo W Eb Kb) as (l & El & Nl & _). rewrite (building_paths_ok h b bo W Eb) in El. injection El as <-.
    apply NoDup_nth_error. intros i j Li E. apply (proj1 (NoDup_nth_error _) Nl); [unfold paths_below, polys_of in *; rewrite map_length in *; exact Li|].
    destruct (nth_error polys_of i) as [x|] eqn:Ei; [|apply nth_error_None in Ei; lia]. destruct (polys_path i x Ei) as (p & P & ->). destruct (polys_path j x (eq_sym E)) as (p' & P' & ->). congruence.
  Qed.
  Lemma numbers num : exists num' l, number_polygons h b num = Ok num' /\ building_polygon_paths h b = Ok l /\
    (forall i k, inside i -> (dget num' i = Some k <-> (0 <= k)%Z /\ exists p, path h i = Ok p /\ nth_error l (Z.to_nat k) = Some p)) /\
    (forall i, ~ inside i -> dget num' i = dget num i).
  Proof.
    exists (number_from 0 polys_of num), (paths_below h 4 [o_name bo] b). unfold number_polygons. rewrite (iter_polygons_ok h b bo W Eb). cbn [rbind]. split; [reflexivity|]. split; [apply building_paths_ok; auto|]. split.
    - intros i k I. apply polys_in in I. destruct (In_nth_error _ _ I) as (j & J). rewrite (number_from_at _ 0 num j i polys_nodup J). destruct (polys_path j i J) as (p & P & N). split.
      + intros H. injection H as <-. split; [lia|]. exists p. split; auto. replace (Z.to_nat _) with j by lia. exact N.
      + intros (K & p' & P' & N'). assert (p' = p) by congruence. subst p'. f_equal. destruct (building_paths_spec h b bo W Eb Kb) as (l & El & Nl & _). rewrite (building_paths_ok h b bo W Eb) in El. injection El as <-.
        assert (j = Z.to_nat k). { apply (proj1 (NoDup_nth_error _) Nl); [apply nth_error_Some; congruence|congruence]. } lia.
    - intros i N. apply number_from_other. rewrite polys_in. exact N.
  Qed.

  Lemma zone_path i p z : inside i -> path h i = Ok p -> (in_zone p z <-> lies_in h b i z).
  Proof.
    intros ((o & Eo & Ko) & ns & D) P. rewrite (descends_path h b bo ns i W L Eb Kb D) in P. apply Ok_inj in P. subst p. destruct (descends_kind h b bo ns i W Eb Kb D) as (_ & _ & _ & F).
    assert (Pi : polygon_of h b i) by (apply (inside_polygon h b bo i W Eb Kb); split; [exists o; auto|eauto]). destruct Pi as (ns' & Ln & D').
    assert (ns' = ns). { apply (descends_same_path h b bo ns' i ns i (join_with PATH_SEP (o_name bo :: ns)) W L Eb Kb D' D); [|apply (descends_path h b bo ns i W L Eb Kb D)]. apply (descends_path h b bo ns i W L Eb Kb D). } subst ns'.
    destruct ns as [|w ns]; [discriminate Ln|]. rewrite <- zone_of_in_zone. assert (Nb : ~ In PATH_SEP (o_name bo)) by (destruct (W b bo Eb); tauto). assert (Zs : zone_of (join_with PATH_SEP (o_name bo :: w :: ns)) = Ok w). { unfold zone_of, split_path. rewrite split_join; [|discriminate|constructor; auto]. reflexivity. } rewrite Zs. split.
    - intros E. injection E as <-. exists ns. exact D.
    - intros (r & Dr). destruct (descends_same_path h b bo (z :: r) i (w :: ns) i (join_with PATH_SEP (o_name bo :: w :: ns)) W L Eb Kb Dr D) as (_ & E); try (apply (descends_path h b bo (w :: ns) i W L Eb Kb D)). congruence.
  Qed.
  Lemma has_zone i : inside i -> exists z, lies_in h b i z.
  Proof. intros I. apply (inside_polygon h b bo i W Eb Kb) in I. destruct I as (ns & Ln & D). destruct ns as [|w ns]; [discriminate Ln|]. exists w, ns. exact D. Qed.

    Lemma add_numbers_ok int_of num' s : forall nums, (forall p, In p s -> exists i k, inside i /\ path h i = Ok p /\ dget num' i = Some k) ->
      exists l, add_numbers int_of h b num' s nums = Ok l /\ (NoDup nums -> NoDup l) /\ forall k, In k l <-> In k nums \/ exists i p, In p s /\ inside i /\ path h i = Ok p /\ dget num' i = Some k.
    Proof.
      induction s as [|p s IH]; intros nums H; cbn [add_numbers].
      - exists nums. split; auto. split; auto. intros k. split; auto. intros [I|(i & p & [] & _)]; auto.
      - destruct (H p (or_introl eq_refl)) as (i & k & Ii & P & K). pose proof Ii as ((o & Eo & Ko) & ns & D). destruct (path_get_roundtrip int_of h b bo ns i W L Eb Kb D) as (p' & P' & G & _). assert (p' = p) by congruence. subst p'.
        rewrite G. cbn [rbind]. rewrite (proj2 (deref_ok _ _ _) Eo). cbn [rbind]. rewrite Ko, K. destruct (IH (set_add nums k)) as (l & El & Nl & Sl); [intros; apply H; right; auto|].
        assert (Sa : forall x, In x (set_add nums k) <-> In x nums \/ x = k). { intros x. unfold set_add. destruct (memb k nums) eqn:M; [rewrite memb_true in M; split; auto; intros [I| ->]; auto|]. rewrite in_app_iff. cbn [In]. intuition. }
        exists l. split; auto. split.
        + intros N. apply Nl. unfold set_add. destruct (memb k nums) eqn:M; auto. apply (Permutation_NoDup (Permutation_cons_append nums k)). constructor; auto. intros I. rewrite <- memb_true in I. congruence.
        + intros x. rewrite Sl, Sa. split.
          * intros [[I| ->]|(j & q & Iq & R)]; auto; right; [exists i, p; repeat split; auto; try (left; reflexivity); apply Ii|exists j, q; split; [right|]; auto].
          * intros [I|(j & q & [<-|Iq] & Ij & Pj & Kj)]; auto; [|right; exists j, q; auto]. left. right. destruct Ij as (_ & ns' & D'). destruct (descends_same_path h b bo ns' j ns i p W L Eb Kb D' D Pj P) as (-> & _). congruence.
    Qed.

  Section Geometry.
    Context (geo : oid -> face * vec * R) (bbox isf isc ist : oid -> oid -> bool) (Te : tests_are h b geo bbox isf) (Cc : clear_cut h b geo).

    Lemma opposite_sym x y : opposite x y -> opposite y x.
    Proof.
      intros (R & N). split; [|rewrite N; destruct (facing_way x); vunf; f_equal; ring].
      destruct R as (u & v & E & ->). rewrite rev_app_distr. exists (rev u), (rev v). split; auto. rewrite <- (rev_involutive (corners x)), E. apply rev_app_distr.
    Qed.
    Lemma unlike_not i j : inside i -> inside j -> i <> j -> unlike (geo i) (geo j) -> isf i j = false.
    Proof.
      intros Ii Ij N U. destruct (Te i j Ii Ij N) as (E & _). destruct (isf i j) eqn:F; auto. exfalso. destruct (facing_sound _ _ _ _ E) as (A & (m & Lm & _ & M) & _). destruct U as [(p & Ip & U)|U]; [|congruence].
      destruct (In_nth_error _ _ Ip) as (k & K). assert (Hk : (k < length m)%nat) by (rewrite Lm; apply nth_error_Some; congruence). destruct (nth_error m k) as [q|] eqn:Q; [|apply nth_error_None in Q; lia].
      destruct (M k q Q) as (p' & q' & P1 & P2 & S). assert (p' = p) by congruence. subst p'. rewrite (U q') in S by (eapply nth_error_In; eauto). discriminate S.
    Qed.
    Lemma opposite_yes i j : inside i -> inside j -> i <> j -> opposite (geo i) (geo j) -> isf i j = true /\ bbox i j = true.
    Proof.
      intros Ii Ij N (R & Nn). destruct (Te i j Ii Ij N) as (E & b1 & b2 & B1 & B2 & Bb). destruct (proj1 Cc i Ii) as (L3 & Ta). destruct (facing_complete (corners (geo i)) (facing_way (geo i)) (corners (geo j)) L3 Ta R) as (F & _).
      rewrite Nn in E. split; [rewrite F in E; apply Ok_inj in E; auto|]. destruct (facing_sound _ _ _ _ F) as (_ & _ & _ & b1' & b2' & B1' & B2' & O). rewrite Bb. rewrite B1 in B1'. rewrite B2 in B2'. injection B1' as ->. injection B2' as ->. exact O.
    Qed.
    Lemma graph_edges : exists g, building_graph bbox isf isc ist true false false h b = Ok g /\ NoDup (map fst g) /\ (forall k, NoDup (nbrs g k)) /\
      forall k x, edge g k x <-> exists i j, inside i /\ inside j /\ i <> j /\ path h i = Ok k /\ path h j = Ok x /\ opposite (geo i) (geo j).
    Proof.
      destruct (building_graph_spec bbox isf isc ist true false false h b bo W L Eb Kb) as (g & Eg & G1 & _ & G3 & G4). exists g. split; auto. split; auto. split; auto.
      intros k x. rewrite (edge_nbrs g k x G1), G4. split; intros (i & j & Ii & Ij & N & Pk & Px & H); exists i, j.
      - apply (inside_polygon h b bo _ W Eb Kb) in Ii, Ij. do 5 (split; [assumption|]). destruct (proj2 Cc i j Ii Ij N) as [O|(U & U')]; auto. exfalso. rewrite !link_true in H.
        rewrite (unlike_not i j Ii Ij N U), (unlike_not j i Ij Ii (not_eq_sym N) U') in H. intuition discriminate.
      - pose proof Ii as Ii'. pose proof Ij as Ij'. apply (inside_polygon h b bo _ W Eb Kb) in Ii', Ij'. do 5 (split; [assumption|]). left. apply link_true. destruct (opposite_yes i j Ii Ij N H). auto.
    Qed.

    Lemma transparent int_of c bid num : dget c bid = None -> (forall i j k, inside i -> inside j -> inside k -> i <> j -> i <> k -> opposite (geo i) (geo j) -> opposite (geo i) (geo k) -> j = k) ->
      exists s num' l, simulation_transparent int_of bbox isf isc ist true c bid h b num = (dset c bid s, Ok l) /\ number_polygons h b num = Ok num' /\ NoDup l /\ (forall p, In p s <-> exists i j, divides h b geo i j /\ path h i = Ok p) /\
        forall k, In k l <-> k = (-1)%Z \/ exists i j, divides h b geo i j /\ dget num' i = Some k.
    Proof.
      intros Dc Un. destruct (numbers num) as (num' & l0 & En & El & Nm & _). destruct graph_edges as (g & Eg & G1 & G3 & G4).
      assert (Pi : forall i, inside i -> exists p, path h i = Ok p) by (intros i (_ & ns & D); exists (join_with PATH_SEP (o_name bo :: ns)); apply (descends_path h b bo ns i W L Eb Kb D)).
      assert (Same : forall i j p, inside i -> inside j -> path h i = Ok p -> path h j = Ok p -> i = j) by (intros i j p (_ & ns & D) (_ & ns' & D') P P'; apply (descends_same_path h b bo ns i ns' j p W L Eb Kb D D' P P')).
      destruct (transparent_first_call c bid g Dc) as (s & Es & Ns & Is).
      - intros k v I. assert (Nv : NoDup v /\ forall x, In x v -> edge g k x). { split; [|intros x Ix; exists v; auto]. specialize (G3 k). unfold nbrs in G3. rewrite (dget_in g k v G1 I) in G3. exact G3. }
        destruct Nv as (Nv & Ev). destruct v as [|x [|y v]]; cbn [length]; try lia. exfalso. destruct (proj1 (G4 k x) (Ev x (or_introl eq_refl))) as (i & j & Ii & Ij & N & P & Pj & O). destruct (proj1 (G4 k y) (Ev y (or_intror (or_introl eq_refl)))) as (i' & j' & Ii' & Ij' & N' & P' & Pj' & O').
        assert (i' = i) by (apply (Same i' i k); auto). subst i'. assert (j = j') by (apply (Un i); auto). subst j'. inversion Nv as [|? ? Nx _]; subst. apply Nx. left. congruence.
      - intros k x E. apply G4 in E. destruct E as (i & j & Ii & Ij & N & P & Pj & O). apply G4. exists j, i. do 5 (split; [auto|]). apply opposite_sym; auto.
      - intros k x E. apply G4 in E. destruct E as (i & j & Ii & Ij & N & P & Pj & O). destruct (has_zone i Ii) as (z & Z). exists z. apply (zone_path i); auto.
      - assert (In_s : forall p, In p s <-> exists i j, divides h b geo i j /\ path h i = Ok p).
        { intros p. rewrite Is. split.
          - intros (y & z & E & Z1 & Z2). apply G4 in E. destruct E as (i & j & Ii & Ij & N & P & Pj & O). exists i, j. split; auto. do 4 (split; [auto|]). exists z. split; [apply (zone_path i p)|apply (zone_path j y)]; auto.
          - intros (i & j & (Ii & Ij & N & O & z & Z1 & Z2) & P). destruct (Pi j Ij) as (y & Py). exists y, z. split; [apply G4; exists i, j; auto 8|]. split; [apply (zone_path i)|apply (zone_path j)]; auto. }
        destruct (add_numbers_ok int_of num' s [(-1)%Z]) as (l & Ll & Nl & Sl).
        { intros p I. apply In_s in I. destruct I as (i & j & (Ii & _) & P). pose proof Ii as Ii'. apply polys_in in Ii'. destruct (In_nth_error _ _ Ii') as (k & K). exists i, (Z.of_nat k). split; auto. split; auto. apply Nm; auto. split; [lia|].
          destruct (polys_path k i K) as (p' & P' & N'). exists p'. split; auto. rewrite Nat2Z.id. rewrite (building_paths_ok h b bo W Eb) in El. injection El as <-. exact N'. }
        exists s, num', l. unfold simulation_transparent. rewrite En. cbn [negb]. rewrite Dc, Eg, Es. split; [unfold transparent_numbers; rewrite Ll; reflexivity|]. split; auto. split; [apply Nl; repeat constructor; simpl; tauto|]. split; [exact In_s|].
        intros k. rewrite Sl. cbn [In]. split.
        + intros [[<-|[]]|(i & p & Ip & Ii & P & K)]; auto. right. apply In_s in Ip. destruct Ip as (i' & j & Dv & P'). assert (i' = i) by (apply (Same i' i p); auto; apply Dv). subst i'. eauto.
        + intros [-> |(i & j & Dv & K)]; auto. right. destruct (Pi i (proj1 Dv)) as (p & P). exists i, p. split; [apply In_s; eauto|]. split; [apply Dv|]. auto.
    Qed.
    Lemma crowded int_of c bid num i j k : dget c bid = None -> inside i -> inside j -> inside k -> i <> j -> i <> k -> j <> k -> opposite (geo i) (geo j) -> opposite (geo i) (geo k) ->
      simulation_transparent int_of bbox isf isc ist true c bid h b num = (c, Err AssertionError).
    Proof.
      intros Dc Ii Ij Ik N1 N2 N3 O1 O2. destruct (numbers num) as (num' & l0 & En & _). destruct graph_edges as (g & Eg & G1 & G3 & G4). unfold simulation_transparent. rewrite En. cbn [negb]. rewrite Dc, Eg.
      rewrite (transparent_fails c bid g Dc); auto.
      - intros p x E. apply G4 in E. destruct E as (u & v & Iu & Iv & _ & P & Px & _). destruct (has_zone u Iu) as (z & Z), (has_zone v Iv) as (z' & Z'). split; [exists z; apply (zone_path u)|exists z'; apply (zone_path v)]; auto.
      - assert (Pi : forall i, inside i -> exists p, path h i = Ok p) by (intros u (_ & ns & D); exists (join_with PATH_SEP (o_name bo :: ns)); apply (descends_path h b bo ns u W L Eb Kb D)).
        destruct (Pi i Ii) as (p & P), (Pi j Ij) as (x & Px), (Pi k Ik) as (y & Py).
        assert (E1 : In x (nbrs g p)) by (apply (edge_nbrs g p x G1), G4; exists i, j; auto 8). assert (E2 : In y (nbrs g p)) by (apply (edge_nbrs g p y G1), G4; exists i, k; auto 8).
        unfold nbrs in E1, E2. destruct (dget g p) as [v|] eqn:Gp; [|destruct E1]. exists p, v. split; [apply dget_Some_in; auto|].
        destruct v as [|u [|w v]]; cbn [length]; try lia; [destruct E1|]. destruct E1 as [->|[]], E2 as [->|[]]. exfalso. apply N3. destruct Ij as (_ & ns & D), Ik as (_ & ns' & D'). apply (descends_same_path h b bo ns j ns' k y W L Eb Kb D D' Px Py).
    Qed.
  End Geometry.

  Lemma add_numbers_sound int_of num' s : forall nums l, add_numbers int_of h b num' s nums = Ok l -> forall p, In p s -> exists i k, inside i /\ path h i = Ok p /\ dget num' i = Some k.
  Proof.
    induction s as [|q s IH]; intros nums l; cbn [add_numbers]; [intros _ p []|]. destruct (building_get int_of h b q) as [[i|i n]|e] eqn:G; cbn [rbind]; try discriminate. destruct (deref h i) as [o|e] eqn:D; cbn [rbind]; [|discriminate].
    destruct (o_kind o) eqn:K; try discriminate. destruct (dget num' i) as [k|] eqn:Dk; [|discriminate]. intros E p [<-|I]; [|eapply IH; eauto].
    apply (building_get_obj int_of h b bo q i W Eb) in G. destruct G as (ns & -> & _ & _ & De). exists i, k. split; [|split; [apply (descends_path h b bo ns i W L Eb Kb De)|exact Dk]]. split; [exists o; split; [apply deref_ok, D|exact K]|exists ns; exact De].
  Qed.
  Lemma remembered int_of bbox isf isc ist c bid s num : dget c bid = Some s ->
    exists num', number_polygons h b num = Ok num' /\
      ((forall p, In p s -> exists i, inside i /\ path h i = Ok p) -> exists l, simulation_transparent int_of bbox isf isc ist true c bid h b num = (c, Ok l) /\ forall k, In k l <-> k = (-1)%Z \/ exists i p, In p s /\ inside i /\ path h i = Ok p /\ dget num' i = Some k) /\
      ((exists p, In p s /\ forall i, inside i -> path h i <> Ok p) -> exists e, simulation_transparent int_of bbox isf isc ist true c bid h b num = (c, Err e)).
  Proof.
    intros Dc. destruct (numbers num) as (num' & l0 & En & El & Nm & _). exists num'. split; auto. unfold simulation_transparent. rewrite En. cbn [negb]. rewrite Dc. unfold transparent_numbers. split.
    - intros H. destruct (add_numbers_ok int_of num' s [(-1)%Z]) as (l & Ll & _ & Sl).
      + intros p I. destruct (H p I) as (i & Ii & P). exists i. pose proof Ii as Ii'. apply polys_in in Ii'. destruct (In_nth_error _ _ Ii') as (k & K). exists (Z.of_nat k). split; auto. split; auto. apply Nm; auto. split; [lia|].
        destruct (polys_path k i K) as (p' & P' & N'). exists p'. split; auto. rewrite Nat2Z.id. rewrite (building_paths_ok h b bo W Eb) in El. injection El as <-. exact N'.
      + exists l. rewrite Ll. split; auto. intros k. rewrite Sl. cbn [In]. split; [intros [[<-|[]]|X]; auto|intros [->|X]; auto].
    - intros (p & I & H). destruct (add_numbers int_of h b num' s [(-1)%Z]) as [l|e] eqn:E; [|eauto]. exfalso. destruct (add_numbers_sound int_of num' s _ _ E p I) as (i & k & Ii & P & _). exact (H i Ii P).
  Qed.
End Building.
Lemma dummy l : NoDup l -> In (-1)%Z l -> without_dummy l <> [] /\ forall k, (0 <= k)%Z -> (In k (without_dummy l) <-> In k l).
Proof.
  intros N I. unfold without_dummy. rewrite (proj2 (memb_true _ _) I), andb_true_r. destruct (1 <? length l)%nat eqn:Le.
  - apply Nat.ltb_lt in Le. split.
    + intros E. destruct l as [|x [|y l]]; cbn [length] in Le; try lia. assert (X : forall z, In z (x :: y :: l) -> z = (-1)%Z). { intros z Iz. destruct (Z.eq_dec z (-1)%Z); auto. exfalso. assert (In z (remove Z.eq_dec (-1)%Z (x :: y :: l))) by (apply in_in_remove; auto). rewrite E in H. destruct H. }
      inversion N as [|? ? N1 _]; subst. apply N1. left. rewrite (X x), (X y); simpl; auto.
    + intros k K. split; [intros H; apply in_remove in H; tauto|]. intros H. apply in_in_remove; auto. lia.
  - split; [intros ->; destruct I|tauto].
Qed.
