(** Proofs about stitching order, location search and transparent polygons. *)
From Coq Require Import Ascii String List Arith Bool Lia.
From Verif Require Import Prelude TreeModel TreeSpec TreeProofs TreeProofs2 GraphModel GraphSpec GraphProofs.
Import ListNotations.

(** ** Stitching *)


Lemma solid_name_fun p n n' : solid_name p n -> solid_name p n' -> n = n'.
Proof. intros (b & z & E) (b' & z' & E'). congruence. Qed.


Lemma same_pair_true p q : same_pair p q = true <-> same_set p q.
Proof.
  destruct p as (a, b), q as (c, d). unfold same_pair, same_set. simpl.
  rewrite orb_true_iff, !andb_true_iff, !eqb_true. split.
  - intros [(-> & ->)|(-> & ->)]; auto.
  - intros [H|H]; [inversion H|]; auto.
Qed.

Lemma same_set_sym p q : same_set p q -> same_set q p.
Proof. destruct p, q. unfold same_set. simpl. intros [H|(-> & ->)]; auto. Qed.


Lemma stitch_edges_spec es : forall done,
  (forall e, In e es -> exists p, names_of e p) ->
  exists cs, stitch_edges done es = Ok cs /\
    incl cs es /\
    (forall e, In e es -> exists p, names_of e p /\
       ((exists q, In q done /\ same_set p q) \/ (exists c q, In c cs /\ names_of c q /\ same_set p q))) /\
    (forall c p q, In c cs -> names_of c p -> In q done -> ~ same_set p q) /\
    ForallOrdPairs (fun c d => forall p q, names_of c p -> names_of d q -> ~ same_set p q) cs.
Proof.
  induction es as [|(k, a) es IH]; intros done H; simpl.
  - exists []. repeat split; auto; try constructor.
    + intros x [].
    + intros e [].
  - destruct (H (k, a) (or_introl eq_refl)) as ((n, m) & (b1 & z1 & E1) & (b2 & z2 & E2)). simpl in E1, E2.
    unfold stitch_edge. rewrite E1, E2.
    assert (NM : forall p, names_of (k, a) p -> p = (n, m)).
    { intros (x, y) (X & Y). simpl in X, Y.
      f_equal; eapply solid_name_fun; eauto; [exists b1, z1|exists b2, z2]; auto. }
    assert (NO : names_of (k, a) (n, m)) by (split; [exists b1, z1|exists b2, z2]; auto).
    destruct (existsb (same_pair (n, m)) done) eqn:X.
    + apply existsb_exists in X. destruct X as (q & Iq & S). apply same_pair_true in S.
      cbn [rbind fst snd app].
      destruct (IH done) as (cs & -> & I1 & I2 & I3 & I4).
      { intros e He. apply H. right. auto. }
      cbn [rbind]. exists cs. repeat split; auto.
      * intros x Hx. right. auto.
      * intros e [<-|He]; eauto. exists (n, m). split; auto. left. eauto.
    + cbn [rbind fst snd app].
      assert (XN : forall q, In q done -> ~ same_set (n, m) q).
      { intros q Iq S. apply same_pair_true in S.
        assert (Y : existsb (same_pair (n, m)) done = true) by (apply existsb_exists; eauto). congruence. }
      destruct (IH (done ++ [(n, m)])) as (cs & -> & I1 & I2 & I3 & I4).
      { intros e He. apply H. right. auto. }
      cbn [rbind]. exists ((k, a) :: cs). split; auto. split; [|split; [|split]].
      * intros x [<-|Hx]; [left|right]; auto.
      * intros e [<-|He].
        -- exists (n, m). split; auto. right. exists (k, a), (n, m). split; [left; auto|].
           split; auto. left. auto.
        -- destruct (I2 e He) as (p & Np & Q). exists p. split; auto.
           destruct Q as [(q & Iq & S)|(c & q & Ic & Nq & S)].
           ++ apply in_app_iff in Iq. destruct Iq as [Iq|[<-|[]]]; [left; eauto|].
              right. exists (k, a), (n, m). split; [left; auto|]. auto.
           ++ right. exists c, q. split; [right; auto|]. auto.
      * intros c p q [<-|Ic] Np Iq.
        -- rewrite (NM p Np). auto.
        -- apply (I3 c p q); auto. apply in_app_iff. auto.
      * constructor; auto. apply Forall_forall. intros d Id p q Np Nq.
        rewrite (NM p Np). intros S. apply (I3 d q (n, m) Id Nq); [apply in_app_iff; simpl; auto|].
        apply same_set_sym. auto.
Qed.

Lemma in_edges g e : In e (flat_map (fun '(k, v) => map (fun a => (k, a)) v) g) <-> edge g (fst e) (snd e).
Proof.
  rewrite in_flat_map. unfold edge. destruct e as (x, y). simpl. split.
  - intros ((k, v) & I & J). apply in_map_iff in J. destruct J as (a & Q & J). inversion Q; subst. eauto.
  - intros (v & I & J). exists (x, v). split; auto. apply in_map_iff. eauto.
Qed.

Lemma stitch_calls_spec g :
  (forall x y, edge g x y -> (exists n, solid_name x n) /\ (exists n, solid_name y n)) ->
  exists cs, stitch_calls g = Ok cs /\
    (forall x y, In (x, y) cs -> edge g x y) /\
    (forall x y n m, edge g x y -> solid_name x n -> solid_name y m ->
       exists x' y' n' m', In (x', y') cs /\ solid_name x' n' /\ solid_name y' m' /\ same_set (n, m) (n', m')) /\
    ForallOrdPairs (fun c d => forall p q, names_of c p -> names_of d q -> ~ same_set p q) cs.
Proof.
  intros H. unfold stitch_calls.
  destruct (stitch_edges_spec (flat_map (fun '(k, v) => map (fun a => (k, a)) v) g) []) as (cs & E & I1 & I2 & _ & I4).
  - intros (x, y) I. apply in_edges in I. destruct (H _ _ I) as ((n & A) & (m & B)). exists (n, m). split; auto.
  - exists cs. split; auto. split; [|split; auto].
    + intros x y I. apply I1 in I. apply in_edges in I. auto.
    + intros x y n m Ed A B. destruct (I2 (x, y)) as (p & Np & Q).
      { apply in_edges. auto. }
      assert (p = (n, m)).
      { destruct p, Np as (P1 & P2). simpl in *. f_equal; eapply solid_name_fun; eauto. }
      subst p. destruct Q as [(q & [] & _)|(c & q & Ic & (N1 & N2) & S)].
      destruct c as (x', y'), q as (n', m'). exists x', y', n', m'. auto.
Qed.

Lemma ForallOrdPairs_irrefl_NoDup {A} (R : A -> A -> Prop) l :
  (forall x, In x l -> ~ R x x) -> ForallOrdPairs R l -> NoDup l.
Proof.
  intros H F. induction F as [|a l Fa F IH]; constructor.
  - intros I. rewrite Forall_forall in Fa. apply (H a); [left; auto|]. auto.
  - apply IH. intros x I. apply H. right. auto.
Qed.

Lemma ForallOrdPairs_cases {A} (R : A -> A -> Prop) l x y : ForallOrdPairs R l -> In x l -> In y l ->
  x = y \/ R x y \/ R y x.
Proof.
  intros F. induction F as [|a l Fa F IH]; intros Ix Iy; [destruct Ix|].
  rewrite Forall_forall in Fa. destruct Ix as [<-|Ix], Iy as [<-|Iy]; auto.
Qed.

Lemma stitch_unique_names g :
  (forall x y, edge g x y -> x <> y /\ (exists n, solid_name x n) /\ (exists n, solid_name y n)) ->
  (forall x y x' y' n, edge g x y -> edge g x' y' ->
     forall u v, In u [x; y] -> In v [x'; y'] -> solid_name u n -> solid_name v n -> u = v) ->
  exists cs, stitch_calls g = Ok cs /\ NoDup cs /\
    (forall x y, In (x, y) cs -> edge g x y /\ ~ In (y, x) cs) /\
    (forall x y, edge g x y -> In (x, y) cs \/ In (y, x) cs).
Proof.
  intros H U. destruct (stitch_calls_spec g) as (cs & E & I1 & I2 & I3).
  { intros x y Q. destruct (H x y Q) as (_ & A & B). auto. }
  exists cs. split; auto.
  assert (NM : forall x y, In (x, y) cs -> exists p, names_of (x, y) p).
  { intros x y I. apply I1 in I. destruct (H x y I) as (_ & (n & A) & (m & B)). exists (n, m). split; auto. }
  split; [|split].
  - apply (ForallOrdPairs_irrefl_NoDup _ cs) with (2 := I3).
    intros (x, y) I Q. destruct (NM x y I) as (p & Np). apply (Q p p Np Np). left. auto.
  - intros x y I. split; auto. intros J.
    destruct (H x y (I1 x y I)) as (N & (n & A) & (m & B)).
    destruct (ForallOrdPairs_cases _ cs (x, y) (y, x) I3 I J) as [Q|[Q|Q]].
    + inversion Q. congruence.
    + apply (Q (n, m) (m, n)); [split; auto|split; auto|]. right. auto.
    + apply (Q (m, n) (n, m)); [split; auto|split; auto|]. right. auto.
  - intros x y Ed. destruct (H x y Ed) as (N & (n & A) & (m & B)).
    destruct (I2 x y n m Ed A B) as (x' & y' & n' & m' & I & A' & B' & S).
    pose proof (I1 _ _ I) as Ed'. destruct S as [S|(S1 & S2)].
    + inversion S; subst n' m'. left.
      rewrite (U x y x' y' n Ed Ed' x x'); simpl; auto. rewrite (U x y x' y' m Ed Ed' y y'); simpl; auto.
    + simpl in S1, S2. subst m' n'. right.
      rewrite (U x y x' y' n Ed Ed' x y'); simpl; auto. rewrite (U x y x' y' m Ed Ed' y x'); simpl; auto.
Qed.

(** Repeated solid names: the second of two disjoint adjacent pairs is skipped. *)
Lemma stitch_repeated_names :
  ~ (forall g, (forall x y, edge g x y -> x <> y /\ (exists n, solid_name x n) /\ (exists n, solid_name y n)) ->
     exists cs, stitch_calls g = Ok cs /\ (forall x y, edge g x y -> In (x, y) cs \/ In (y, x) cs)).
Proof.
  intros C.
  destruct (C [(str_of "b/z1/s", [str_of "b/z1/t"]); (str_of "b/z2/s", [str_of "b/z2/t"])]) as (cs & E & I).
  - intros x y (v & [Q|[Q|[]]] & J); inversion Q; subst x v; destruct J as [<-|[]].
    + split; [intros X; vm_compute in X; discriminate|].
      split; [exists (str_of "s"), (str_of "b"), (str_of "z1")|exists (str_of "t"), (str_of "b"), (str_of "z1")]; reflexivity.
    + split; [intros X; vm_compute in X; discriminate|].
      split; [exists (str_of "s"), (str_of "b"), (str_of "z2")|exists (str_of "t"), (str_of "b"), (str_of "z2")]; reflexivity.
  - vm_compute in E. inversion E; subst cs.
    destruct (I (str_of "b/z2/s") (str_of "b/z2/t")) as [J|J].
    + exists [str_of "b/z2/t"]. split; [right; left; auto|left; auto].
    + destruct J as [J|[]]. vm_compute in J. discriminate.
    + destruct J as [J|[]]. vm_compute in J. discriminate.
Qed.

(** ** find_location *)
Section Loc.
  Context (int_of : str -> option BinNums.Z) (inside : oid -> bool).

  Notation is_solid_at := (is_solid_at int_of).
  Notation not_solid_at := (not_solid_at int_of).
  Notation skipped := (skipped int_of inside).

  Lemma getitem_errs h i k e : getitem h i k = Err e -> e = AttributeError \/ e = KeyError.
  Proof.
    unfold getitem, deref, dlookup. destruct (nth_error h i); simpl.
    - destruct (dget _ _); intros Q; inversion Q; auto.
    - intros Q; inversion Q; auto.
  Qed.

  Lemma building_get_errs h b p e : building_get int_of h b p = Err e ->
    e <> RuntimeError /\ e <> TypeError.
  Proof.
    unfold building_get, deref. destruct (nth_error h b); cbn [rbind];
      [|intros Q; inversion Q; split; discriminate].
    destruct (split_on PATH_SEP p) as [|bn rest]; [intros Q; inversion Q; split; discriminate|].
    destruct (negb _); [intros Q; inversion Q; split; discriminate|].
    assert (G : forall A (F : oid -> result A) i k, (do z <- getitem h i k; F z) = Err e ->
      (e <> RuntimeError /\ e <> TypeError) \/ exists z, F z = Err e).
    { intros A F i k. destruct (getitem h i k) eqn:Q; cbn [rbind]; [right; eauto|].
      intros X. inversion X; subst. destruct (getitem_errs _ _ _ _ Q); subst; left; split; discriminate. }
    assert (PA : forall i k, point_at h i k = Err e -> e <> RuntimeError /\ e <> TypeError).
    { intros i k Q. destruct (point_at_err _ _ _ _ Q); subst; split; discriminate. }
    do 6 (destruct rest as [|? rest];
      [try discriminate;
       try (destruct (int_of _); [|intros Q; inversion Q; split; discriminate]);
       intros Q;
       repeat (match goal with H : (do _ <- getitem _ _ _; _) = Err e |- _ =>
         apply G in H; destruct H as [H|(? & H)]; [exact H|] end);
       first [discriminate | eapply PA; eassumption]|]).
    intros Q; inversion Q; split; discriminate.
  Qed.

  Lemma is_solid_fun h b p i j : is_solid_at h b p i -> is_solid_at h b p j -> i = j.
  Proof. intros (E & _) (E' & _). congruence. Qed.

  (** Behaviour on one entry of the search list. *)
  Lemma search_cons h b p rest : wf h -> nth_error h b <> None ->
    (exists i, is_solid_at h b p i /\ inside i = true /\ search_solids int_of inside h b (p :: rest) = Ok p) \/
    (skipped h b p /\ search_solids int_of inside h b (p :: rest) = search_solids int_of inside h b rest) \/
    (not_solid_at h b p /\ search_solids int_of inside h b (p :: rest) = Err TypeError) \/
    (exists e, building_get int_of h b p = Err e /\ search_solids int_of inside h b (p :: rest) = Err e).
  Proof.
    intros W Nb. cbn [search_solids]. destruct (building_get int_of h b p) as [[i|i k]|e] eqn:G; cbn [rbind].
    - destruct (nth_error h b) as [bo|] eqn:Eb; [|congruence].
      assert (D : exists o, nth_error h i = Some o).
      { apply (building_get_obj int_of h b bo p i W Eb) in G. destruct G as (ns & _ & _ & _ & D).
        clear Nb. inversion D; subst; eauto.
        destruct (W _ _ H0) as (_ & B & _). destruct (B _ _ H1) as (co & Ec & _). eauto. }
      destruct D as (o & Ei). unfold deref. rewrite Ei. cbn [rbind].
      destruct (o_kind o) eqn:K.
      3:{ destruct (inside i) eqn:Ins; [left|right; left].
          - exists i. repeat split; auto. exists o. auto.
          - split; auto. exists i. repeat split; auto. exists o. auto. }
      all: right; right; left; split; auto; exists (GotObj i); split; auto;
        intros (j & Q & o' & Ej & Kj); inversion Q; subst j; congruence.
    - right. right. left. split; auto. exists (GotPoint i k). split; auto. intros (j & Q & _). discriminate.
    - right. right. right. eauto.
  Qed.

  Lemma search_ok h b l loc : wf h -> nth_error h b <> None ->
    (search_solids int_of inside h b l = Ok loc <->
     exists l1 l2 i, l = l1 ++ loc :: l2 /\ is_solid_at h b loc i /\ inside i = true /\ Forall (skipped h b) l1).
  Proof.
    intros W Nb. induction l as [|p rest IH].
    - simpl. split; [discriminate|]. intros (l1 & l2 & i & E & _). destruct l1; discriminate.
    - destruct (search_cons h b p rest W Nb) as [(i & S & Ins & E)|[(S & E)|[(S & E)|(e & S & E)]]]; rewrite E.
      + split.
        * intros Q. inversion Q; subst. exists [], rest, i. auto.
        * intros (l1 & l2 & j & Q & S' & Ins' & F). destruct l1 as [|p' l1]; [inversion Q; auto|].
          inversion Q; subst p'. destruct (Forall_inv F) as (j' & S'' & N).
          rewrite (is_solid_fun _ _ _ _ _ S S'') in Ins. congruence.
      + rewrite IH. split.
        * intros (l1 & l2 & j & -> & S' & Ins' & F). exists (p :: l1), l2, j. repeat split; auto.
          all: destruct S'; auto.
        * intros (l1 & l2 & j & Q & S' & Ins' & F). destruct l1 as [|p' l1].
          -- inversion Q; subst. destruct S as (j' & S & N). rewrite (is_solid_fun _ _ _ _ _ S S') in N. congruence.
          -- inversion Q; subst. inversion F; subst. exists l1, l2, j. auto.
      + split; [discriminate|]. intros (l1 & l2 & j & Q & S' & Ins' & F). exfalso.
        destruct S as (r & G & N). apply N. destruct l1 as [|p' l1].
        * inversion Q; subst. destruct S' as (G' & K). exists j. split; [congruence|auto].
        * inversion Q; subst. destruct (Forall_inv F) as (j' & (G' & K) & _). exists j'.
          split; [congruence|auto].
      + split; [discriminate|]. intros (l1 & l2 & j & Q & S' & Ins' & F). exfalso.
        destruct l1 as [|p' l1].
        * inversion Q; subst. destruct S' as (G' & K). congruence.
        * inversion Q; subst. destruct (Forall_inv F) as (j' & (G' & K) & _). congruence.
  Qed.

  Lemma search_runtime h b l : wf h -> nth_error h b <> None ->
    (search_solids int_of inside h b l = Err RuntimeError <-> Forall (skipped h b) l).
  Proof.
    intros W Nb. induction l as [|p rest IH].
    - simpl. split; auto.
    - destruct (search_cons h b p rest W Nb) as [(i & S & Ins & E)|[(S & E)|[(S & E)|(e & S & E)]]]; rewrite E.
      + split; [discriminate|]. intros F. destruct (Forall_inv F) as (j & S' & N).
        rewrite (is_solid_fun _ _ _ _ _ S S') in Ins. congruence.
      + rewrite IH. split; intros F; [constructor; auto|inversion F; auto].
      + split; [discriminate|]. intros F. exfalso. destruct (Forall_inv F) as (j & (G & K) & N).
        destruct S as (r & G' & X). apply X. exists j. split; [congruence|auto].
      + split.
        * intros Q. inversion Q; subst. destruct (building_get_errs _ _ _ _ S). congruence.
        * intros F. destruct (Forall_inv F) as (j & (G & K) & N). congruence.
  Qed.

  Lemma search_type h b l : wf h -> nth_error h b <> None ->
    (search_solids int_of inside h b l = Err TypeError <->
     exists l1 p l2, l = l1 ++ p :: l2 /\ not_solid_at h b p /\ Forall (skipped h b) l1).
  Proof.
    intros W Nb. induction l as [|p rest IH].
    - simpl. split; [discriminate|]. intros (l1 & p & l2 & E & _). destruct l1; discriminate.
    - destruct (search_cons h b p rest W Nb) as [(i & S & Ins & E)|[(S & E)|[(S & E)|(e & S & E)]]]; rewrite E.
      + split; [discriminate|]. intros (l1 & q & l2 & Q & (r & G & N) & F). exfalso. destruct l1 as [|p' l1].
        * inversion Q; subst. destruct S as (G' & K). apply N. exists i. split; [congruence|auto].
        * inversion Q; subst. destruct (Forall_inv F) as (j & S' & X).
          rewrite (is_solid_fun _ _ _ _ _ S S') in Ins. congruence.
      + rewrite IH. split.
        * intros (l1 & q & l2 & -> & N & F). exists (p :: l1), q, l2. repeat split; auto.
        * intros (l1 & q & l2 & Q & N & F). destruct l1 as [|p' l1].
          -- inversion Q; subst. destruct S as (j & (G & K) & X). destruct N as (r & G' & N). exfalso.
             apply N. exists j. split; [congruence|auto].
          -- inversion Q; subst. inversion F; subst. exists l1, q, l2. auto.
      + split; auto. intros _. exists [], p, rest. auto.
      + split.
        * intros Q. inversion Q; subst. destruct (building_get_errs _ _ _ _ S). congruence.
        * intros (l1 & q & l2 & Q & (r & G & N) & F). exfalso. destruct l1 as [|p' l1].
          -- inversion Q; subst. congruence.
          -- inversion Q; subst. destruct (Forall_inv F) as (j & (G' & K) & X). congruence.
  Qed.

  Lemma mapM_ok {A B} (F : A -> result B) (G : A -> B) l : (forall x, In x l -> F x = Ok (G x)) ->
    mapM F l = Ok (map G l).
  Proof.
    induction l as [|x l IH]; simpl; intros H; auto. rewrite H, IH; auto.
  Qed.

  Lemma solid_paths_ok h b bo : wf h -> linked h -> nth_error h b = Some bo -> o_kind bo = KBuilding ->
    solid_paths h b = Ok (map (path_of h) (map snd (below h 2 b))).
  Proof.
    intros W L E K. unfold solid_paths. rewrite (kids_ok h b bo E). cbn [rbind].
    cbn [below]. rewrite E, map_flat_map, map_flat_map. apply concatM_ok. intros (zn, z) Iz.
    destruct (W b bo E) as (_ & B & _). destruct (B zn z Iz) as (zo & Ez & _).
    rewrite (kids_ok h z zo Ez). cbn [rbind]. cbn [below]. rewrite Ez.
    assert (D1 : descends h b [zn] z) by (apply (desc_child h b [] b bo zn z); auto; constructor).
    rewrite (mapM_ok _ (fun '(_, s) => path_of h s)).
    - f_equal. rewrite !map_map.
      clear. induction (o_children zo) as [|(k, c) d IH]; simpl; auto. rewrite IH. auto.
    - intros (sn, s) Is. unfold path_of.
      rewrite (descends_path h b bo ([zn] ++ [sn]) s W L E K); auto. apply (desc_child h b [zn] z zo sn s); auto.
  Qed.

  Lemma in_solids h b bo i : wf h -> nth_error h b = Some bo -> o_kind bo = KBuilding ->
    (In i (map snd (below h 2 b)) <-> solid_of h b i).
  Proof.
    intros W E K. rewrite in_map_iff. split.
    - intros ((ns, j) & <- & I). apply in_below in I. destruct I as (Ln & D).
      destruct (descends_kind h b bo ns j W E K D) as (o & Ej & Dk & _). exists ns, o. repeat split; auto.
      rewrite Ln in Dk. simpl in Dk. congruence.
    - intros (ns & o & D & Ei & Ko). exists (ns, i). split; auto. apply in_below. split; auto.
      destruct (descends_kind h b bo ns i W E K D) as (o' & Ei' & Dk & _).
      rewrite Ei in Ei'. inversion Ei'; subst o'. rewrite Ko in Dk.
      pose proof (depth_kind_le4 _ _ Dk) as HH.
      do 5 (destruct ns as [|? ns]; [simpl in Dk; try discriminate; auto|]). simpl in HH. lia.
  Qed.

  Lemma solid_nonempty h b bo p i : wf h -> nth_error h b = Some bo -> o_kind bo = KBuilding ->
    is_solid_at h b p i -> p <> [].
  Proof.
    intros W E K (G & o & Ei & Ko) ->.
    apply (building_get_obj int_of h b bo [] i W E) in G. destruct G as (ns & Q & _ & _ & D).
    destruct ns as [|n ns].
    - inversion D as [|names ? ? ? ? ? ? ? C]; [subst; congruence|destruct names; discriminate].
    - rewrite join_cons_cons in Q. destruct (o_name bo); discriminate.
  Qed.

  (** The solids in building order, each with its path. *)
  Definition building_solids (h : heap) (b : oid) : list oid := map snd (below h 2 b).

  Lemma skipped_solid h b bo i p : wf h -> linked h -> nth_error h b = Some bo -> o_kind bo = KBuilding ->
    solid_of h b i -> path h i = Ok p -> is_solid_at h b p i.
  Proof.
    intros W L E K (ns & o & D & Ei & Ko) P.
    destruct (path_get_roundtrip int_of h b bo ns i W L E K D) as (p' & P' & G & _).
    split; [congruence|]. exists o. auto.
  Qed.

  Lemma find_location_spec h b bo hints : wf h -> linked h -> nth_error h b = Some bo -> o_kind bo = KBuilding ->
    exists ps, mapM (path h) (building_solids h b) = Ok ps /\
    (forall loc, find_location int_of inside h b hints = Ok loc <->
      exists l1 l2 i, hints ++ ps = l1 ++ loc :: l2 /\ is_solid_at h b loc i /\ inside i = true /\
        Forall (skipped h b) l1) /\
    (find_location int_of inside h b hints = Err RuntimeError <->
       Forall (skipped h b) hints /\ forall i, solid_of h b i -> inside i = false) /\
    (find_location int_of inside h b hints = Err TypeError <->
       exists l1 p l2, hints = l1 ++ p :: l2 /\ not_solid_at h b p /\ Forall (skipped h b) l1).
  Proof.
    intros W L E K.
    assert (PO : forall i, solid_of h b i -> path h i = Ok (path_of h i)).
    { intros i (ns & o & D & _). unfold path_of. rewrite (descends_path h b bo ns i W L E K D). auto. }
    exists (map (path_of h) (building_solids h b)).
    assert (IS : forall i, In i (building_solids h b) <-> solid_of h b i) by (intros; eapply in_solids; eauto).
    split.
    { apply mapM_ok. intros i I. apply PO. apply IS. auto. }
    unfold find_location. rewrite (solid_paths_ok h b bo W L E K). cbn [rbind].
    fold (building_solids h b). set (ps := map (path_of h) (building_solids h b)).
    assert (Nb : nth_error h b <> None) by congruence.
    pose proof (search_ok h b (hints ++ ps)) as SO.
    pose proof (search_runtime h b (hints ++ ps) W Nb) as SR.
    pose proof (search_type h b (hints ++ ps) W Nb) as ST.
    assert (FP : Forall (skipped h b) ps <-> forall i, solid_of h b i -> inside i = false).
    { rewrite Forall_forall. split.
      - intros F i S. destruct (F (path_of h i)) as (j & Sj & N).
        + apply in_map. apply IS. auto.
        + rewrite (is_solid_fun h b (path_of h i) i j); auto. eapply skipped_solid; eauto.
      - intros F p Ip. apply in_map_iff in Ip. destruct Ip as (i & <- & Ii). apply IS in Ii.
        exists i. split; auto. eapply skipped_solid; eauto. }
    assert (AN : forall x, search_solids int_of inside h b (hints ++ ps) = Ok x -> x <> []).
    { intros x Q. apply SO in Q; auto. destruct Q as (_ & _ & i & _ & S & _). eapply solid_nonempty; eauto. }
    split; [|split].
    - intros loc. rewrite <- (SO loc W Nb). destruct (search_solids int_of inside h b (hints ++ ps)) as [x|e]; cbn [rbind]; [|tauto].
      specialize (AN x eq_refl). destruct x; [congruence|]. tauto.
    - rewrite <- FP. rewrite <- Forall_app, <- SR.
      destruct (search_solids int_of inside h b (hints ++ ps)) as [x|e]; cbn [rbind]; [|split; auto].
      specialize (AN x eq_refl). destruct x; [congruence|]. split; discriminate.
    - transitivity (search_solids int_of inside h b (hints ++ ps) = Err TypeError).
      { destruct (search_solids int_of inside h b (hints ++ ps)) as [x|e]; cbn [rbind]; [|split; auto].
        specialize (AN x eq_refl). destruct x; [congruence|]. split; discriminate. }
      rewrite ST. split.
      + intros (l1 & p & l2 & Q & N & F).
        assert (Hl : length l1 < length hints).
        { destruct (le_lt_dec (length hints) (length l1)) as [H|H]; auto. exfalso.
          assert (Ip : In p ps).
          { apply (f_equal (skipn (length hints))) in Q.
            rewrite skipn_app, skipn_all, Nat.sub_diag in Q. simpl in Q. rewrite Q.
            rewrite skipn_app. apply in_app_iff. right.
            replace (length hints - length l1) with 0 by lia. left. auto. }
          apply in_map_iff in Ip. destruct Ip as (i & <- & Ii). apply IS in Ii.
          destruct N as (r & G & N). apply N. exists i.
          destruct (skipped_solid h b bo i _ W L E K Ii (PO i Ii)) as (G' & Ho).
          split; [congruence|exact Ho]. }
        exists l1, p, (firstn (length hints - S (length l1)) l2). split; auto.
        apply (f_equal (firstn (length hints))) in Q.
        rewrite firstn_app, firstn_all, Nat.sub_diag in Q. simpl in Q. rewrite app_nil_r in Q.
        rewrite Q at 1. rewrite firstn_app. rewrite firstn_all2 by lia.
        replace (length hints - length l1) with (S (length hints - S (length l1))) by lia. auto.
      + intros (l1 & p & l2 & -> & N & F). exists l1, p, (l2 ++ ps). split; auto.
        rewrite <- app_assoc. auto.
  Qed.
End Loc.

(** ** find_transparent *)

Lemma zone_of_inj p z z' : zone_of p = Ok z -> zone_of p = Ok z' -> z = z'.
Proof. congruence. Qed.

Lemma transparent_loop_spec g : forall acc added,
  (forall x, In x acc <-> In x added) ->
  (forall k v, In (k, v) g -> length v <= 1) ->
  (forall k x, edge g k x -> (exists z, zone_of k = Ok z) /\ (exists z, zone_of x = Ok z)) ->
  exists l, transparent_loop g acc added = Ok l /\
    forall x, In x l <-> In x acc \/ exists k y z, edge g k y /\ zone_of k = Ok z /\ zone_of y = Ok z /\ (x = k \/ x = y).
Proof.
  induction g as [|(k, v) g IH]; intros acc added HA HL HZ; simpl.
  - exists acc. split; auto. intros x. split; auto. intros [H|(a & y & z & (w & [] & _) & _)]; auto.
  - assert (HL' : forall k v, In (k, v) g -> length v <= 1) by (intros; apply (HL k0); right; auto).
    assert (HZ' : forall k x, edge g k x -> (exists z, zone_of k = Ok z) /\ (exists z, zone_of x = Ok z)).
    { intros a x (w & I & J). apply HZ. exists w. split; [right|]; auto. }
    pose proof (HL k v (or_introl eq_refl)) as Lv.
    destruct v as [|x [|? ?]]; [| |simpl in Lv; lia].
    + destruct (IH acc added HA HL' HZ') as (l & El & Sl). exists l. split; auto.
      intros x. rewrite Sl. split; intros [H|(a & y & z & (w & I & J) & R)]; auto; right; exists a, y, z; split; auto.
      * exists w. split; [right|]; auto.
      * destruct I as [I|I]; [inversion I; subst; destruct J|]. exists w. auto.
    + destruct (HZ k x) as ((z0 & Z0) & (z1 & Z1)); [exists [x]; split; [left|left]; auto|].
      assert (EX : forall u, (exists a y z, edge ((k, [x]) :: g) a y /\ zone_of a = Ok z /\ zone_of y = Ok z /\ (u = a \/ u = y)) <->
         (z0 = z1 /\ (u = k \/ u = x)) \/ (exists a y z, edge g a y /\ zone_of a = Ok z /\ zone_of y = Ok z /\ (u = a \/ u = y))).
      { intros u. split.
        - intros (a & y & z & (w & [I|I] & J) & A & B & C).
          + inversion I; subst a w. destruct J as [->|[]]. left. split; [congruence|auto].
          + right. exists a, y, z. split; auto. exists w. auto.
        - intros [(-> & C)|(a & y & z & (w & I & J) & R)].
          + exists k, x, z1. split; [exists [x]; split; [left|left]; auto|]. auto.
          + exists a, y, z. split; auto. exists w. split; [right|]; auto. }
      destruct (negb (memb k added) || negb (memb x added)) eqn:M.
      * rewrite Z0, Z1. cbn [rbind]. destruct (eqb z0 z1) eqn:Q.
        -- rewrite eqb_true in Q. subst z1.
           destruct (IH (acc ++ [k; x]) (x :: k :: added)) as (l & El & Sl); auto.
           { intros u. rewrite in_app_iff, HA. simpl. tauto. }
           exists l. split; auto. intros u. rewrite Sl, EX, in_app_iff. simpl. intuition.
        -- rewrite eqb_false in Q. destruct (IH acc added HA HL' HZ') as (l & El & Sl). exists l. split; auto.
           intros u. rewrite Sl, EX. tauto.
      * apply orb_false_iff in M. destruct M as (M1 & M2). apply negb_false_iff in M1, M2.
        rewrite memb_true in M1, M2. destruct (IH acc added HA HL' HZ') as (l & El & Sl). exists l. split; auto.
        intros u. rewrite Sl, EX. split; [tauto|]. intros [H|[(_ & [->| ->])|H]]; auto; left; apply HA; auto.
Qed.

Lemma transparent_loop_assert g : forall acc added,
  (forall k x, edge g k x -> (exists z, zone_of k = Ok z) /\ (exists z, zone_of x = Ok z)) ->
  (exists k v, In (k, v) g /\ 1 < length v) -> transparent_loop g acc added = Err AssertionError.
Proof.
  induction g as [|(k, v) g IH]; intros acc added HZ (k0 & v0 & I & Hl); [destruct I|].
  assert (HZ' : forall k x, edge g k x -> (exists z, zone_of k = Ok z) /\ (exists z, zone_of x = Ok z)).
  { intros a x (w & J & J'). apply HZ. exists w. split; [right|]; auto. }
  simpl. destruct v as [|x [|? ?]]; auto.
  - apply IH; auto. destruct I as [I|I]; [inversion I; subst; simpl in Hl; lia|]. eauto.
  - assert (R : forall acc added, transparent_loop g acc added = Err AssertionError).
    { intros. apply IH; auto. destruct I as [I|I]; [inversion I; subst; simpl in Hl; lia|]. eauto. }
    destruct (HZ k x) as ((z0 & Z0) & (z1 & Z1)); [exists [x]; split; [left|left]; auto|].
    rewrite Z0, Z1. cbn [rbind]. destruct (_ || _); auto. destruct (eqb z0 z1); auto.
Qed.

Lemma find_transparent_first c bid g : dget c bid = None ->
  (forall k v, In (k, v) g -> length v <= 1) ->
  (forall k x, edge g k x -> (exists z, zone_of k = Ok z) /\ (exists z, zone_of x = Ok z)) ->
  exists s, find_transparent c bid g = (dset c bid s, Ok s) /\ NoDup s /\
    forall x, In x s <-> exists k y z, edge g k y /\ zone_of k = Ok z /\ zone_of y = Ok z /\ (x = k \/ x = y).
Proof.
  intros D HL HZ. unfold find_transparent. rewrite D.
  destruct (transparent_loop_spec g [] []) as (l & -> & S); auto; [tauto|].
  exists (nodup eq_dec l). split; auto. split; [apply NoDup_nodup|].
  intros x. rewrite nodup_In, S. simpl. tauto.
Qed.

Lemma find_transparent_fails c bid g : dget c bid = None ->
  (forall k x, edge g k x -> (exists z, zone_of k = Ok z) /\ (exists z, zone_of x = Ok z)) ->
  (exists k v, In (k, v) g /\ 1 < length v) ->
  find_transparent c bid g = (c, Err AssertionError).
Proof.
  intros D HZ H. unfold find_transparent. rewrite D, transparent_loop_assert; auto.
Qed.


Lemma ft_run_keeps calls : forall c bid s, dget c bid = Some s -> dget (ft_run c calls) bid = Some s.
Proof.
  induction calls as [|(i, g) rest IH]; intros c bid s E; simpl; auto.
  apply IH. unfold find_transparent. destruct (dget c i) eqn:Ei; simpl; auto.
  destruct (transparent_loop g [] []); simpl; auto.
  rewrite dget_dset_other; auto. congruence.
Qed.

Lemma find_transparent_stale c bid g s calls g' :
  find_transparent c bid g = (fst (find_transparent c bid g), Ok s) ->
  snd (find_transparent (ft_run (fst (find_transparent c bid g)) calls) bid g') = Ok s.
Proof.
  intros E. set (c' := fst (find_transparent c bid g)) in *.
  assert (G : dget c' bid = Some s).
  { unfold c', find_transparent in *. destruct (dget c bid) as [s0|] eqn:D; simpl in *.
    - inversion E; subst; auto.
    - destruct (transparent_loop g [] []); simpl in *; inversion E; subst. apply dget_dset_same. }
  unfold find_transparent. rewrite (ft_run_keeps calls c' bid s G). auto.
Qed.

Lemma find_transparent_symmetric c bid g : dget c bid = None ->
  (forall k v, In (k, v) g -> length v <= 1) ->
  (forall k x, edge g k x -> edge g x k) ->
  (forall k x, edge g k x -> exists z, zone_of k = Ok z) ->
  exists s, find_transparent c bid g = (dset c bid s, Ok s) /\ NoDup s /\
    forall x, In x s <-> exists y z, edge g x y /\ zone_of x = Ok z /\ zone_of y = Ok z.
Proof.
  intros D HL S HZ. destruct (find_transparent_first c bid g D HL) as (s & E & N & I).
  - intros k x Q. split; eauto.
  - exists s. split; auto. split; auto. intros x. rewrite I. split.
    + intros (k & y & z & Q & A & B & [->| ->]); eauto 6.
    + intros (y & z & Q & A & B). exists x, y, z. auto 6.
Qed.

Lemma zone_of_in_zone p z : zone_of p = Ok z <-> in_zone p z.
Proof.
  unfold zone_of, in_zone. split.
  - destruct (split_path_total p) as (l & E & N & J). rewrite E. cbn [rbind].
    unfold split_path in E. pose proof (split_pieces PATH_SEP p) as F.
    destruct (split_on PATH_SEP p) as [|b l0]; [discriminate|]. injection E as <-.
    inversion F as [|? ? Fb F0]; subst. destruct l0 as [|w l1]; [discriminate|]. intros Q. injection Q as ->.
    inversion F0 as [|? ? Fz F1]; subst. exists b. split; auto. split; auto.
    rewrite join_cons_cons. destruct l1 as [|y l2]; [left; reflexivity|right].
    rewrite join_cons_cons. exists (join_with PATH_SEP (y :: l2)). reflexivity.
  - intros (b & Nb & Nz & H). unfold split_path.
    assert (H' : exists l, Forall (fun w => ~ In PATH_SEP w) l /\ p = join_with PATH_SEP (b :: z :: l)).
    { destruct H as [->|(r & ->)].
      - exists []. split; auto.
      - exists (split_on PATH_SEP r). split; [apply split_pieces|]. destruct (split_on_cons PATH_SEP r) as (w & ws & E).
        rewrite E, !join_cons_cons, <- E, join_split. reflexivity. }
    destruct H' as (l & F & ->). rewrite split_join; [reflexivity|discriminate|]. auto.
Qed.

Lemma transparent_first_call c bid g : dget c bid = None ->
  (forall k v, In (k, v) g -> length v <= 1) ->
  (forall k x, edge g k x -> edge g x k) ->
  (forall k x, edge g k x -> exists z, in_zone k z) ->
  exists s, find_transparent c bid g = (dset c bid s, Ok s) /\ NoDup s /\
    forall x, In x s <-> exists y z, edge g x y /\ in_zone x z /\ in_zone y z.
Proof.
  intros D HL S HZ. destruct (find_transparent_symmetric c bid g D HL S) as (s & E & N & I).
  - intros k x Q. destruct (HZ k x Q) as (z & Hz). exists z. apply zone_of_in_zone, Hz.
  - exists s. split; auto. split; auto. intros x. rewrite I. split; intros (y & z & Q & A & B); exists y, z;
      (split; [exact Q|split; apply zone_of_in_zone; assumption]).
Qed.

Lemma transparent_fails c bid g : dget c bid = None ->
  (forall k x, edge g k x -> (exists z, in_zone k z) /\ (exists z, in_zone x z)) ->
  (exists k v, In (k, v) g /\ 1 < length v) ->
  find_transparent c bid g = (c, Err AssertionError).
Proof.
  intros D HZ H. apply find_transparent_fails; auto. intros k x Q. destruct (HZ k x Q) as ((z & A) & y & B).
  split; [exists z|exists y]; apply zone_of_in_zone; assumption.
Qed.

Lemma inside_polygon h b bo i : wf h -> nth_error h b = Some bo -> o_kind bo = KBuilding ->
  (inside_of h KPolygon b i <-> polygon_of h b i).
Proof.
  intros W E K. rewrite (polygon_of_kind h b bo i W E K). unfold inside_of, is_kind. split.
  - intros ((o & A & B) & ns & D). eauto.
  - intros (ns & o & D & A & B). eauto.
Qed.

Lemma inside_solid h b i : inside_of h KSolid b i <-> solid_of h b i.
Proof.
  unfold inside_of, is_kind, solid_of. split.
  - intros ((o & A & B) & ns & D). eauto.
  - intros (ns & o & D & A & B). eauto.
Qed.

Lemma link_true bbox isf isc ist f o t i j : link bbox isf isc ist f o t i j = true <->
  bbox i j = true /\
     ((f = true /\ isf i j = true) \/ (o = true /\ isc i j = true) \/ (t = true /\ ist i j = true)).
Proof. unfold link. rewrite andb_true_iff, connected_true. tauto. Qed.

Lemma building_graph_run bbox isf isc ist f o t ops b bo : NoDup (flat_map added ops) ->
  let h := run [] ops in
  nth_error h b = Some bo -> o_kind bo = KBuilding ->
  let conn i j := bbox i j = true /\
     ((f = true /\ isf i j = true) \/ (o = true /\ isc i j = true) \/ (t = true /\ ist i j = true)) in
  exists g, building_graph bbox isf isc ist f o t h b = Ok g /\
    NoDup (map fst g) /\
    (forall k, In k (map fst g) <->
       exists i j, inside_of h KPolygon b i /\ inside_of h KPolygon b j /\ i <> j /\ path h i = Ok k) /\
    (forall k, NoDup (nbrs g k)) /\
    (forall k x, In x (nbrs g k) <->
       exists i j, inside_of h KPolygon b i /\ inside_of h KPolygon b j /\ i <> j /\
         path h i = Ok k /\ path h j = Ok x /\ (conn i j \/ conn j i)).
Proof.
  intros ND h E K conn. destruct (run_linked ops ND) as (W & L).
  destruct (building_graph_spec bbox isf isc ist f o t h b bo W L E K) as (g & Eg & G1 & G2 & G3 & G4).
  exists g. split; auto. split; auto. split; [|split; auto].
  - intros k. rewrite (G2 k). split; intros (i & j & A & B & C); exists i, j;
      rewrite (inside_polygon h b bo i W E K), (inside_polygon h b bo j W E K) in *; auto.
  - intros k x. rewrite (G4 k x). unfold conn.
    split; intros (i & j & A & B & C); exists i, j;
      rewrite ?link_true in *;
      rewrite (inside_polygon h b bo i W E K), (inside_polygon h b bo j W E K) in *; auto.
Qed.

Lemma building_graph_symmetric bbox isf isc ist f o t ops b bo g : NoDup (flat_map added ops) ->
  nth_error (run [] ops) b = Some bo -> o_kind bo = KBuilding ->
  building_graph bbox isf isc ist f o t (run [] ops) b = Ok g ->
  forall k x, In x (nbrs g k) -> In k (nbrs g x) /\ k <> x.
Proof.
  intros ND E K Eg k x I.
  destruct (run_linked ops ND) as (W & L).
  destruct (building_graph_run bbox isf isc ist f o t ops b bo ND E K) as (g' & Eg' & _ & _ & _ & G).
  assert (g' = g) by congruence. subst g'. pose proof I as I0. apply G in I.
  destruct I as (i & j & A & B & N & P & Q & R). split.
  - apply G. exists j, i. repeat split; auto; try apply A; try apply B. tauto.
  - intros ->. apply N. destruct A as (_ & ns & D). destruct B as (_ & ns' & D').
    eapply (descends_same_path (run [] ops) b bo ns i ns' j); eauto.
Qed.

Lemma remove_last_prefix names n : n < length names -> Forall (fun w => validate_name w = Ok w) names ->
  remove_last (join_with PATH_SEP names) n = join_with PATH_SEP (firstn (length names - n) names).
Proof.
  intros H F. apply remove_last_join; auto. eapply Forall_impl; [|exact F].
  intros w Q. apply validate_name_ok in Q. tauto.
Qed.

Lemma history_stale los {bdg} (gp : bdg -> bool -> bool -> bool -> graph) pre b0 c b new lv f o t post :
  history los gp cache0 b0 pre = (c, b) -> (new = true \/ c_graph c = []) -> gp b f o t <> [] ->
  Forall (fun x => match x with CEdit _ => True | CGet n _ _ _ _ => n = false end) post ->
  let '(c', b') := history los gp cache0 b0 (pre ++ CGet new lv f o t :: post) in
  forall lv' f' o' t', snd (get_graph los gp c' b' false lv' f' o' t') = fresh los gp b lv' f o t.
Proof.
  intros E N G F.
  pose proof (history_cached_full los gp pre b0 new lv f o t post b c E N G F) as H.
  destruct (history los gp cache0 b0 (pre ++ CGet new lv f o t :: post)) as (c', b').
  simpl in H. subst c'. intros lv' f' o' t'. unfold get_graph. cbn [c_graph c_wall c_solid c_zone].
  destruct (gp b f o t) eqn:Q; [congruence|]. destruct lv'; cbn [snd]; unfold fresh; rewrite ?Q; auto.
Qed.

Lemma flags_ignored :
  ~ (forall los (bdg : Type) (gp : bdg -> bool -> bool -> bool -> graph) cs b0 lv f o t,
     let '(c, b) := history los gp cache0 b0 cs in
     snd (get_graph los gp c b false lv f o t) = fresh los gp b lv f o t).
Proof.
  intros C.
  specialize (C (fun l => l) unit
    (fun _ f o _ => [(str_of "p", if o then [str_of "q"] else [])])
    [CGet false LPolygon true false false] tt LPolygon true true false).
  simpl in C. discriminate.
Qed.

Lemma find_location_run int_of inside ops b bo hints : NoDup (flat_map added ops) ->
  let h := run [] ops in
  nth_error h b = Some bo -> o_kind bo = KBuilding ->
  exists ps, mapM (path h) (building_solids h b) = Ok ps /\
  (forall i, In i (building_solids h b) <-> inside_of h KSolid b i) /\
  (forall loc, find_location int_of inside h b hints = Ok loc <->
    exists l1 l2 i, hints ++ ps = l1 ++ loc :: l2 /\ is_solid_at int_of h b loc i /\ inside i = true /\
      Forall (skipped int_of inside h b) l1) /\
  (find_location int_of inside h b hints = Err RuntimeError <->
     Forall (skipped int_of inside h b) hints /\ forall i, inside_of h KSolid b i -> inside i = false) /\
  (find_location int_of inside h b hints = Err TypeError <->
     exists l1 p l2, hints = l1 ++ p :: l2 /\ not_solid_at int_of h b p /\ Forall (skipped int_of inside h b) l1).
Proof.
  intros ND h E K. destruct (run_linked ops ND) as (W & L).
  destruct (find_location_spec int_of inside h b bo hints W L E K) as (ps & A & B & C & D).
  exists ps. split; auto. split.
  { intros i. rewrite inside_solid. eapply in_solids; eauto. }
  split; auto. split; auto. rewrite C.
  split; intros (F & H); split; auto; intros i Hi; apply H; apply inside_solid; auto.
Qed.

Lemma building_solids_order ops b bo : NoDup (flat_map added ops) -> nth_error (run [] ops) b = Some bo ->
  building_solids (run [] ops) b =
  flat_map (fun '(_, z) => match nth_error (run [] ops) z with Some zo => map snd (o_children zo) | None => [] end)
           (o_children bo).
Proof.
  intros ND E. unfold building_solids. cbn [below]. rewrite E, map_flat_map. apply flat_map_ext_in.
  intros (k, z) _. rewrite map_map. destruct (nth_error (run [] ops) z) as [zo|]; auto.
  clear. induction (o_children zo) as [|(k', c) d IH]; simpl; auto. rewrite <- IH. auto.
Qed.

Lemma history_new los (bdg : Type) (gp : bdg -> bool -> bool -> bool -> graph) b0 cs lv f o t :
  let '(c, b) := history los gp cache0 b0 cs in
  snd (get_graph los gp c b true lv f o t) = fresh los gp b lv f o t.
Proof. destruct (history los gp cache0 b0 cs) as (c, b). apply get_graph_new. Qed.
