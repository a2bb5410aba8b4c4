(** Tetrahedralization: proofs. *)
From Coq Require Import Ascii String Reals List Bool Arith Lia Lra Sorted.
From Verif Require Import Prelude TreeModel MeshModel VecModel GeomModel TriModel PolyModel VecProofs GeomSpec GeomProofs1 GeomProofs2 MshModel MshSpec MshProofs MshProofs2 MshProofs3 MshProofs4 MshProofs5 MshProofs6.
Import ListNotations.

(** ** Elements that stand for the same points *)
Lemma corners_points {A} (vs : list A) el l : corners4 vs el l <-> length l = 4 /\ exists r, points_of vs el = map Some l ++ r.
Proof.
  unfold points_of. split.
  - intros (a & b & c & d & r & p & q & s & t & -> & -> & Ea & Eb & Ec & Ed). split; auto. exists (map (nth_error vs) r).
    cbn [map app]. rewrite Ea, Eb, Ec, Ed. reflexivity.
  - intros (L & r & E). destruct l as [|p [|q [|s [|t [|]]]]]; try discriminate. destruct el as [|a [|b [|c [|d el]]]]; try discriminate.
    cbn [map app] in E. injection E as Ea Eb Ec Ed _. exists a, b, c, d, el, p, q, s, t. auto 10.
Qed.
Lemma corners_moved {A} (vs vs' : list A) e e' l : points_of vs e = points_of vs' e' -> corners4 vs e l -> corners4 vs' e' l.
Proof. rewrite !corners_points. intros <-. auto. Qed.
Lemma volume_moved vs vs' e e' v : points_of vs e = points_of vs' e' -> has_volume vs e v -> has_volume vs' e' v.
Proof. intros P (p & q & s & t & C & E). exists p, q, s, t. split; auto. eapply corners_moved; eauto. Qed.
Lemma rank_avoids d l x : Forall (lt d) l -> ~ In x (d :: l) -> rank l x <> d.
Proof.
  intros F N. destruct (Nat.lt_trichotomy x d) as [L|[L|L]].
  - rewrite (rank_low l d) by (auto; lia). lia.
  - exfalso. apply N. left. auto.
  - pose proof (rank_high l d x F L). lia.
Qed.
Lemma rank_inj l x y : StronglySorted lt l -> ~ In x l -> ~ In y l -> rank l x = rank l y -> x = y.
Proof.
  intros S. induction S as [|d l S IH F]; intros Nx Ny E; auto.
  pose proof (rank_avoids d l x F Nx) as Ax. pose proof (rank_avoids d l y F Ny) as Ay.
  apply IH; [intros I; apply Nx; right; auto|intros I; apply Ny; right; auto|].
  cbn [rank fold_right] in E. fold (rank l x) (rank l y) in E. unfold lower in E.
  destruct (Nat.ltb_spec d (rank l x)), (Nat.ltb_spec d (rank l y)); lia.
Qed.
(** Purging in one formula. *)
Lemma purge_exact {A} (vs : list A) els vs' els' : purge_mesh vs els = Ok (vs', els') ->
  exists f, els' = map (map f) els /\ (forall x, used els x -> nth_error vs' (f x) = nth_error vs x) /\
    (forall x y, used els x -> used els y -> f x = f y -> x = y).
Proof.
  intros E. unfold purge_mesh in E. destruct (rectangular els); [|discriminate]. injection E as E. exists (rank (unused vs els)).
  assert (N : forall x, used els x -> ~ In x (unused vs els)) by (intros x U I; apply in_unused in I; tauto).
  fold (removal (unused vs els) (vs, els)) in E. split; [|split].
  - pose proof (removal_els (unused vs els) (vs, els)) as H. rewrite E in H. exact H.
  - intros x U. pose proof (removal_get (unused vs els) (vs, els) x (unused_sorted vs els) (N x U)) as H. rewrite E in H. exact H.
  - intros x y Ux Uy F. eapply rank_inj; eauto. apply unused_sorted.
Qed.
Lemma moved_points {A} (vs vs' : list A) els f : (forall x, used els x -> nth_error vs' (f x) = nth_error vs x) ->
  forall e, In e els -> points_of vs' (map f e) = points_of vs e.
Proof. intros H e I. unfold points_of. rewrite map_map. apply map_ext_in. intros x X. apply H. exists e. auto. Qed.
Lemma selected_in {A} (P : nat -> Prop) (l l' : list A) p : selected P l l' -> In p l' -> In p l.
Proof.
  intros (ix & _ & _ & G) I. apply (in_map Some) in I. rewrite G in I. apply in_map_iff in I. destruct I as (i & E & _). eapply nth_error_In; eauto.
Qed.

(** ** Lists without some numbers *)
Lemma where_spec {B} (f : B -> result bool) l ns : numbers_where f l = Ok ns ->
  (forall x, In x l -> exists b, f x = Ok b) /\ forall k, In k ns <-> exists x, nth_error l k = Some x /\ f x = Ok true.
Proof.
  unfold numbers_where. intros H. destruct (mapM f l) as [bs|] eqn:M; cbn [rbind] in H; [|discriminate]. injection H as <-.
  apply mapM_forall2 in M. split.
  - intros x I. apply In_nth_error in I. destruct I as (k & K). destruct (forall2_left _ _ _ _ _ M K) as (b & _ & E). eauto.
  - intros k. rewrite in_map_iff. split.
    + intros ([k' b] & <- & I). apply filter_In in I. destruct I as (I & T). cbn [fst snd] in *. subst b. apply in_enumerate in I.
      destruct (forall2_right _ _ _ _ _ M I) as (x & X & E). eauto.
    + intros (x & X & E). destruct (forall2_left _ _ _ _ _ M X) as (b & N & E'). rewrite E in E'. injection E' as <-.
      exists (k, true). split; auto. apply filter_In. split; auto. apply in_enumerate. auto.
Qed.
Lemma in_drop {B} (l : list B) ns x : In x (drop_numbers l ns) <-> exists k, nth_error l k = Some x /\ ~ In k ns.
Proof.
  unfold drop_numbers. rewrite in_map_iff. split.
  - intros ([k y] & <- & I). apply filter_In in I. destruct I as (I & T). apply in_enumerate in I. exists k. split; auto. cbn [fst] in T.
    apply negb_true_iff, memb_false in T. auto.
  - intros (k & E & N). exists (k, x). split; auto. apply filter_In. split; [apply in_enumerate; auto|]. cbn [fst].
    apply negb_true_iff, memb_false. auto.
Qed.
Lemma drop_none {B} (l : list B) : drop_numbers l [] = l.
Proof.
  unfold drop_numbers. induction l as [|x l IH] using rev_ind; auto. rewrite enumerate_snoc, filter_app, map_app, IH. reflexivity.
Qed.

Section Tetra.
  Context (same : vec -> vec -> bool) (delaunay : nat -> list vec -> result (list element)) (inside : vec -> result bool).

  Lemma in_where vs ps i : In i (where_in same vs ps) <-> exists p, nth_error vs i = Some p /\ existsb (same p) ps = true.
  Proof.
    unfold where_in. rewrite in_map_iff. split.
    - intros ([k p] & <- & I). apply filter_In in I. destruct I as (I & T). apply in_enumerate in I. exists p. auto.
    - intros (p & E & T). exists (i, p). split; auto. apply filter_In. split; auto. apply in_enumerate. auto.
  Qed.
  Lemma zero_none vs tets zero : numbers_where (zero_volume vs) tets = Ok zero -> zero = [] /\ all_corners vs tets.
  Proof.
    intros H. apply where_spec in H. destruct H as (T & H). split.
    - destruct zero as [|k zero]; auto. exfalso. destruct (proj1 (H k) (or_introl eq_refl)) as (x & _ & E). apply zero_never in E. discriminate.
    - intros e I. destruct (T e I) as (b & E). unfold zero_volume, element_volume in E. destruct (four_points vs e) as [l|] eqn:F; [|discriminate].
      exists l. apply four_spec. auto.
  Qed.

  Lemma loop_spec boundary mv tries : forall pass vs vs1 els1, mesh_loop same delaunay tries pass boundary mv vs = Ok (vs1, els1) ->
    exists k ws tets, pass <= k < pass + tries /\ incl ws vs /\ delaunay k ws = Ok tets /\ all_corners ws tets /\ purge_mesh ws tets = Ok (vs1, els1) /\
      forall i p, nth_error vs1 i = Some p -> existsb (same p) boundary = false -> ~ bad_vertex vs1 els1 mv i.
  Proof.
    induction tries as [|tries IH]; intros pass vs vs1 els1 H; [discriminate|]. cbn [mesh_loop] in H.
    destruct (delaunay pass vs) as [tets|] eqn:D; cbn [rbind] in H; [|discriminate].
    destruct (numbers_where (zero_volume vs) tets) as [zero|] eqn:Z; cbn [rbind] in H; [|discriminate].
    destruct (zero_none vs tets zero Z) as (-> & C). rewrite drop_none in H.
    destruct (purge_mesh vs tets) as [[vs' els']|] eqn:P; cbn [rbind fst snd] in H; [|discriminate].
    destruct (get_invalid_points vs' els' (where_in same vs' boundary) mv) as [inv|] eqn:G; cbn [rbind] in H; [|discriminate].
    assert (I0 : incl vs' vs) by (intros p Q; destruct (purge_spec _ _ _ _ P) as (S & _); eapply selected_in; eauto).
    destruct inv as [|i0 inv].
    - injection H as <- <-. exists pass, vs, tets. split; [lia|]. split; [apply incl_refl|]. split; auto. split; auto. split; auto.
      assert (C' : all_corners vs' els').
      { destruct (purge_exact _ _ _ _ P) as (f & -> & F & _). intros e' I. apply in_map_iff in I. destruct I as (e & <- & I).
        destruct (C e I) as (l & L). exists l. eapply corners_moved; [|exact L]. symmetry. eapply moved_points; eauto. }
      destruct (invalid_spec vs' els' (where_in same vs' boundary) mv C') as (l & L & _ & M).
      { intros i Li _. destruct (purge_spec _ _ _ _ P) as (_ & _ & U). auto. }
      rewrite G in L. injection L as <-. intros i p E N B. apply (proj2 (M i)). split; [apply nth_error_Some; congruence|]. split; auto.
      intros W. apply in_where in W. destruct W as (p' & E' & T). rewrite E in E'. injection E' as <-. congruence.
    - destruct (IH _ _ _ _ H) as (k & ws & ts & B & I & Q). exists k, ws, ts. split; [lia|]. split; auto.
      intros p X. apply I0. apply I in X. apply in_drop in X. destruct X as (j & E & _). eapply nth_error_In; eauto.
  Qed.

  Lemma outside_spec vs e b : outside inside vs e = Ok b <-> exists c, has_centroid vs e c /\ inside c = Ok (negb b).
  Proof.
    unfold outside. split.
    - intros H. destruct (four_points vs e) as [l|] eqn:F; cbn [rbind] in H; [|discriminate]. apply four_spec in F.
      pose proof F as (a & b' & c & d & r & p & q & s & t & _ & -> & _).
      destruct (inside (tetrahedron_centroid p q s t)) as [x|] eqn:E; cbn [rbind] in H; [|discriminate]. injection H as <-.
      exists (tetrahedron_centroid p q s t). split; [exists p, q, s, t; auto|]. rewrite negb_involutive. auto.
    - intros (c & (p & q & s & t & C & ->) & E). apply four_spec in C. rewrite C. cbn [rbind]. rewrite E. cbn [rbind]. rewrite negb_involutive. reflexivity.
  Qed.

  Lemma count_check_spec counts : count_check counts = true -> (forall c, In c counts -> c = 0) \/ (forall c, In c counts -> c = 0 \/ c = 4).
  Proof.
    unfold count_check. rewrite orb_true_iff, !andb_true_iff. intros [H|(_ & H)].
    - left. apply Nat.eqb_eq in H. induction counts as [|x l IH]; intros c I; [destruct I|]. cbn [fold_right] in H. destruct I as [<-|I]; [lia|]. apply IH; auto. lia.
    - right. rewrite forallb_forall in H. intros c I. apply H in I. apply orb_true_iff in I. rewrite !Nat.eqb_eq in I. auto.
  Qed.
  Lemma interior_count_spec boundary vs e n : interior_element same boundary vs e -> interior_count same boundary vs (e, n) = n.
  Proof.
    intros (l & C & L). unfold interior_count. cbn [fst snd].
    assert (E : length (filter (fun k => memb k (where_in same vs boundary)) (firstn 4 e)) = length (filter (fun p => existsb (same p) boundary) l)).
    { assert (G : forall ks qs, map (nth_error vs) ks = map Some qs ->
        length (filter (fun k => memb k (where_in same vs boundary)) ks) = length (filter (fun p => existsb (same p) boundary) qs)).
      { induction ks as [|k ks IH]; intros [|q qs] H; try discriminate; auto. injection H as Hk H. cbn [filter].
        replace (memb k (where_in same vs boundary)) with (existsb (same q) boundary).
        - destruct (existsb (same q) boundary); cbn [length]; rewrite (IH qs) by auto; reflexivity.
        - apply eq_true_iff_eq. rewrite memb_true, in_where. split; [eauto|]. intros (p & Ep & T). congruence. }
      apply G. apply corners_points in C. destruct C as (L4 & r & P). unfold points_of in P.
      rewrite <- firstn_map, P. rewrite firstn_app, map_length, L4, Nat.sub_diag. rewrite firstn_O, app_nil_r. apply firstn_all2. rewrite map_length. lia. }
    rewrite E. destruct (Nat.leb_spec 3 (length (filter (fun p => existsb (same p) boundary) l))); auto. lia.
  Qed.
  Lemma checks_spec boundary corners vs els m : final_checks same boundary corners (vs, els) = Ok m -> m = (vs, els) /\
    (forall p, In p corners -> existsb (same p) vs = true) /\
    exists nb, find_neighbors_wrap vs els = Ok nb /\ forall k row e, nth_error nb k = Some row -> nth_error els k = Some e ->
      row <> [] /\ (interior_element same boundary vs e -> length row = 4).
  Proof.
    unfold final_checks. intros H. destruct (negb (length (nodup eq_dec (concat els)) =? length vs)); [discriminate|].
    destruct (negb (forallb (fun p => isin same p vs) corners)) eqn:Cn; [discriminate|]. apply negb_false_iff in Cn. rewrite forallb_forall in Cn.
    unfold count_neighbors in H. destruct (find_neighbors_wrap vs els) as [nb|]; cbn [rbind] in H; [|discriminate].
    destruct (negb (forallb (fun c => 0 <? c) (map (length (A := nat)) nb))) eqn:P; [discriminate|]. apply negb_false_iff in P. rewrite forallb_forall in P.
    destruct (count_check _) eqn:K in H; [|discriminate]. injection H as <-. split; auto. split; [exact Cn|]. exists nb. split; auto.
    intros k row e Er Ee. assert (Ir : In (length row) (map (length (A := nat)) nb)) by (apply in_map; eapply nth_error_In; eauto).
    pose proof (P _ Ir) as Pr. apply Nat.ltb_lt in Pr. split; [intros ->; cbn in Pr; lia|]. intros Int.
    assert (J : In (length row) (map (interior_count same boundary vs) (combine els (map (length (A := nat)) nb)))).
    { apply in_map_iff. exists (e, length row). split; [apply interior_count_spec; auto|].
      assert (G : forall (l1 : list element) (l2 : list nat) k x y, nth_error l1 k = Some x -> nth_error l2 k = Some y -> In (x, y) (combine l1 l2)).
      { induction l1 as [|a l1 IH]; intros l2 [|k'] x y X Y; try discriminate; destruct l2 as [|b l2]; try discriminate; cbn in *.
        - left. congruence.
        - right. eapply IH; eauto. }
      apply (G _ _ k); auto. apply map_nth_error. auto. }
    destruct (count_check_spec _ K) as [Z|Z]; apply Z in J; lia.
  Qed.

  Lemma tetra_spec max_tries boundary corners delta vs vs2 els2 :
    tetrahedralize same delaunay inside max_tries boundary corners delta vs = Ok (vs2, els2) ->
    (exists k ws tets, 1 <= k <= max_tries /\ incl ws vs /\ delaunay k ws = Ok tets /\ all_corners ws tets /\
       forall ps, In ps (map (points_of vs2) els2) <-> exists e c, In e tets /\ ps = points_of ws e /\ has_centroid ws e c /\ inside c = Ok true) /\
    incl vs2 vs /\ (forall i, i < length vs2 -> used els2 i) /\
    (forall i p, nth_error vs2 i = Some p -> existsb (same p) boundary = false -> ~ bad_vertex vs2 els2 (minimum_tetra_volume delta) i) /\
    (forall p, In p corners -> existsb (same p) vs2 = true) /\
    exists nb, find_neighbors_wrap vs2 els2 = Ok nb /\ forall k row e, nth_error nb k = Some row -> nth_error els2 k = Some e ->
      row <> [] /\ (interior_element same boundary vs2 e -> length row = 4).
  Proof.
    unfold tetrahedralize. intros H. destruct (mesh_loop _ _ _ _ _ _ _) as [[vs1 els1]|] eqn:M in H; cbn [rbind fst snd] in H; [|discriminate].
    destruct (numbers_where (outside inside vs1) els1) as [out|] eqn:O; cbn [rbind] in H; [|discriminate].
    destruct (purge_mesh vs1 (drop_numbers els1 out)) as [[vs3 els3]|] eqn:P; cbn [rbind] in H; [|discriminate].
    apply checks_spec in H. destruct H as (E & Hc & Hn). injection E as <- <-.
    apply loop_spec in M. destruct M as (k & ws & tets & B & I & D & C & P1 & Good).
    apply where_spec in O. destruct O as (T & O).
    assert (Kept : forall e, In e (drop_numbers els1 out) <-> In e els1 /\ exists c, has_centroid vs1 e c /\ inside c = Ok true).
    { intros e. rewrite in_drop. split.
      - intros (j & E & N). split; [eapply nth_error_In; eauto|]. destruct (T e) as (b & Tb); [eapply nth_error_In; eauto|]. destruct b.
        + exfalso. apply N. apply O. eauto.
        + apply outside_spec in Tb. exact Tb.
      - intros (Ie & c & Hce & Ic). apply In_nth_error in Ie. destruct Ie as (j & E). exists j. split; auto. intros Q. apply O in Q.
        destruct Q as (e' & E' & Q). rewrite E in E'. injection E' as <-. assert (Q' : outside inside vs1 e = Ok false) by (apply outside_spec; eauto). congruence. }
    destruct (purge_exact _ _ _ _ P1) as (f1 & Ef1 & F1 & _). destruct (purge_exact _ _ _ _ P) as (f2 & Ef2 & F2 & J2).
    assert (M1 : forall e, In e tets -> points_of vs1 (map f1 e) = points_of ws e) by (apply moved_points; auto).
    assert (M2 : forall e, In e (drop_numbers els1 out) -> points_of vs2 (map f2 e) = points_of vs1 e) by (apply moved_points; auto).
    assert (Cm : forall us us' e e' c, points_of us e = points_of us' e' -> has_centroid us e c -> has_centroid us' e' c).
    { intros us us' e e' c Q (p & q & s & t & C4 & Ec). exists p, q, s, t. split; auto. eapply corners_moved; eauto. }
    split; [|split; [|split; [|split; [|split]]]]; auto.
    - exists k, ws, tets. split; [lia|]. split; auto. split; auto. split; auto. intros ps. rewrite Ef2, map_map, in_map_iff. split.
      + intros (e & <- & Ie). pose proof (M2 e Ie) as Q. apply Kept in Ie. destruct Ie as (Ie & c & Hce & Ic). rewrite Ef1 in Ie.
        apply in_map_iff in Ie. destruct Ie as (e0 & <- & I0). exists e0, c. split; auto. split; [rewrite Q; apply M1; auto|]. split; auto.
        eapply Cm; [|exact Hce]. apply M1. auto.
      + intros (e0 & c & I0 & -> & Hce & Ic). exists (map f1 e0).
        assert (Ie : In (map f1 e0) (drop_numbers els1 out)).
        { apply Kept. split; [rewrite Ef1; apply in_map; auto|]. exists c. split; auto. eapply Cm; [|exact Hce]. symmetry. apply M1. auto. }
        split; auto. rewrite M2 by auto. apply M1. auto.
    - intros p Ip. apply I. destruct (purge_spec _ _ _ _ P1) as (S1 & _). destruct (purge_spec _ _ _ _ P) as (S2 & _).
      eapply selected_in; [exact S1|]. eapply selected_in; [exact S2|]. auto.
    - destruct (purge_spec _ _ _ _ P) as (_ & _ & U). exact U.
    - intros i p Ei Nb Bad.
      assert (Back : forall e, In e els2 -> In i e -> exists x e1, In e1 (drop_numbers els1 out) /\ In x e1 /\ f2 x = i /\ e = map f2 e1).
      { intros e Ie Ii. rewrite Ef2 in Ie. apply in_map_iff in Ie. destruct Ie as (e1 & <- & I1). apply in_map_iff in Ii. destruct Ii as (x & Ex & Ix).
        exists x, e1. auto. }
      assert (Pt : forall x e1, In e1 (drop_numbers els1 out) -> In x e1 -> f2 x = i -> nth_error vs1 x = Some p).
      { intros x e1 I1 Ix <-. rewrite <- Ei. symmetry. apply F2. exists e1. auto. }
      destruct Bad as [(e1 & e2 & v1 & v2 & I1 & I2 & J1 & J2' & V1 & V2 & G)|(e & v & I1 & J1 & V1 & G)].
      + destruct (Back e1 I1 J1) as (x & g1 & K1 & X & Fx & ->). destruct (Back e2 I2 J2') as (y & g2 & K2 & Y & Fy & ->).
        assert (x = y) as <- by (apply J2; [exists g1; auto|exists g2; auto|congruence]).
        apply (Good x p); auto; [eapply Pt; eauto|]. left. exists g1, g2, v1, v2. pose proof (proj1 (Kept g1) K1) as (K1' & _).
        pose proof (proj1 (Kept g2) K2) as (K2' & _).
        pose proof (volume_moved _ _ _ _ _ (M2 g1 K1) V1). pose proof (volume_moved _ _ _ _ _ (M2 g2 K2) V2). auto 10.
      + destruct (Back e I1 J1) as (x & g1 & K1 & X & Fx & ->). pose proof (proj1 (Kept g1) K1) as (K1' & _).
        apply (Good x p); auto; [eapply Pt; eauto|]. right. exists g1, v. pose proof (volume_moved _ _ _ _ _ (M2 g1 K1) V1). auto.
  Qed.
End Tetra.

Lemma min_volume_bounds delta : (0 <= delta -> delta^3 / 300 <= minimum_tetra_volume delta <= delta^3 / 300 + 1 / 600000000)%R.
Proof.
  intros D. unfold minimum_tetra_volume. pose proof (volume_bounds (V 0 0 0) (V delta 0 0) (V 0 delta 0) (V 0 0 delta)) as B.
  assert (E : Rabs (det3 (V 0 0 0) (V delta 0 0) (V 0 delta 0) (V 0 0 delta)) = (delta^3)%R).
  { replace (det3 (V 0 0 0) (V delta 0 0) (V 0 delta 0) (V 0 0 delta)) with (delta^3)%R by (unfold det3, dot, cross, vsub; cbn; ring).
    apply Rabs_pos_eq. apply pow_le. auto. }
  rewrite E in B. lra.
Qed.
