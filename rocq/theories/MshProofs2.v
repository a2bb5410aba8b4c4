(** Merging the same points: proofs. *)
From Coq Require Import Ascii String Reals List Bool Arith Lia Sorted.
From Verif Require Import Prelude TreeModel MeshModel VecModel GeomModel TriModel PolyModel MshModel MshSpec MshProofs.
Import ListNotations.

(** ** Numbered lists *)
Lemma enumerate_snoc {A} (vs : list A) v : enumerate (vs ++ [v]) = enumerate vs ++ [(length vs, v)].
Proof.
  unfold enumerate. rewrite app_length. cbn [length]. rewrite seq_app. cbn [seq plus].
  assert (G : forall (a b : list nat) (c d : list A), length a = length c -> combine (a ++ b) (c ++ d) = combine a c ++ combine b d).
  { induction a as [|x a IH]; intros b [|y c] d L; try discriminate; auto. cbn. f_equal. apply IH. auto. }
  rewrite G by (rewrite seq_length; auto). reflexivity.
Qed.
Lemma numbers_filter {A} (f : nat * A -> bool) vs : map fst (filter f (enumerate vs)) =
  filter (fun i => match nth_error vs i with Some q => f (i, q) | None => false end) (seq 0 (length vs)).
Proof.
  induction vs as [|v vs IH] using rev_ind; auto. rewrite enumerate_snoc, filter_app, map_app, app_length. cbn [length].
  rewrite seq_app, filter_app, IH. cbn [seq plus]. f_equal.
  - apply filter_ext_in. intros i I. apply in_seq in I. rewrite nth_error_app1 by lia. reflexivity.
  - cbn [filter]. rewrite nth_error_app2, Nat.sub_diag by lia. cbn [nth_error]. destruct (f (length vs, v)); reflexivity.
Qed.

Section Collapse.
  Context {A : Type} (same : A -> A -> bool) (EQ : equivalence same).

  Local Lemma same_refl p : same p p = true. Proof. exact (proj1 EQ p). Qed.
  Local Lemma same_sym p q : same p q = same q p.
  Proof. destruct EQ as (_ & S & _). apply eq_true_iff_eq. split; apply S. Qed.
  Local Lemma same_left p q r : same p q = true -> same p r = same q r.
  Proof.
    destruct EQ as (_ & S & T). intros H. apply eq_true_iff_eq. split; intros K.
    - apply (T q p r); auto.
    - apply (T p q r); auto.
  Qed.

  (** ** The dictionary *)
  Definition group (d : list (A * list nat)) (p : A) : list nat := match numbers_of same d p with Ok l => l | Err _ => [] end.
  Lemma group_note d p i : forall q, group (note_point same d p i) q = if same p q then group d q ++ [i] else group d q.
  Proof.
    induction d as [|[r l] d IH]; intros q; unfold group in *.
    - cbn. destruct (same p q); reflexivity.
    - cbn [note_point numbers_of]. destruct (same r p) eqn:E.
      + cbn [numbers_of]. rewrite <- (same_left r p q E). destruct (same r q); auto.
      + cbn [numbers_of]. destruct (same r q) eqn:F.
        * rewrite (same_sym p q), <- (same_left r q p F), E. reflexivity.
        * apply IH.
  Qed.
  Definition members (vs : list A) (p : A) : list nat :=
    map fst (filter (fun x => same (snd x) p) (combine (seq 0 (length vs)) vs)).
  Lemma group_all vs p : group (note_points same vs) p = members vs p.
  Proof.
    induction vs as [|v vs IH] using rev_ind; auto. unfold note_points in *. rewrite enumerate_snoc, fold_left_app. cbn [fold_left].
    rewrite group_note. cbn [fst snd]. rewrite IH. unfold members. change (combine (seq 0 (length (vs ++ [v]))) (vs ++ [v])) with (enumerate (vs ++ [v])).
    rewrite enumerate_snoc, filter_app, map_app. cbn [filter snd]. destruct (same v p); [reflexivity|]. cbn. rewrite app_nil_r. reflexivity.
  Qed.
  Lemma members_filter vs p : members vs p =
    filter (fun i => match nth_error vs i with Some q => same q p | None => false end) (seq 0 (length vs)).
  Proof. unfold members. apply (numbers_filter (fun x => same (snd x) p)). Qed.
  Lemma in_members vs p i : In i (members vs p) <-> exists q, nth_error vs i = Some q /\ same q p = true.
  Proof.
    rewrite members_filter, filter_In, in_seq. destruct (nth_error vs i) as [q|] eqn:E.
    - assert (i < length vs) by (apply nth_error_Some; congruence). split.
      + intros (_ & H1). eauto.
      + intros (q' & H1 & H2). injection H1 as ->. split; auto. lia.
    - split; [intros (_ & H); discriminate|intros (q & H & _); discriminate].
  Qed.
  Lemma members_sorted vs p : StronglySorted lt (members vs p).
  Proof. rewrite members_filter. apply filter_sorted, seq_sorted. Qed.
  Lemma members_same vs p q : same p q = true -> members vs p = members vs q.
  Proof.
    intros E. rewrite !members_filter. apply filter_ext. intros i. destruct (nth_error vs i) as [r|]; auto.
    rewrite (same_sym r p), (same_sym r q). apply same_left. auto.
  Qed.
  Lemma numbers_members vs p i : nth_error vs i = Some p -> numbers_of same (note_points same vs) p = Ok (members vs p).
  Proof.
    intros E. pose proof (group_all vs p) as G. unfold group in G.
    assert (I : In i (members vs p)) by (apply in_members; exists p; split; auto; apply same_refl).
    destruct (numbers_of same (note_points same vs) p); [congruence|]. rewrite <- G in I. destruct I.
  Qed.

  (** The number that stands for a vertex afterwards. *)
  Definition first_of (vs : list A) (x : nat) : nat := match nth_error vs x with Some p => hd x (members vs p) | None => x end.
  Lemma first_le vs x : first_of vs x <= x.
  Proof.
    unfold first_of. destruct (nth_error vs x) as [p|] eqn:E; auto. pose proof (members_sorted vs p) as S.
    assert (I : In x (members vs p)) by (apply in_members; exists p; split; auto; apply same_refl).
    destruct S as [|k l S F]; [destruct I|]. cbn [hd]. destruct I as [->|I]; auto. rewrite Forall_forall in F. specialize (F x I). lia.
  Qed.
  Lemma first_point vs x p : nth_error vs x = Some p -> exists q, nth_error vs (first_of vs x) = Some q /\ same q p = true.
  Proof.
    intros E. unfold first_of. rewrite E.
    assert (I : In x (members vs p)) by (apply in_members; exists p; split; auto; apply same_refl).
    assert (J : In (hd x (members vs p)) (members vs p)) by (destruct (members vs p) as [|k l]; [destruct I|left; auto]).
    apply in_members in J. exact J.
  Qed.
  Lemma first_idem vs x : first_of vs (first_of vs x) = first_of vs x.
  Proof.
    destruct (nth_error vs x) as [p|] eqn:E.
    - destruct (first_point vs x p E) as (q & Q & S). unfold first_of at 1. rewrite Q. rewrite (members_same vs q p S).
      unfold first_of. rewrite E. destruct (members vs p); reflexivity.
    - unfold first_of at 2. rewrite E. reflexivity.
  Qed.
  Lemma first_earliest vs x p j q : nth_error vs x = Some p -> nth_error vs j = Some q -> same q p = true -> first_of vs x <= j.
  Proof.
    intros E F S. unfold first_of. rewrite E.
    assert (I : In j (members vs p)) by (apply in_members; exists q; auto). pose proof (members_sorted vs p) as T.
    destruct T as [|k l T G]; [destruct I|]. cbn [hd]. destruct I as [->|I]; auto. rewrite Forall_forall in G. specialize (G j I). lia.
  Qed.
  Lemma repeated_first vs x : repeated same vs x <-> first_of vs x <> x.
  Proof.
    split.
    - intros (j & q & p & L & J & X & S) E. pose proof (first_earliest vs x p j q X J S). lia.
    - intros N. pose proof (first_le vs x) as L. destruct (nth_error vs x) as [p|] eqn:E.
      + destruct (first_point vs x p E) as (q & Q & S). exists (first_of vs x), q, p. repeat split; auto. lia.
      + exfalso. apply N. unfold first_of. rewrite E. reflexivity.
  Qed.

  (** ** The loop over the points *)
  Definition send (keep : nat) (dels : list nat) (x : nat) : nat := if memb x dels then keep else x.
  Lemma replace_map del keep el : replace_number del keep el = map (fun x => if (x =? del)%nat then keep else x) el.
  Proof.
    unfold replace_number. destruct (memb del el) eqn:E.
    - apply map_ext. intros x. destruct (x =? del)%nat; reflexivity.
    - apply memb_false in E. rewrite <- (map_id el) at 1. apply map_ext_in. intros x I.
      replace (x =? del)%nat with false; auto. symmetry. apply Nat.eqb_neq. intros ->. contradiction.
  Qed.
  Lemma merge_dels keep dels : ~ In keep dels -> forall st, fold_left (merge_number keep) dels st =
    (rev dels ++ fst st, map (map (send keep dels)) (snd st)).
  Proof.
    induction dels as [|d dels IH]; intros N [ds els].
    - cbn. f_equal. rewrite <- (map_id els) at 1. apply map_ext. intros el. symmetry. apply map_id.
    - cbn [fold_left]. rewrite IH by (intros I; apply N; right; auto). unfold merge_number. cbn [fst snd rev]. rewrite <- app_assoc. f_equal.
      rewrite map_map. apply map_ext. intros el. rewrite replace_map, map_map. apply map_ext. intros x.
      unfold send. rewrite memb_cons. destruct (x =? d)%nat eqn:E; cbn [orb]; auto.
      replace (memb keep dels) with false; auto. symmetry. apply memb_false. intros I. apply N. right. auto.
  Qed.

  (** Numbers already replaced after a list of points. *)
  Definition seen (ps : list A) (p : A) : bool := existsb (fun q => same q p) ps.
  Definition partly (vs ps : list A) (x : nat) : nat :=
    match nth_error vs x with Some p => if seen ps p then first_of vs x else x | None => x end.
  Lemma send_partly vs ps p i x : nth_error vs i = Some p ->
    send (hd 0 (members vs p)) (tl (members vs p)) (partly vs ps x) = partly vs (ps ++ [p]) x.
  Proof.
    intros E. assert (I : In i (members vs p)) by (apply in_members; exists p; split; auto; apply same_refl).
    pose proof (members_sorted vs p) as T. pose proof (in_members vs p) as M.
    assert (Sn : forall r, seen (ps ++ [p]) r = seen ps r || same p r).
    { intros r. unfold seen. rewrite existsb_app. cbn. rewrite orb_false_r. reflexivity. }
    unfold partly. destruct (nth_error vs x) as [r|] eqn:X.
    - rewrite Sn. destruct (same p r) eqn:R.
      + assert (F : first_of vs x = hd 0 (members vs p)).
        { unfold first_of. rewrite X. rewrite <- (members_same vs p r R). destruct (members vs p); [destruct I|reflexivity]. }
        rewrite orb_true_r. rewrite F. unfold send. destruct T as [|k l T G]; [destruct I|]. cbn [hd tl] in *.
        destruct (seen ps r).
        * destruct (memb k l); reflexivity.
        * destruct (memb x l) eqn:L; auto. apply memb_false in L.
          assert (J : In x (k :: l)) by (apply M; exists r; split; auto; rewrite same_sym; auto).
          destruct J as [->|J]; auto. contradiction.
      + rewrite orb_false_r. unfold send.
        assert (N : memb (if seen ps r then first_of vs x else x) (tl (members vs p)) = false).
        { apply memb_false. intros J.
          assert (K : In (if seen ps r then first_of vs x else x) (members vs p)) by (destruct (members vs p); [destruct J|right; auto]).
          apply M in K. destruct K as (q & K1 & K2). assert (Q : same q r = true).
          { destruct (seen ps r).
            - destruct (first_point vs x r X) as (q' & Q1 & Q2). congruence.
            - rewrite X in K1. injection K1 as ->. apply same_refl. }
          rewrite (same_left q p r K2) in Q. congruence. }
        rewrite N. reflexivity.
    - unfold send. assert (N : memb x (tl (members vs p)) = false).
      { apply memb_false. intros J. assert (K : In x (members vs p)) by (destruct (members vs p); [destruct J|right; auto]).
        apply M in K. destruct K as (q & K1 & _). congruence. }
      rewrite N. reflexivity.
  Qed.
  Lemma merge_loop vs ps : forall done ds (els : list element), (forall p, In p ps -> In p vs) ->
    exists ds', foldM (merge_point same (note_points same vs)) ps (ds, map (map (partly vs done)) els : list element) =
      Ok (ds', map (map (partly vs (done ++ ps))) els : list element) /\
      forall i, In i ds' <-> In i ds \/ exists p, In p ps /\ In i (tl (members vs p)).
  Proof.
    induction ps as [|p ps IH]; intros done ds els Sub.
    - exists ds. rewrite app_nil_r. split; auto. intros i. split; auto. intros [H|(p & [] & _)]; auto.
    - assert (I : In p vs) by (apply Sub; left; auto). apply In_nth_error in I. destruct I as (i & E).
      assert (J : In i (members vs p)) by (apply in_members; exists p; split; auto; apply same_refl).
      cbn [foldM]. unfold merge_point at 1. rewrite (numbers_members vs p i E). cbn [rbind].
      pose proof (members_sorted vs p) as T. destruct (members vs p) as [|k l] eqn:M; [destruct J|].
      rewrite merge_dels by (apply sorted_nodup in T; inversion T; auto). cbn [rbind fst snd].
      rewrite map_map. erewrite map_ext; [|intros el; rewrite map_map; reflexivity].
      assert (P : forall x, send k l (partly vs done x) = partly vs (done ++ [p]) x).
      { intros x. pose proof (send_partly vs done p i x E) as Q. rewrite M in Q. exact Q. }
      erewrite map_ext; [|intros el; apply map_ext; apply P].
      destruct (IH (done ++ [p]) (rev l ++ ds) els) as (ds' & F & D); [intros q Q; apply Sub; right; auto|].
      exists ds'. rewrite <- app_assoc in F. split; [exact F|]. intros j. rewrite D, in_app_iff, <- in_rev. split.
      + intros [[H|H]|(q & H1 & H2)]; auto; right; [exists p|exists q]; cbn [In]; rewrite ?M; auto.
      + intros [H|(q & [<-|H1] & H2)]; auto.
        * rewrite M in H2. auto.
        * right. exists q. auto.
  Qed.
  Lemma collapse_eq vs (els : list element) : exists ds, StronglySorted lt ds /\ (forall i, In i ds <-> repeated same vs i) /\
    collapse_points same vs els = Ok (removal ds (vs, map (map (first_of vs)) els)).
  Proof.
    destruct (merge_loop vs vs [] [] els) as (ds & F & D); auto.
    assert (P0 : map (map (partly vs [])) els = els).
    { rewrite <- (map_id els) at 2. apply map_ext. intros el. rewrite <- (map_id el) at 2. apply map_ext. intros x.
      unfold partly. destruct (nth_error vs x); reflexivity. }
    rewrite P0 in F. cbn [app] in F.
    assert (P1 : map (map (partly vs vs)) els = map (map (first_of vs)) els).
    { apply map_ext. intros el. apply map_ext. intros x. unfold partly. destruct (nth_error vs x) as [p|] eqn:E.
      - replace (seen vs p) with true; auto. symmetry. apply existsb_exists. exists p. split; [eapply nth_error_In; eauto|apply same_refl].
      - unfold first_of. rewrite E. reflexivity. }
    rewrite P1 in F. exists (filter (fun i => memb i ds) (seq 0 (length vs))). split; [apply filter_sorted, seq_sorted|]. split.
    - intros i. rewrite filter_In, in_seq, memb_true, D. rewrite repeated_first. split.
      + intros (L & [[]|(p & Hp & I)]). intros E.
        assert (Ii : In i (members vs p)) by (destruct (members vs p); [destruct I|right; auto]).
        apply in_members in Ii. destruct Ii as (q & Q & S). unfold first_of in E. rewrite Q in E.
        rewrite (members_same vs q p S) in E. pose proof (members_sorted vs p) as T. destruct T as [|k l T G]; [destruct I|].
        cbn [hd tl] in *. subst k. rewrite Forall_forall in G. specialize (G i I). lia.
      + intros N. destruct (nth_error vs i) as [p|] eqn:E; [|exfalso; apply N; unfold first_of; rewrite E; auto].
        assert (L : i < length vs) by (apply nth_error_Some; congruence). split; [lia|]. right. exists p.
        split; [eapply nth_error_In; eauto|].
        assert (I : In i (members vs p)) by (apply in_members; exists p; split; auto; apply same_refl).
        unfold first_of in N. rewrite E in N. destruct (members vs p) as [|k l]; [destruct I|]. cbn [hd tl] in *. destruct I; congruence.
    - unfold collapse_points. rewrite F. cbn [rbind fst snd]. reflexivity.
  Qed.
  Lemma collapse_spec vs els : exists vs' els', collapse_points same vs els = Ok (vs', els') /\
    selected (fun i => ~ repeated same vs i) vs vs' /\
    Forall2 (Forall2 (same_point same vs vs')) els els'.
  Proof.
    destruct (collapse_eq vs els) as (ds & S & D & E). destruct (removal ds (vs, map (map (first_of vs)) els)) as [vs' els'] eqn:R.
    exists vs', els'. split; auto.
    pose proof (removal_selected ds (vs, map (map (first_of vs)) els) S) as Sel.
    pose proof (removal_els ds (vs, map (map (first_of vs)) els)) as Els.
    pose proof (fun x => removal_get ds (vs, map (map (first_of vs)) els) x S) as Get.
    rewrite R in *. cbn [fst snd] in *. split.
    - destruct Sel as (ix & A1 & A2 & A3). exists ix. split; auto. split; auto. intros i. rewrite A2, D. tauto.
    - rewrite Els, map_map. clear - Get D EQ.
      induction els as [|el els IH]; [constructor|]. cbn [map]. constructor; auto. rewrite map_map.
      induction el as [|x el IHe]; [constructor|]. cbn [map]. constructor; auto.
      unfold same_point. rewrite Get.
      + destruct (nth_error vs x) as [p|] eqn:E.
        * destruct (first_point vs x p E) as (q & -> & Q). rewrite same_sym. auto.
        * unfold first_of. rewrite E, E. auto.
      + rewrite D, repeated_first, first_idem. auto.
  Qed.
  Lemma collapse_distinct vs els vs' els' : collapse_points same vs els = Ok (vs', els') ->
    forall i j p q, i <> j -> nth_error vs' i = Some p -> nth_error vs' j = Some q -> same p q = false.
  Proof.
    intros E. destruct (collapse_spec vs els) as (ws & fs & E' & (ix & S & M & G) & _). rewrite E in E'. injection E' as <- <-. clear E.
    assert (W : forall i j p q, i < j -> nth_error vs' i = Some p -> nth_error vs' j = Some q -> same p q = false).
    { intros i j p q L P Q. destruct (same p q) eqn:F; auto. exfalso.
      assert (Gi : forall k r, nth_error vs' k = Some r -> exists x, nth_error ix k = Some x /\ nth_error vs x = Some r).
      { intros k r K. pose proof (map_nth_error Some k vs' K) as H. rewrite G in H.
        destruct (nth_error ix k) as [x|] eqn:X.
        - exists x. split; auto. rewrite (map_nth_error _ _ _ X) in H. congruence.
        - exfalso. apply nth_error_None in X. rewrite (proj2 (nth_error_None _ k)) in H by (rewrite map_length; auto). discriminate. }
      destruct (Gi i p P) as (x & X1 & X2). destruct (Gi j q Q) as (y & Y1 & Y2).
      assert (XY : x < y).
      { clear - S L X1 Y1. revert i j L X1 Y1. induction S as [|k l S IH F]; intros i j L X1 Y1; [destruct i; discriminate|].
        destruct j as [|j]; [lia|]. destruct i as [|i].
        - injection X1 as ->. rewrite Forall_forall in F. apply F. eapply nth_error_In; eauto.
        - apply (IH i j); auto. lia. }
      assert (N : ~ repeated same vs y) by (apply M; eapply nth_error_In; eauto).
      apply N. exists x, p, q. auto. }
    intros i j p q N P Q. destruct (Nat.lt_trichotomy i j) as [L|[L|L]]; [apply (W i j); auto|contradiction|].
    rewrite same_sym. apply (W j i); auto.
  Qed.
  Lemma collapse_same vs els : (forall i, ~ repeated same vs i) -> collapse_points same vs els = Ok (vs, els).
  Proof.
    intros N. destruct (collapse_eq vs els) as (ds & S & D & E). rewrite E. destruct ds as [|d ds].
    - assert (M : map (map (first_of vs)) els = els).
      { rewrite <- (map_id els) at 2. apply map_ext. intros el. rewrite <- (map_id el) at 2. apply map_ext. intros x.
        destruct (Nat.eq_dec (first_of vs x) x) as [|H]; auto. apply repeated_first in H. exfalso. eapply N; eauto. }
      unfold removal. cbn [rev fold_left]. rewrite M. reflexivity.
    - exfalso. apply (N d). apply D. left. auto.
  Qed.
End Collapse.
