(** PolyMesh.generate. *)
From Coq Require Import Ascii String Reals List Bool Arith Lia.
From Verif Require Import Prelude VecModel GeomModel TriModel TriProofs MshModel MshSpec ContModel ContSpec ContProofs.
Import ListNotations.
Local Open Scope nat_scope.

Lemma find_split {X} (f : X -> bool) l x : find f l = Some x <-> exists l1 l2, l = l1 ++ x :: l2 /\ f x = true /\ forall y, In y l1 -> f y = false.
Proof.
  induction l as [|a l IH]; simpl.
  - split; [discriminate|]. intros ([|] & l2 & E & _); discriminate.
  - destruct (f a) eqn:F.
    + split.
      * intros E. injection E as <-. exists [], l. simpl. intuition.
      * intros ([|b l1] & l2 & E & Fx & N); cbn [app] in E; [congruence|]. injection E as <- _. rewrite (N a (or_introl eq_refl)) in F. discriminate.
    + rewrite IH. split.
      * intros (l1 & l2 & -> & Fx & N). exists (a :: l1), l2. split; [reflexivity|]. split; [exact Fx|]. intros y [<-|I]; auto.
      * intros ([|b l1] & l2 & E & Fx & N); cbn [app] in E; injection E as -> ->; [congruence|]. exists l1, l2. split; [reflexivity|]. split; [exact Fx|]. intros y I. apply N. right. exact I.
Qed.

Lemma nodup_left {X} (a b : list X) : NoDup (a ++ b) -> NoDup a.
Proof.
  induction a as [|x a IH]; intros N; [constructor|]. inversion N; subst. constructor; [|apply IH; assumption].
  intros I. apply H1. apply in_or_app. left. exact I.
Qed.

Section P.
  Context {P : Type} (facing : P -> P -> bool) (triang : nat -> P -> list vec -> result (list vec * list element)).

  Definition put_pair (d : dict str str) (xy : (str * P) * (str * P)) : dict str str :=
    if negb (eqb (fst (fst xy)) (fst (snd xy))) && facing (snd (fst xy)) (snd (snd xy)) then dset d (fst (fst xy)) (fst (snd xy)) else d.
  Definition sees (u : str) (p : P) (x : str * P) : bool := negb (eqb u (fst x)) && facing p (snd x).

  Lemma row u p l d : dget (fold_left put_pair (map (pair (u, p)) l) d) u = match find (sees u p) (rev l) with Some x => Some (fst x) | None => dget d u end.
  Proof.
    induction l as [|x l IH] using rev_ind; [reflexivity|].
    rewrite map_app, fold_left_app, rev_app_distr. cbn [map fold_left rev app find]. set (d' := fold_left put_pair (map (pair (u, p)) l) d) in *.
    clearbody d'. unfold put_pair, sees at 1. cbn [fst snd]. destruct (negb (eqb u (fst x)) && facing p (snd x)) eqn:F; [apply dget_dset_same|exact IH].
  Qed.
  Lemma other_row u u' p l d : u <> u' -> dget (fold_left put_pair (map (pair (u', p)) l) d) u = dget d u.
  Proof.
    intros N. induction l as [|x l IH] using rev_ind; [reflexivity|].
    rewrite map_app, fold_left_app. cbn [map fold_left]. set (d' := fold_left put_pair (map (pair (u', p)) l) d) in *. clearbody d'.
    unfold put_pair. cbn [fst snd]. destruct (negb _ && _); [|exact IH]. rewrite dget_dset_other by exact N. exact IH.
  Qed.
  Lemma rows u p l (r : dict str P) : forall d, NoDup (dkeys r) -> In (u, p) r ->
    dget (fold_left put_pair (list_prod r l) d) u = match find (sees u p) (rev l) with Some x => Some (fst x) | None => dget d u end.
  Proof.
    assert (O : forall (r : dict str P) d, ~ In u (dkeys r) -> dget (fold_left put_pair (list_prod r l) d) u = dget d u).
    { clear r. induction r as [|[u' p'] r IH]; intros d N; [reflexivity|]. cbn [list_prod]. rewrite fold_left_app, IH.
      - apply other_row. intros E. apply N. left. auto.
      - intros I. apply N. right. exact I. }
    induction r as [|[u' p'] r IH]; intros d N I; [destruct I|]. cbn [list_prod]. rewrite fold_left_app. inversion N; subst.
    destruct I as [E|I].
    - injection E as -> ->. rewrite O by assumption. apply row.
    - rewrite IH by assumption. destruct (find (sees u p) (rev l)); [reflexivity|]. apply other_row. intros ->. apply H1. apply (in_map fst) in I. exact I.
  Qed.
  Lemma match_spec polys u p v : NoDup (dkeys polys) -> In (u, p) polys -> (dget (matching_pairs facing polys) u = Some v <-> partner facing polys u v).
  Proof.
    intros N I. unfold matching_pairs. change (dget (fold_left put_pair (list_prod polys polys) []) u = Some v <-> partner facing polys u v).
    rewrite (rows u p) by assumption. cbn [dget]. unfold partner. split.
    - destruct (find (sees u p) (rev polys)) as [[w q]|] eqn:F; [|discriminate]. intros E. cbn [fst] in E. injection E as ->.
      apply find_split in F. destruct F as (l1 & l2 & E & S & H). unfold sees in S. cbn [fst snd] in S. apply andb_true_iff in S. destruct S as (S1 & S2).
      apply negb_true_iff, eqb_false in S1.
      exists p, (rev l2), q, (rev l1). split; [exact I|]. split.
      { rewrite <- (rev_involutive polys), E, rev_app_distr. cbn [rev]. rewrite <- app_assoc. reflexivity. }
      split; [congruence|]. split; [exact S2|]. intros w r J N'. apply in_rev in J. apply H in J. unfold sees in J. cbn [fst snd] in J.
      rewrite (proj2 (eqb_false u w)) in J by congruence. exact J.
    - intros (p' & l1 & q & l2 & I' & E & N' & S & H).
      assert (p' = p). { pose proof (dget_in _ _ _ N I). pose proof (dget_in _ _ _ N I'). congruence. } subst p'.
      assert (F : find (sees u p) (rev polys) = Some (v, q)).
      { apply find_split. exists (rev l2), (rev l1). split; [rewrite E, rev_app_distr; cbn [rev]; rewrite <- app_assoc; reflexivity|].
        unfold sees. cbn [fst snd]. rewrite (proj2 (eqb_false u v)) by congruence. split; [exact S|].
        intros [w r] J. apply in_rev in J. cbn [fst snd]. destruct (eq_dec u w) as [->|D]; [rewrite eqb_refl; reflexivity|].
        rewrite (H w r J) by congruence. apply andb_false_r. }
      rewrite F. reflexivity.
  Qed.

  (** Positions in the list of polygons. *)
  Lemma key_nth (polys : dict str P) j v q : nth_error polys j = Some (v, q) -> nth_error (dkeys polys) j = Some v.
  Proof. intros E. unfold dkeys. rewrite nth_error_map, E. reflexivity. Qed.
  Lemma dget_combine {B} (us : list str) (l : list B) v x : NoDup us -> length us = length l ->
    (dget (combine us l) v = Some x <-> exists j, nth_error us j = Some v /\ nth_error l j = Some x).
  Proof.
    revert l. induction us as [|u us IH]; intros [|y l]; cbn [combine length]; try discriminate; intros N L.
    - cbn [dget]. split; [discriminate|]. intros ([|] & E & _); discriminate.
    - inversion N; subst. cbn [dget]. destruct (eq_dec v u) as [->|D].
      + split; [intros E; injection E as ->; exists 0; auto|]. intros ([|j] & E & F); cbn [nth_error] in *; [congruence|].
        exfalso. apply H1. eapply nth_error_In. exact E.
      + rewrite IH by (auto; lia). split; [intros (j & E & F); exists (S j); auto|]. intros ([|j] & E & F); cbn [nth_error] in *; [congruence|]. eauto.
  Qed.

  Definition part_vs (x : part) : list vec := snd (fst x).
  Definition part_piece (x : part) : piece := (snd (fst x), snd x).
  Definition part_pts (x : part) : list vec := fst (fst x).

  (** What partner_points finds. *)
  Lemma partner_handed polys fixed parts u p k : NoDup (dkeys polys) -> nth_error polys k = Some (u, p) -> length parts = k ->
    handed facing polys fixed parts k u
      (given fixed u ++ partner_points (matching_pairs facing polys) (combine (firstn k (dkeys polys)) (map part_vs parts)) u).
  Proof.
    intros N K L. exists (partner_points (matching_pairs facing polys) (combine (firstn k (dkeys polys)) (map part_vs parts)) u). split; [reflexivity|].
    assert (I : In (u, p) polys) by (eapply nth_error_In; exact K).
    assert (LK : k < length polys) by (apply nth_error_Some; congruence).
    assert (N' : NoDup (firstn k (dkeys polys))). { rewrite <- (firstn_skipn k (dkeys polys)) in N. apply nodup_left in N. exact N. }
    assert (L' : length (firstn k (dkeys polys)) = length (map part_vs parts)).
    { rewrite map_length, firstn_length. unfold dkeys. rewrite map_length. lia. }
    unfold partner_points. destruct (dget (matching_pairs facing polys) u) as [v|] eqn:M.
    - pose proof M as M'. apply (match_spec polys u p v N I) in M'.
      destruct (dget (combine (firstn k (dkeys polys)) (map part_vs parts)) v) as [l|] eqn:D.
      + left. apply dget_combine in D; [|assumption|assumption]. destruct D as (j & E & F).
        assert (J : j < k). { assert (j < length (firstn k (dkeys polys))) by (apply nth_error_Some; congruence). rewrite firstn_length in H. lia. }
        rewrite nth_error_firstn_lt in E by exact J. unfold dkeys in E. rewrite nth_error_map in E. destruct (nth_error polys j) as [[w q]|] eqn:W; [|discriminate]. cbn in E. injection E as ->.
        rewrite nth_error_map in F. destruct (nth_error parts j) as [[[a b] c]|] eqn:X; [|discriminate]. cbn in F. injection F as <-.
        exists v, j, q, a, c. repeat (split; [eassumption|]). exact X.
      + right. split; [|reflexivity]. intros v' j q M2 E.
        assert (v' = v) by (apply (match_spec polys u p v' N I) in M2; congruence). subst v'.
        destruct (lt_eq_lt_dec k j) as [[H|H]|H]; [exact H| |].
        * subst j. rewrite E in K. injection K as -> ->. destruct M' as (p0 & l1 & q0 & l2 & _ & _ & C & _). congruence.
        * exfalso. assert (X : exists x, nth_error (map part_vs parts) j = Some x).
          { destruct (nth_error (map part_vs parts) j) eqn:Q; [eauto|]. apply nth_error_None in Q. rewrite map_length in Q. lia. }
          destruct X as (x & X). assert (D' : dget (combine (firstn k (dkeys polys)) (map part_vs parts)) v = Some x).
          { apply dget_combine; auto. exists j. split; [|exact X]. rewrite nth_error_firstn_lt by exact H. eapply key_nth. exact E. }
          congruence.
    - right. split; [|reflexivity]. intros v j q M2 _. apply (match_spec polys u p v N I) in M2. congruence.
  Qed.

  Lemma handed_more polys fixed parts parts' k u pts : k <= length parts -> handed facing polys fixed parts k u pts -> handed facing polys fixed (parts ++ parts') k u pts.
  Proof.
    intros L (more & E & H). exists more. split; [exact E|]. destruct H as [(v & j & q & a & c & A1 & A2 & A3 & A4)|H]; [left|right; exact H].
    exists v, j, q, a, c. repeat (split; [assumption|]). rewrite nth_error_app1 by lia. exact A4.
  Qed.
  Lemma meshed_more polys fixed parts parts' k x : k <= length parts -> meshed facing triang polys fixed parts k x -> meshed facing triang polys fixed (parts ++ parts') k x.
  Proof.
    intros L (u & p & pts & vs & fs & -> & A & B & C). exists u, p, pts, vs, fs. split; [reflexivity|]. split; [exact A|]. split; [|exact C].
    apply handed_more; assumption.
  Qed.

  (** The caller's lists after the first parts. *)
  Definition extended (fixed0 : dict str (list vec)) (us : list str) (ptss : list (list vec)) (fixed : dict str (list vec)) : Prop :=
    dkeys fixed = dkeys fixed0 /\
    forall u, dget fixed u = match dget fixed0 u with None => None | Some l => match dget (combine us ptss) u with Some pts => Some pts | None => Some l end end.

  Lemma extended_nil f0 : extended f0 [] [] f0.
  Proof. split; [reflexivity|]. intros u. cbn. destruct (dget f0 u); reflexivity. Qed.
  Lemma dget_app {B} (a b : dict str B) u : dget (a ++ b) u = match dget a u with Some x => Some x | None => dget b u end.
  Proof. induction a as [|[k v] a IH]; [reflexivity|]. cbn [dget app]. destruct (eq_dec u k); auto. Qed.
  Lemma dget_combine_none {B} (us : list str) (l : list B) u : ~ In u us -> dget (combine us l) u = None.
  Proof. intros N. apply dget_None. intros I. apply N. unfold dkeys in I. exact (in_combine_fst _ _ _ I). Qed.
  Lemma extended_snoc f0 us ptss f u pts : length us = length ptss -> ~ In u us -> extended f0 us ptss f ->
    extended f0 (us ++ [u]) (ptss ++ [pts]) (match dget f u with Some l => dset f u pts | None => f end).
  Proof.
    intros L N (K & H). split.
    - destruct (dget f u) eqn:E; [|exact K]. rewrite dkeys_dset_old; [exact K|]. eapply dget_Some_key. exact E.
    - intros w. rewrite combine_app by exact L. cbn [combine]. rewrite dget_app. cbn [dget]. specialize (H w). pose proof (dget_combine_none us ptss u N) as U.
      destruct (eq_dec w u) as [->|D].
      + rewrite U in *. destruct (dget f0 u) eqn:F0; rewrite H.
        * apply dget_dset_same.
        * exact H.
      + assert (E : dget (match dget f u with Some _ => dset f u pts | None => f end) w = dget f w) by (destruct (dget f u); [apply dget_dset_other; exact D|reflexivity]).
        rewrite E, H. destruct (dget f0 w); [|reflexivity]. destruct (dget (combine us ptss) w); reflexivity.
  Qed.

  (** How the loop ends. *)
  Definition failure (polys : dict str P) (fixed : dict str (list vec)) (parts : list part) (e : pyerr) (us : list str) (ptss : list (list vec)) : Prop :=
    exists u p pts, nth_error polys (length parts) = Some (u, p) /\ handed facing polys fixed parts (length parts) u pts /\
      us = firstn (length parts) (dkeys polys) ++ [u] /\ ptss = map part_pts parts ++ [pts] /\
      (triang (length parts) p pts = Err e \/ exists vs fs, triang (length parts) p pts = Ok (vs, fs) /\ rectangular fs = false /\ e = ValueError).

  Lemma loop_spec polys fixed0 d0 : NoDup (dkeys polys) -> forall rest pre parts fixed, polys = pre ++ rest -> length parts = length pre ->
    (forall k x, nth_error parts k = Some x -> meshed facing triang polys fixed0 parts k x) ->
    extended fixed0 (dkeys pre) (map part_pts parts) fixed ->
    forall fixed' d e, pm_loop triang (matching_pairs facing polys) (length pre) rest fixed (combine (dkeys pre) (map part_vs parts)) (assemble d0 (dkeys pre) (map part_piece parts)) = (fixed', d, e) ->
    exists parts', (forall k x, nth_error parts' k = Some x -> meshed facing triang polys fixed0 parts' k x) /\
      d = assemble d0 (firstn (length parts') (dkeys polys)) (map part_piece parts') /\ length parts' <= length polys /\
      match e with
      | None => length parts' = length polys /\ extended fixed0 (dkeys polys) (map part_pts parts') fixed'
      | Some x => exists us ptss, failure polys fixed0 parts' x us ptss /\ extended fixed0 us ptss fixed'
      end.
  Proof.
    intros N. induction rest as [|[u p] rest IH]; intros pre parts fixed EP L M X fixed' d e; cbn [pm_loop].
    - intros E. injection E as <- <- <-. rewrite app_nil_r in EP. subst pre. exists parts. split; [exact M|]. rewrite L. split; [|split; [lia|]].
      + rewrite <- (map_length fst polys). fold (dkeys polys). rewrite firstn_all. reflexivity.
      + split; [reflexivity|exact X].
    - assert (FK : firstn (length pre) (dkeys polys) = dkeys pre).
      { rewrite EP. unfold dkeys. rewrite map_app. rewrite <- (map_length fst pre) at 1. rewrite firstn_app, firstn_all, Nat.sub_diag. cbn [firstn]. apply app_nil_r. }
      assert (K : nth_error polys (length pre) = Some (u, p)) by (rewrite EP, nth_error_app2, Nat.sub_diag by lia; reflexivity).
      assert (NU : ~ In u (dkeys pre)).
      { intros I. rewrite EP in N. unfold dkeys in N. rewrite map_app in N. cbn [map fst] in N. apply NoDup_remove_2 in N. apply N. apply in_or_app. left. exact I. }
      pose proof (partner_handed polys fixed0 parts u p (length pre) N K L) as H. rewrite FK in H.
      set (more := partner_points (matching_pairs facing polys) (combine (dkeys pre) (map part_vs parts)) u) in *. clearbody more.
      assert (LK : length (dkeys pre) = length (map part_pts parts)) by (unfold dkeys; rewrite !map_length; lia).
      assert (G : match dget fixed u with Some l => l ++ more | None => more end = given fixed0 u ++ more).
      { unfold given. rewrite (proj2 X u), (dget_combine_none _ _ _ NU). destruct (dget fixed0 u); reflexivity. }
      pose proof (extended_snoc fixed0 _ _ fixed u (given fixed0 u ++ more) LK NU X) as X'.
      assert (F : match dget fixed u with Some l => dset fixed u (l ++ more) | None => fixed end = match dget fixed u with Some _ => dset fixed u (given fixed0 u ++ more) | None => fixed end).
      { destruct (dget fixed u) as [l|]; [rewrite G|]; reflexivity. }
      rewrite F, G. set (fx := match dget fixed u with Some _ => dset fixed u (given fixed0 u ++ more) | None => fixed end) in *. clearbody fx.
      set (pts := given fixed0 u ++ more) in *. clearbody pts.
      assert (BAD : forall e0, (triang (length pre) p pts = Err e0 \/ exists vs fs, triang (length pre) p pts = Ok (vs, fs) /\ rectangular fs = false /\ e0 = ValueError) ->
        (fx, assemble d0 (dkeys pre) (map part_piece parts), Some e0) = (fixed', d, e) ->
        exists parts', (forall k x, nth_error parts' k = Some x -> meshed facing triang polys fixed0 parts' k x) /\
          d = assemble d0 (firstn (length parts') (dkeys polys)) (map part_piece parts') /\ length parts' <= length polys /\
          match e with
          | None => length parts' = length polys /\ extended fixed0 (dkeys polys) (map part_pts parts') fixed'
          | Some x => exists us ptss, failure polys fixed0 parts' x us ptss /\ extended fixed0 us ptss fixed'
          end).
      { intros e0 B E. injection E as <- <- <-. exists parts. split; [exact M|]. rewrite L, FK. split; [reflexivity|]. split; [rewrite EP, app_length; lia|].
        exists (dkeys pre ++ [u]), (map part_pts parts ++ [pts]). split; [|exact X']. exists u, p, pts. rewrite L, FK. auto 6. }
      destruct (triang (length pre) p pts) as [[vs fs]|e0] eqn:T; [|apply BAD; auto].
      rewrite assemble_snoc by (unfold dkeys; rewrite !map_length; lia).
      destruct (rectangular fs) eqn:RF; [|apply BAD; right; eauto].
      intros E. rewrite dset_new in E by (unfold dkeys; rewrite map_fst_combine by (unfold dkeys; rewrite !map_length; lia); exact NU).
      replace (combine (dkeys pre) (map part_vs parts) ++ [(u, vs)]) with (combine (dkeys (pre ++ [(u, p)])) (map part_vs (parts ++ [(pts, vs, fs)]))) in E.
      2:{ unfold dkeys. rewrite !map_app. cbn [map fst]. rewrite combine_app by (rewrite !map_length; lia). reflexivity. }
      replace (S (length pre)) with (length (pre ++ [(u, p)])) in E by (rewrite app_length; cbn [length]; lia).
      replace (assemble d0 (dkeys pre ++ [u]) (map part_piece parts ++ [(vs, fs)])) with (assemble d0 (dkeys (pre ++ [(u, p)])) (map part_piece (parts ++ [(pts, vs, fs)]))) in E.
      2:{ unfold dkeys. rewrite !map_app. reflexivity. }
      refine (IH (pre ++ [(u, p)]) (parts ++ [(pts, vs, fs)]) fx _ _ _ _ fixed' d e E).
      + rewrite EP, <- app_assoc. reflexivity.
      + rewrite !app_length. cbn [length]. lia.
      + intros k x E'. assert (KL : k < length parts + 1). { assert (k < length (parts ++ [(pts, vs, fs)])) by (apply nth_error_Some; congruence). rewrite app_length in H0. exact H0. }
        apply meshed_more; [lia|]. destruct (Nat.eq_dec k (length parts)) as [->|D].
        * rewrite nth_error_app2, Nat.sub_diag in E' by lia. cbn [nth_error] in E'. injection E' as <-. exists u, p, pts, vs, fs. rewrite L. auto.
        * rewrite nth_error_app1 in E' by lia. apply M. exact E'.
      + unfold dkeys. rewrite !map_app. exact X'.
  Qed.
End P.
