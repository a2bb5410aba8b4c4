(** Triangulation of a polygon: one round and the loop. *)
From Coq Require Import ZArith Reals List Bool Arith Lia Lra.
From Verif Require Import Prelude UtilModel TreeModel MeshModel VecModel VecProofs VoxModel GeomModel GeomSpec GeomProofs1 GeomProofs2 GeomProofs5 TriModel PolyModel MshProofs6 StatModel TriaModel TriaSpec.
Import ListNotations.
Local Open Scope R_scope.

Lemma mapM_select {A B} (P : A -> Prop) (h : A -> B) (f : A -> result (list B)) l ys :
  (forall x r, In x l -> f x = Ok r -> (r = [h x] /\ P x) \/ (r = [] /\ ~ P x)) -> mapM f l = Ok ys -> exists sel, selected P l sel /\ concat ys = map h sel.
Proof.
  revert ys. induction l as [|x l IH]; intros ys Hf M; cbn [mapM] in M.
  - injection M as <-. exists []. split; [constructor|auto].
  - destruct (f x) as [r|] eqn:E; [|discriminate]. cbn [rbind] in M. destruct (mapM f l) as [rs|] eqn:M'; [|discriminate]. cbn [rbind] in M. injection M as <-.
    destruct (IH rs) as (sel & S1 & S2); [intros; apply Hf; auto; right; auto|auto|]. cbn [concat]. rewrite S2.
    destruct (Hf x r (or_introl eq_refl) E) as [(-> & Px)|(-> & Px)]; [exists (x :: sel)|exists sel]; split; auto; constructor; auto.
Qed.
Lemma selected_in {A} (P : A -> Prop) l s : selected P l s -> forall x, In x s <-> In x l /\ P x.
Proof.
  induction 1 as [|x l s Px Hs IH|x l s Px Hs IH]; intros y; cbn [In]; [tauto| |].
  - rewrite IH. split; [intros [<-|(I & Q)]; auto|intros ([<-|I] & Q); auto].
  - rewrite IH. split; [intros (I & Q); auto|intros ([<-|I] & Q); [contradiction|auto]].
Qed.
Lemma in_numbered {A} (l : list A) i x : In (i, x) (numbered l) <-> nth_error l i = Some x.
Proof. exact (in_enumerate l i x). Qed.
Lemma in_indices ts i : In i (indices ts) <-> used ts i.
Proof.
  unfold indices, used. rewrite in_concat. split.
  - intros (l & I & H). apply in_map_iff in I. destruct I as (((a, b), c) & <- & I). exists (a, b, c). split; auto. cbn in H |- *. intuition.
  - intros (((a, b), c) & I & H). exists [a; b; c]. split; [apply in_map_iff; exists (a, b, c); auto|]. cbn in H |- *. intuition.
Qed.
(** The least area at each vertex. *)
Definition least_at (d : dict nat R) (seen : nat -> R -> Prop) : Prop :=
  forall i, match dget d i with None => forall a, ~ seen i a | Some m => seen i m /\ forall a, seen i a -> m <= a end.
Lemma note_least d seen s i : least_at d seen -> least_at (note_area s d i) (fun j a => seen j a \/ (j = i /\ a = s)).
Proof.
  intros L j. unfold note_area. pose proof (L j) as Lj. destruct (Nat.eq_dec j i) as [->|N].
  - destruct (dget d i) as [b|] eqn:E.
    + destruct (Rltb s b) eqn:C.
      * rewrite dget_dset_same. apply Rltb_true in C. split; auto. intros a [H|(_ & ->)]; [|lra]. destruct Lj as (_ & Lj). specialize (Lj a H). lra.
      * rewrite E. apply Rltb_false in C. destruct Lj as (L1 & L2). split; auto. intros a [H|(_ & ->)]; auto.
    + rewrite dget_dset_same. split; auto. intros a [H|(_ & ->)]; [exfalso; apply (Lj a H)|lra].
  - assert (X : dget (match dget d i with None => dset d i s | Some b => if Rltb s b then dset d i s else d end) j = dget d j).
    { destruct (dget d i) as [b|]; [destruct (Rltb s b)|]; auto; rewrite dget_dset_other; auto. }
    rewrite X. destruct (dget d j) as [m|].
    + destruct Lj as (L1 & L2). split; auto. intros a [H|(C & _)]; [auto|congruence].
    + intros a [H|(C & _)]; [apply (Lj a H)|congruence].
Qed.
Definition seen_in (pts : list vec) (ts : list itri) (i : nat) (s : R) : Prop :=
  exists t a b c, In t ts /\ corner_of i t /\ tri_verts pts t (a, b, c) /\ s = triangle_area a b c.
Lemma vertex_areas_spec pts ts d : vertex_areas pts ts = Ok d -> least_at d (seen_in pts ts) /\ forall t, In t ts -> exists q, tri_verts pts t q.
Proof.
  unfold vertex_areas.
  assert (G : forall ts d0 seen, least_at d0 seen -> foldM (fun d t => do q <- tri_pts pts t; let '(a, b, c) := q in let '(i, j, k) := t in
      let s := triangle_area a b c in Ok (note_area s (note_area s (note_area s d i) j) k)) ts d0 = Ok d ->
      least_at d (fun i s => seen i s \/ seen_in pts ts i s) /\ forall t, In t ts -> exists q, tri_verts pts t q).
  { clear ts. induction ts as [|t ts IH]; intros d0 seen L F; cbn [foldM] in F.
    - injection F as <-. split; [|intros t []]. intros i. specialize (L i). destruct (dget d0 i) as [m|].
      + destruct L as (L1 & L2). split; auto. intros a [H|(t & _ & _ & _ & [] & _)]; auto.
      + intros a [H|(t & _ & _ & _ & [] & _)]. apply (L a H).
    - destruct (tri_pts pts t) as [((a, b), c)|] eqn:T; [|discriminate]. apply tri_pts_spec in T. cbn [rbind] in F. destruct t as ((i, j), k). cbn [rbind] in F.
      destruct (IH _ _ (note_least _ _ (triangle_area a b c) k (note_least _ _ (triangle_area a b c) j (note_least _ _ (triangle_area a b c) i L))) F) as (L' & V').
      split; [|intros t [<-|I]; [exists (a, b, c); auto|auto]]. assert (Eq : forall x s, (((seen x s \/ x = i /\ s = triangle_area a b c) \/ x = j /\ s = triangle_area a b c) \/ x = k /\ s = triangle_area a b c) \/ seen_in pts ts x s <-> seen x s \/ seen_in pts ((i, j, k) :: ts) x s).
      { intros x s. split.
        - intros [[[[H|(-> & ->)]|(-> & ->)]|(-> & ->)]|(t & a' & b' & c' & I & K)]; auto; right; [exists (i, j, k), a, b, c|exists (i, j, k), a, b, c|exists (i, j, k), a, b, c|exists t, a', b', c'; split; [right; auto|auto]]; (split; [left; auto|split; [cbn; auto|split; auto]]).
        - intros [H|(t & a' & b' & c' & [<-|I] & K & Tv & ->)]; auto; [|right; exists t, a', b', c'; auto].
          assert (E : (a', b', c') = (a, b, c)). { cbn in T, Tv. destruct T as (T1 & T2 & T3), Tv as (V1 & V2 & V3). congruence. } injection E as -> -> ->. cbn in K. left. intuition. }
      intros x. specialize (L' x). destruct (dget d x) as [m|].
      + destruct L' as (L1 & L2). split; [apply Eq; auto|]. intros s H. apply L2. apply Eq. auto.
      + intros s H. apply (L' s). apply Eq. auto. }
  intros F. destruct (G ts [] (fun _ _ => False)) as (L & Vt); [intros i; cbn; auto|exact F|]. split; auto.
  intros i. specialize (L i). destruct (dget d i) as [m|].
  - destruct L as ([[]|L1] & L2). auto.
  - intros a H. apply (L a). auto.
Qed.
Lemma areas_used pts ts d i : vertex_areas pts ts = Ok d -> used ts i -> exists m, dget d i = Some m.
Proof.
  intros E (t & I & C). destruct (vertex_areas_spec pts ts d E) as (L & Vt). specialize (L i). destruct (dget d i) as [m|]; [eauto|]. destruct (Vt t I) as (((a, b), c) & Tv).
  exfalso. apply (L (triangle_area a b c)). exists t, a, b, c. auto.
Qed.
Lemma areas_large pts ts d i m lim : vertex_areas pts ts = Ok d -> dget d i = Some m -> (lim < m <-> large_at pts ts lim i).
Proof.
  intros E D. destruct (vertex_areas_spec pts ts d E) as (L & Vt). specialize (L i). rewrite D in L. destruct L as (L1 & L2). split.
  - intros H t a b c I C Tv. specialize (L2 (triangle_area a b c)). assert (m <= triangle_area a b c) by (apply L2; exists t, a, b, c; auto). lra.
  - intros H. destruct L1 as (t & a & b & c & I & C & Tv & ->). apply (H t a b c); auto.
Qed.
Lemma vertex_areas_ok pts ts : (forall t, In t ts -> exists q, tri_verts pts t q) -> exists d, vertex_areas pts ts = Ok d.
Proof.
  unfold vertex_areas. generalize (@nil (nat * R)) as d0. induction ts as [|t ts IH]; intros d0 Hv; cbn [foldM]; [eauto|].
  destruct (Hv t (or_introl eq_refl)) as (((a, b), c) & Tv). apply tri_pts_spec in Tv. rewrite Tv. cbn [rbind]. destruct t as ((i, j), k). cbn [rbind]. apply IH. intros; apply Hv; right; auto.
Qed.
Lemma spans_min c l lo hi : lmin (map c l) = Ok lo -> lmax (map c l) = Ok hi -> spans c l lo hi.
Proof.
  intros A B. apply lmin_spec in A. apply lmax_spec in B. destruct A as (A1 & A2), B as (B1 & B2). apply in_map_iff in A1, B1. destruct A1 as (p & Ep & Ip), B1 as (q & Eq & Iq).
  split; [eauto|]. split; [eauto|]. intros r Ir. split; [apply A2|apply B2]; apply in_map; auto.
Qed.
Lemma spans_unique c l lo hi lo' hi' : spans c l lo hi -> spans c l lo' hi' -> lo = lo' /\ hi = hi'.
Proof.
  intros ((p & Ip & <-) & (q & Iq & <-) & A) ((p' & Ip' & <-) & (q' & Iq' & <-) & B). pose proof (A _ Ip'). pose proof (A _ Iq'). pose proof (B _ Ip). pose proof (B _ Iq). lra.
Qed.
Lemma random_within_tenth delta u : delta <> 0 -> random_within (MESH_JOGGLE * delta) u = delta / 10 * (2 * u - 1).
Proof. intros D. unfold random_within, MESH_JOGGLE. destruct (Req_EM_T (1 / 10 * delta) 0); [exfalso; lra|field]. Qed.
Lemma arange_nth start stop delta i x : 0 < delta -> (nth_error (arange (start + delta) stop delta) i = Some x <-> start + (INR i + 1) * delta < stop /\ x = start + (INR i + 1) * delta).
Proof.
  intros D. unfold arange. rewrite nth_error_map. set (n := Z.to_nat _).
  assert (Hn : forall i, (i < n)%nat <-> start + (INR i + 1) * delta < stop).
  { clear i. intros i. subst n. unfold ceil, floor. set (y := (stop - (start + delta)) / delta). pose proof (archimed (- y)) as (A1 & A2). unfold Int_part. set (z := up (- y)) in *.
    assert (Y : y * delta = stop - (start + delta)) by (subst y; field; lra).
    assert (Cl : (Z.of_nat i < - (z - 1))%Z <-> INR i < y).
    { split.
      - intros H. assert (IZR (Z.of_nat i) <= IZR (- (z - 1) - 1)) by (apply IZR_le; lia). rewrite <- INR_IZR_INZ, minus_IZR, opp_IZR, minus_IZR in H0. lra.
      - intros H. rewrite INR_IZR_INZ in H. assert (IZR (Z.of_nat i) < IZR (- (z - 1))) by (rewrite opp_IZR, minus_IZR; lra). apply lt_IZR in H0. auto. }
    assert ((i < Z.to_nat (- (z - 1)))%nat <-> (Z.of_nat i < - (z - 1))%Z) by lia. rewrite H, Cl. split; intros; nra. }
  destruct (nth_error (seq 0 n) i) as [k|] eqn:E.
  - assert (I : (i < n)%nat) by (rewrite <- (seq_length n 0); apply nth_error_Some; congruence). rewrite (nth_error_nth' _ 0%nat) in E by (rewrite seq_length; auto). rewrite seq_nth in E by auto. injection E as <-.
    cbn [option_map plus]. split; [intros H; injection H as <-; split; [apply Hn; auto|ring]|intros (_ & ->); f_equal; ring].
  - cbn [option_map]. split; [discriminate|]. intros (H & _). apply Hn in H. apply nth_error_None in E. rewrite seq_length in E. lia.
Qed.
