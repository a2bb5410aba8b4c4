(** Quality of meshes: proofs. *)
From Coq Require Import Ascii String Reals List Bool Arith Lia Lra Sorted.
From Verif Require Import Prelude TreeModel MeshModel VecModel GeomModel TriModel PolyModel VecProofs GeomSpec GeomProofs1 GeomProofs2 MshModel MshSpec MshProofs MshProofs2 MshProofs3 MshProofs4 MshProofs5.
Import ListNotations.
Local Open Scope R_scope.

(** ** Volumes *)
Lemma volume_least p q s t : 1 / 12000000 <= tetrahedron_volume p q s t.
Proof.
  rewrite volume_eq. assert (S : sqrt (1 / 1000000 * (1 / 1000000)) <= sqrt (det3 p q s t * det3 p q s t * 4 + EPSILON)).
  { apply sqrt_le_1_alt. pose proof (Rle_0_sqr (det3 p q s t)) as H. unfold Rsqr in H. unfold EPSILON. lra. }
  rewrite sqrt_square in S by lra. lra.
Qed.
Lemma volume_spec vs el v : element_volume vs el = Ok v <-> has_volume vs el v.
Proof.
  unfold element_volume. split.
  - intros H. destruct (four_points vs el) as [l|] eqn:F; cbn [rbind] in H; [|discriminate]. apply four_spec in F.
    pose proof F as (a & b & c & d & r & p & q & s & t & _ & -> & _). injection H as <-. exists p, q, s, t. auto.
  - intros (p & q & s & t & C & ->). apply four_spec in C. rewrite C. reflexivity.
Qed.
Lemma volume_total vs el : (exists l, corners4 vs el l) -> exists v, element_volume vs el = Ok v.
Proof.
  intros (l & C). pose proof C as (a & b & c & d & r & p & q & s & t & _ & -> & _). exists (tetrahedron_volume p q s t). apply volume_spec.
  exists p, q, s, t. auto.
Qed.
Lemma zero_never vs el b : zero_volume vs el = Ok b -> b = false.
Proof.
  unfold zero_volume. destruct (element_volume vs el) as [v|] eqn:E; cbn [rbind]; [|discriminate]. intros H. injection H as <-.
  apply volume_spec in E. destruct E as (p & q & s & t & _ & ->). pose proof (volume_least p q s t) as L.
  unfold isclose. apply not_true_is_false. intros T. apply Rleb_true in T. rewrite Rabs_R0, Rminus_0_r in T.
  rewrite Rabs_pos_eq in T by lra. unfold ATOL8 in T. lra.
Qed.

(** ** Invalid points *)
Lemma in_enumerate {A} (l : list A) i x : In (i, x) (enumerate l) <-> nth_error l i = Some x.
Proof.
  induction l as [|v l IH] using rev_ind; [split; [intros []|destruct i; discriminate]|].
  rewrite enumerate_snoc, in_app_iff, IH. cbn [In]. split.
  - intros [H|[H|[]]].
    + rewrite nth_error_app1; auto. apply nth_error_Some. congruence.
    + injection H as <- <-. rewrite nth_error_app2, Nat.sub_diag by lia. reflexivity.
  - intros H. destruct (Nat.lt_ge_cases i (length l)) as [L|L].
    + left. rewrite nth_error_app1 in H; auto.
    + right. left. rewrite nth_error_app2 in H by lia. destruct (i - length l)%nat as [|k] eqn:E.
      * cbn in H. injection H as ->. f_equal. lia.
      * cbn in H. destruct k; discriminate.
Qed.
Lemma in_connected els i k : In k (connected els i) <-> exists e : element, nth_error els k = Some e /\ In i e.
Proof.
  unfold connected. rewrite in_concat. split.
  - intros (l & H1 & H2). apply in_map_iff in H1. destruct H1 as ([j e] & <- & H). apply in_enumerate in H. cbn [fst snd] in *.
    apply in_map_iff in H2. destruct H2 as (x & <- & X). apply filter_In in X. destruct X as (X & E). apply Nat.eqb_eq in E. subst x. eauto.
  - intros (e & E & I). exists (map (fun _ => k) (filter (Nat.eqb i) e)). split.
    + apply in_map_iff. exists (k, e). split; auto. apply in_enumerate. auto.
    + apply in_map_iff. exists i. split; auto. apply filter_In. split; auto. apply Nat.eqb_refl.
Qed.
Lemma mapM_forall2 {A B} (f : A -> result B) l r : mapM f l = Ok r <-> Forall2 (fun a b => f a = Ok b) l r.
Proof.
  revert r. induction l as [|x l IH]; intros r; cbn [mapM].
  - split; [intros H; injection H as <-; constructor|intros H; inversion H; reflexivity].
  - split.
    + intros H. destruct (f x) as [y|] eqn:E; cbn [rbind] in H; [|discriminate]. destruct (mapM f l) as [ys|]; cbn [rbind] in H; [|discriminate].
      injection H as <-. constructor; auto. apply IH. auto.
    + intros H. inversion H as [|? y ? ys E F]; subst. rewrite E. cbn [rbind]. apply IH in F. rewrite F. reflexivity.
Qed.
Lemma forall2_left {A B} (P : A -> B -> Prop) l r i x : Forall2 P l r -> nth_error l i = Some x -> exists y, nth_error r i = Some y /\ P x y.
Proof.
  intros F. revert i. induction F as [|a b l r H F IH]; intros [|i] E; try discriminate.
  - injection E as <-. exists b. auto.
  - apply IH. auto.
Qed.
Lemma forall2_right {A B} (P : A -> B -> Prop) l r i y : Forall2 P l r -> nth_error r i = Some y -> exists x, nth_error l i = Some x /\ P x y.
Proof.
  intros F. revert i. induction F as [|a b l r H F IH]; intros [|i] E; try discriminate.
  - injection E as <-. exists a. auto.
  - apply IH. auto.
Qed.
Lemma mapM_some {A B} (f : A -> result B) l : (forall x, In x l -> exists y, f x = Ok y) -> exists r, mapM f l = Ok r.
Proof.
  induction l as [|x l IH]; intros H; [exists []; reflexivity|]. cbn [mapM]. destruct (H x (or_introl eq_refl)) as (y & ->). cbn [rbind].
  destruct IH as (r & ->); [intros; apply H; right; auto|]. cbn [rbind]. eauto.
Qed.
Lemma connected_volumes vs els i : all_corners vs els ->
  exists vols cv, mapM (element_volume vs) els = Ok vols /\ mapM (at_index vols) (connected els i) = Ok cv /\
  forall v, In v cv <-> exists e, In e els /\ In i e /\ has_volume vs e v.
Proof.
  intros C. destruct (mapM_some (element_volume vs) els) as (vols & V); [intros e I; apply volume_total; auto|].
  pose proof (proj1 (mapM_forall2 _ _ _) V) as FV.
  destruct (mapM_some (at_index vols) (connected els i)) as (cv & W).
  { intros k K. apply in_connected in K. destruct K as (e & E & _). destruct (forall2_left _ _ _ _ _ FV E) as (v & N & _). exists v.
    unfold at_index. rewrite N. reflexivity. }
  exists vols, cv. split; auto. split; auto. pose proof (proj1 (mapM_forall2 _ _ _) W) as FW. intros v. split.
  - intros I. apply In_nth_error in I. destruct I as (n & N). destruct (forall2_right _ _ _ _ _ FW N) as (k & K & A).
    apply nth_error_In, in_connected in K. destruct K as (e & E & I). exists e. split; [eapply nth_error_In; eauto|]. split; auto.
    destruct (forall2_left _ _ _ _ _ FV E) as (v' & N' & Hv). unfold at_index in A. rewrite N' in A. injection A as ->. apply volume_spec. auto.
  - intros (e & I & J & Hv). apply In_nth_error in I. destruct I as (k & E). apply volume_spec in Hv.
    destruct (forall2_left _ _ _ _ _ FV E) as (v' & N' & Hv'). rewrite Hv in Hv'. injection Hv' as <-.
    assert (K : In k (connected els i)) by (apply in_connected; eauto). apply In_nth_error in K. destruct K as (n & N).
    destruct (forall2_left _ _ _ _ _ FW N) as (w & Nw & A). unfold at_index in A. rewrite N' in A. injection A as ->. eapply nth_error_In; eauto.
Qed.
Lemma volume_positive vs e v : has_volume vs e v -> 0 < v.
Proof. intros (p & q & s & t & _ & ->). pose proof (volume_least p q s t). lra. Qed.
Lemma invalid_used vs els mv i : all_corners vs els -> used els i -> exists b, is_invalid vs els mv i = Ok b /\ (b = true <-> bad_vertex vs els mv i).
Proof.
  intros C U. destruct (connected_volumes vs els i C) as (vols & cv & E1 & E2 & H). unfold is_invalid. rewrite E1. cbn [rbind]. rewrite E2. cbn [rbind].
  assert (NE : cv <> []).
  { destruct U as (e & I & J). destruct (volume_total vs e (C e I)) as (v & V). apply volume_spec in V.
    assert (K : In v cv) by (apply H; eauto). intros ->. destruct K. }
  destruct (lmax_ok cv NE) as (hi & Hi). destruct (lmin_ok cv NE) as (lo & Lo). unfold imbalance.
  destruct cv as [|c0 cr] eqn:Ec; [contradiction|]. rewrite <- Ec in *. rewrite Hi, Lo. cbn [rbind].
  apply lmax_spec in Hi. apply lmin_spec in Lo. destruct Hi as (Hi1 & Hi2), Lo as (Lo1 & Lo2).
  pose proof (proj1 (H hi) Hi1) as (e1 & I1 & J1 & V1). pose proof (proj1 (H lo) Lo1) as (e2 & I2 & J2 & V2).
  assert (P : 0 < lo) by (eapply volume_positive; eauto).
  assert (Z : Reqb lo 0 = false) by (apply Reqb_false; lra). rewrite Z. cbn [rbind].
  assert (Q : hi / lo * lo = hi) by (field; lra).
  destruct (Rltb 100 (hi / lo)) eqn:T.
  - apply Rltb_true in T. exists true. split; auto. split; auto. intros _. left. exists e1, e2, hi, lo. repeat split; auto. nra.
  - apply Rltb_false in T. exists (Rltb lo mv). split; auto. rewrite Rltb_true. split.
    + intros L. right. exists e2, lo. auto.
    + intros [(f1 & f2 & v1 & v2 & A1 & A2 & B1 & B2 & W1 & W2 & G)|(f & v & A & B & W & G)].
      * exfalso. assert (K1 : In v1 cv) by (apply H; eauto). assert (K2 : In v2 cv) by (apply H; eauto).
        apply Hi2 in K1. apply Lo2 in K2. nra.
      * assert (K : In v cv) by (apply H; eauto). apply Lo2 in K. lra.
Qed.
Lemma invalid_unused vs els mv i : all_corners vs els -> ~ used els i -> is_invalid vs els mv i = Err AssertionError.
Proof.
  intros C U. destruct (connected_volumes vs els i C) as (vols & cv & E1 & E2 & H). unfold is_invalid. rewrite E1. cbn [rbind]. rewrite E2. cbn [rbind].
  destruct cv as [|v cv]; [reflexivity|]. exfalso. destruct (proj1 (H v) (or_introl eq_refl)) as (e & I & J & _). apply U. exists e. auto.
Qed.
Lemma invalid_loop (g : nat -> result bool) (P : nat -> Prop) restricted ns l :
  (forall i, In i ns -> ~ In i restricted -> exists b, g i = Ok b /\ (b = true <-> P i)) ->
  mapM (fun i => if memb i restricted then Ok [] else do b <- g i; Ok (if b then [i] else [])) ns = Ok l ->
  StronglySorted lt ns -> StronglySorted lt (concat l) /\ forall i, In i (concat l) <-> In i ns /\ ~ In i restricted /\ P i.
Proof.
  revert l. induction ns as [|n ns IH]; intros l H E S.
  - injection E as <-. split; [constructor|]. cbn. intuition.
  - cbn [mapM] in E. destruct (if memb n restricted then Ok [] else _) as [x|] eqn:X; cbn [rbind] in E; [|discriminate].
    destruct (mapM _ ns) as [r|] eqn:R; cbn [rbind] in E; [|discriminate]. injection E as <-. cbn [concat].
    inversion S as [|? ? S' F]; subst. destruct (IH r) as (I1 & I2); auto; [intros; apply H; auto; right; auto|].
    assert (D : x = [] /\ (In n restricted \/ ~ P n) \/ x = [n] /\ ~ In n restricted /\ P n).
    { destruct (memb n restricted) eqn:M.
      - injection X as <-. apply memb_true in M. auto.
      - apply memb_false in M. destruct (H n (or_introl eq_refl) M) as (b & B & Q). rewrite B in X. cbn [rbind] in X. injection X as <-. destruct b.
        + right. tauto.
        + left. split; auto. right. intros Pn. apply Q in Pn. discriminate. }
    destruct D as [(-> & D)|(-> & D1 & D2)]; cbn [app].
    + split; auto. intros i. rewrite I2. cbn [In]. split; [tauto|]. intros ([->|K] & K2 & K3); tauto.
    + split.
      * constructor; auto. apply Forall_forall. intros i I. apply I2 in I. rewrite Forall_forall in F. apply F. tauto.
      * intros i. cbn [In]. rewrite I2. split; [intros [<-|K]; tauto|]. intros ([->|K] & K2 & K3); tauto.
Qed.
Lemma invalid_spec vs els restricted mv : all_corners vs els -> (forall i, (i < length vs)%nat -> ~ In i restricted -> used els i) ->
  exists l, get_invalid_points vs els restricted mv = Ok l /\ StronglySorted lt l /\
  forall i, In i l <-> (i < length vs)%nat /\ ~ In i restricted /\ bad_vertex vs els mv i.
Proof.
  intros C U. unfold get_invalid_points.
  destruct (mapM_some (fun i => if memb i restricted then Ok [] else do b <- is_invalid vs els mv i; Ok (if b then [i] else [])) (seq 0 (length vs))) as (l & E).
  { intros i I. destruct (memb i restricted) eqn:M; [eauto|]. apply memb_false in M. apply in_seq in I.
    destruct (invalid_used vs els mv i C) as (b & -> & _); [apply U; auto; lia|]. cbn [rbind]. eauto. }
  rewrite E. cbn [rbind]. exists (concat l). split; auto.
  destruct (invalid_loop (is_invalid vs els mv) (bad_vertex vs els mv) restricted (seq 0 (length vs)) l) as (S & M); auto.
  - intros i I N. apply invalid_used; auto. apply U; auto. apply in_seq in I. lia.
  - apply seq_sorted.
  - split; auto. intros i. rewrite M, in_seq. intuition; lia.
Qed.
Lemma mapM_bad {A B} (f : A -> result B) e l : (forall x, In x l -> (exists y, f x = Ok y) \/ f x = Err e) -> (exists x, In x l /\ f x = Err e) -> mapM f l = Err e.
Proof.
  induction l as [|x l IH]; intros H (y & I & Y); [destruct I|]. cbn [mapM]. destruct (H x (or_introl eq_refl)) as [(z & E)|E]; rewrite E; cbn [rbind]; auto.
  rewrite IH; auto; [intros; apply H; right; auto|]. destruct I as [->|I]; [congruence|eauto].
Qed.
Lemma used_dec els i : used els i \/ ~ used els i.
Proof.
  destruct (existsb (memb i) els) eqn:E.
  - left. apply existsb_exists in E. destruct E as (e & I & M). apply memb_true in M. exists e. auto.
  - right. intros (e & I & M). assert (X : existsb (memb i) els = true); [|congruence]. apply existsb_exists. exists e. split; auto. apply memb_true. auto.
Qed.
Lemma invalid_lost vs els restricted mv : all_corners vs els -> (exists i, (i < length vs)%nat /\ ~ In i restricted /\ ~ used els i) ->
  get_invalid_points vs els restricted mv = Err AssertionError.
Proof.
  intros C (i & L & N & U). unfold get_invalid_points. rewrite (mapM_bad _ AssertionError); auto.
  - intros x _. destruct (memb x restricted); [eauto|]. destruct (used_dec els x) as [Ux|Ux].
    + destruct (invalid_used vs els mv x C Ux) as (b & -> & _). cbn [rbind]. eauto.
    + rewrite (invalid_unused vs els mv x C Ux). auto.
  - exists i. split; [apply in_seq; lia|]. apply memb_false in N. rewrite N, (invalid_unused vs els mv i C U). reflexivity.
Qed.
