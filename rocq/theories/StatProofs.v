(** Mesh statistics. *)
From Coq Require Import ZArith Reals List Bool Arith Lia Lra.
From Verif Require Import Prelude VecModel VecProofs GeomModel GeomSpec GeomProofs2 GeomProofs5 TriModel VoxModel VoxProofs MeshModel MshModel MshSpec MshProofs6 ContModel ContSpec ContProofs ContProofs3 ContProofs4 StatModel StatSpec.
Import ListNotations.
Local Open Scope R_scope.

Lemma fold_sum l a : fold_left Rplus l a = a + sum_of l.
Proof. revert a. induction l; intros b; cbn [fold_left sum_of]; [lra|]. rewrite IHl. lra. Qed.
Lemma summarise_spec l s : summarise l = Ok s -> summarises l (s_max s) (s_avg s) (s_min s).
Proof.
  unfold summarise. destruct (lmax l) as [hi|] eqn:E1; [|discriminate]. cbn [rbind]. destruct (lmin l) as [lo|] eqn:E2; [|discriminate]. cbn [rbind]. intros H. injection H as <-. cbn [s_max s_avg s_min].
  apply lmax_spec in E1. apply lmin_spec in E2. destruct E1 as (I1 & B1), E2 as (I2 & B2). split; auto. split; auto. split; [intros; split; auto|]. unfold mean. rewrite fold_sum.
  assert (INR (length l) <> 0) by (apply not_0_INR; destruct l; [destruct I1|discriminate]). field. auto.
Qed.
Lemma summarise_total l : l <> [] -> exists s, summarise l = Ok s.
Proof. intros N. unfold summarise. destruct (lmax_ok l N) as (a & ->). destruct (lmin_ok l N) as (b & ->). cbn [rbind]. eauto. Qed.
Lemma sum_bounds l lo hi : (forall x, In x l -> lo <= x <= hi) -> lo * INR (length l) <= sum_of l <= hi * INR (length l).
Proof.
  induction l as [|x l IH]; intros B; [cbn [length sum_of INR]; lra|]. cbn [length sum_of]. rewrite S_INR. pose proof (B x (or_introl eq_refl)). assert (lo * INR (length l) <= sum_of l <= hi * INR (length l)) by (apply IH; intros; apply B; right; auto). lra.
Qed.
Lemma average_between l hi avg lo : summarises l hi avg lo -> lo <= avg <= hi.
Proof.
  intros (I & _ & B & E). pose proof (sum_bounds _ _ _ B) as S. rewrite <- E in S. assert (0 < INR (length l)) by (apply lt_0_INR; destruct l; [destruct I|simpl; lia]). split; apply (Rmult_le_reg_r (INR (length l))); lra.
Qed.

(** Bins. *)
Lemma how_many_filter {A} (P : A -> Prop) (f : A -> bool) l : (forall x, In x l -> (f x = true <-> P x)) -> how_many P l (length (filter f l)).
Proof.
  induction l as [|x l IH]; intros H; [constructor|]. cbn [filter]. assert (how_many P l (length (filter f l))) by (apply IH; intros; apply H; right; auto). pose proof (H x (or_introl eq_refl)) as Hx.
  destruct (f x) eqn:E; cbn [length]; constructor; auto; [apply Hx; auto|]. intros C. apply Hx in C. discriminate.
Qed.
Lemma sum_counts (f : R -> nat) n l : (forall x, In x l -> (f x < n)%nat) -> fold_right Nat.add 0%nat (map (fun i => length (filter (fun x => (f x =? i)%nat) l)) (seq 0 n)) = length l.
Proof.
  induction l as [|x l IH]; intros H.
  - cbn [filter length]. generalize (seq 0 n). induction l as [|k l IH]; auto.
  - assert (E : forall k m, fold_right Nat.add 0%nat (map (fun i => length (filter (fun y => (f y =? i)%nat) (x :: l))) (seq k m)) = (fold_right Nat.add 0%nat (map (fun i => length (filter (fun y => (f y =? i)%nat) l)) (seq k m)) + if (k <=? f x) && (f x <? k + m) then 1 else 0)%nat).
    { intros k m. revert k. induction m as [|m IHm]; intros k.
      - cbn [seq map fold_right]. destruct ((k <=? f x)%nat && (f x <? k + 0)%nat) eqn:E; auto. apply andb_true_iff in E. destruct E as (E1 & E2). apply Nat.leb_le in E1. apply Nat.ltb_lt in E2. lia.
      - cbn [seq map fold_right]. rewrite IHm. cbn [filter]. destruct (f x =? k)%nat eqn:Ek.
        + apply Nat.eqb_eq in Ek. replace (S k <=? f x)%nat with false by (symmetry; apply Nat.leb_gt; lia). replace (k <=? f x)%nat with true by (symmetry; apply Nat.leb_le; lia). replace (f x <? k + S m)%nat with true by (symmetry; apply Nat.ltb_lt; lia). cbn [andb length]. lia.
        + apply Nat.eqb_neq in Ek. replace (S k <=? f x)%nat with (k <=? f x)%nat; [replace (S k + m)%nat with (k + S m)%nat by lia; lia|]. destruct (k <=? f x)%nat eqn:E1; symmetry; [apply Nat.leb_le in E1; apply Nat.leb_le; lia|apply Nat.leb_gt in E1; apply Nat.leb_gt; lia]. }
    rewrite E, IH by (intros; apply H; right; auto). pose proof (H x (or_introl eq_refl)). replace (f x <? 0 + n)%nat with true by (symmetry; apply Nat.ltb_lt; lia). cbn [Nat.leb andb length]. lia.
Qed.
Lemma bin_spec b w x i : 0 < w -> b <= x <= b + 10 * w -> (i < 10)%nat -> Nat.eqb (bin_of (b, b + 10 * w) x) i = true <-> in_bin b w i x.
Proof.
  intros W B I. unfold bin_of, in_bin. cbn [fst snd]. replace (10 * (x - b) / (b + 10 * w - b)) with ((x - b) / w) by (field; lra). set (t := (x - b) / w). assert (X : x = b + t * w) by (unfold t; field; lra).
  assert (T : 0 <= t <= 10) by (split; apply (Rmult_le_reg_r w); lra). clearbody t. subst x. pose proof (floor_spec t) as F. assert (Z0 : (0 <= floor t)%Z). { assert (IZR (-1) < IZR (floor t)) by (simpl; lra). apply lt_IZR in H. lia. }
  rewrite Nat.eqb_eq. set (k := Z.to_nat (floor t)). assert (Fk : INR k <= t < INR k + 1). { unfold k. rewrite INR_IZR_INZ, Z2Nat.id by auto. lra. } clearbody k. rewrite S_INR. assert (C : forall p q : nat, INR p * w <= INR q * w <-> (p <= q)%nat) by (intros p q; split; intros H; [apply INR_le; apply (Rmult_le_reg_r w); auto|apply Rmult_le_compat_r; [lra|apply le_INR; auto]]).
  split.
  - intros E. destruct (le_lt_dec k 9) as [L|L].
    + rewrite Nat.min_r in E by auto. subst k. split; [nra|]. left. nra.
    + rewrite Nat.min_l in E by lia. subst i. assert (10 <= INR k) by (replace 10 with (INR 10) by (simpl; lra); apply le_INR; lia). assert (t = 10) by lra. subst t. split; [simpl INR; nra|]. right. split; auto.
  - intros (L & [H|(-> & H)]).
    + assert (INR i <= t) by (apply (Rmult_le_reg_r w); lra). assert (t < INR i + 1) by (apply (Rmult_lt_reg_r w); lra). assert (k = i); [|subst; apply Nat.min_r; lia]. assert ((k < S i)%nat) by (apply INR_lt; rewrite S_INR; lra). assert ((i < S k)%nat) by (apply INR_lt; rewrite S_INR; lra). lia.
    + assert (t = 10) by (apply (Rmult_eq_reg_r w); lra). subst t. assert ((9 < k)%nat); [|lia]. apply INR_lt. simpl (INR 9). lra.
Qed.
Lemma histogram_spec l lo hi : l <> [] -> (forall x, In x l -> lo <= x <= hi) -> histogram l lo hi (bin_edges (hist_range lo hi)) (hist_counts (hist_range lo hi) l).
Proof.
  intros N B. assert (LH : lo <= hi). { destruct l as [|x l]; [congruence|]. pose proof (B x (or_introl eq_refl)). lra. }
  assert (X : exists b w, 0 < w /\ ((lo < hi /\ b = lo /\ b + 10 * w = hi) \/ (lo = hi /\ b = lo - 1 / 2 /\ w = 1 / 10)) /\ hist_range lo hi = (b, b + 10 * w) /\ b <= lo /\ hi <= b + 10 * w).
  { unfold hist_range. destruct (Reqb lo hi) eqn:E.
    - apply Reqb_true in E. exists (lo - 1 / 2), (1 / 10). split; [lra|]. split; [right; auto|]. split; [f_equal; lra|lra].
    - apply Reqb_false in E. exists lo, ((hi - lo) / 10). split; [lra|]. split; [left; repeat split; lra|]. split; [f_equal; lra|lra]. }
  destruct X as (b & w & W & K & -> & B1 & B2). exists b, w. split; auto. split; auto. split; [reflexivity|]. split.
  - intros i e E. unfold bin_edges in E. rewrite nth_error_map in E. cbn [fst snd] in E. destruct (nth_error (seq 0 11) i) as [j|] eqn:Ej; [|discriminate]. cbn [option_map] in E. assert (j = i). { pose proof (nth_error_Some (seq 0 11) i) as X. rewrite Ej in X. assert (Li : (i < 11)%nat) by (rewrite seq_length in X; apply X; discriminate). rewrite (nth_error_nth' _ 0%nat), seq_nth in Ej by (rewrite ?seq_length; auto). injection Ej. lia. }
    subst j. injection E as <-. field.
  - split; [reflexivity|]. assert (Fi : forall x, In x l -> b <= x <= b + 10 * w) by (intros x I; pose proof (B x I); lra). split.
    + intros i n E. unfold hist_counts in E. rewrite nth_error_map in E. destruct (nth_error (seq 0 10) i) as [j|] eqn:Ej; [|discriminate]. cbn [option_map] in E. injection E as <-. assert (Li : (i < 10)%nat /\ j = i). { pose proof (nth_error_Some (seq 0 10) i) as X. rewrite Ej, seq_length in X. assert (Li : (i < 10)%nat) by (apply X; discriminate). rewrite (nth_error_nth' _ 0%nat), seq_nth in Ej by (rewrite ?seq_length; auto). injection Ej. lia. }
      destruct Li as (Li & ->). apply how_many_filter. intros x I. apply bin_spec; auto.
    + unfold hist_counts. apply (sum_counts (bin_of (b, b + 10 * w))). intros x I. unfold bin_of. lia.
Qed.

(** Statistics. *)
Lemma edges_ok vs f l : face_edges vs f = Ok l <-> has_edges vs f l.
Proof.
  unfold face_edges, has_edges, at_index. split.
  - intros H. destruct f as [|i [|j [|k r]]]; cbn [nth_error rbind] in H; try discriminate; destruct (nth_error vs i) as [p|] eqn:E1; try discriminate; cbn [rbind] in H; try discriminate; destruct (nth_error vs j) as [q|] eqn:E2; try discriminate; cbn [rbind] in H; try discriminate.
    destruct (nth_error vs k) as [s|] eqn:E3; [|discriminate]. cbn [rbind] in H. injection H as <-. exists i, j, k, r, p, q, s. auto.
  - intros (i & j & k & r & p & q & s & -> & E1 & E2 & E3 & ->). cbn [nth_error rbind]. rewrite E1. cbn [rbind]. rewrite E2. cbn [rbind]. rewrite E3. reflexivity.
Qed.
Lemma edges_spec vs fs r : mapM (face_edges vs) fs = Ok r <-> Forall2 (has_edges vs) fs r.
Proof. rewrite mapM_Forall2. split; intros F; (induction F; constructor; auto); apply edges_ok; assumption. Qed.
Lemma area_edges vs f a : has_area vs f a -> exists l, has_edges vs f l.
Proof. intros (i & j & k & r & p & q & s & E & E1 & E2 & E3 & _). eexists. exists i, j, k, r, p, q, s. split; [exact E|]. auto. Qed.
Lemma Forall2_len {A B} (Q : A -> B -> Prop) l r : Forall2 Q l r -> length r = length l.
Proof. induction 1; simpl; auto. Qed.

Lemma stats_cases vs els s : mesh_stats vs els = Ok s -> exists e0 r, els = e0 :: r /\
  ((length e0 = 3%nat /\ exists areas edges sa se bins hist, Forall2 (has_area vs) els areas /\ Forall2 (has_edges vs) els edges /\
      summarises areas (s_max sa) (s_avg sa) (s_min sa) /\ summarises (concat edges) (s_max se) (s_avg se) (s_min se) /\
      histogram areas (s_min sa) (s_max sa) bins hist /\ s = Surface (length vs) (length els) sa se bins hist) \/
   (length e0 = 4%nat /\ exists vols sv bins hist, Forall2 (has_volume vs) els vols /\
      summarises vols (s_max sv) (s_avg sv) (s_min sv) /\ histogram vols (s_min sv) (s_max sv) bins hist /\ s = Volume (length vs) (length els) sv bins hist) \/
   (length e0 <> 3%nat /\ length e0 <> 4%nat /\ s = Unknown (length e0))).
Proof.
  unfold mesh_stats. destruct els as [|e0 r]; [discriminate|]. cbn [at_index nth_error rbind]. intros H. exists e0, r. split; auto. destruct (length e0 =? 3)%nat eqn:E3; [left; apply Nat.eqb_eq in E3|apply Nat.eqb_neq in E3; right; destruct (length e0 =? 4)%nat eqn:E4; [left; apply Nat.eqb_eq in E4|right; apply Nat.eqb_neq in E4]].
  - split; auto. destruct (mapM (face_area vs) (e0 :: r)) as [areas|] eqn:A; [|discriminate]. cbn [rbind] in H. destruct (mapM (face_edges vs) (e0 :: r)) as [edges|] eqn:Ed; [|discriminate]. cbn [rbind] in H. destruct (summarise areas) as [sa|] eqn:Sa; [|discriminate]. cbn [rbind] in H. destruct (summarise (concat edges)) as [se|] eqn:Se; [|discriminate]. cbn [rbind] in H. injection H as <-.
    apply areas_spec in A. apply edges_spec in Ed. apply summarise_spec in Sa, Se. exists areas, edges, sa, se. do 2 eexists. split; auto. split; auto. split; auto. split; auto. split; [|reflexivity]. apply histogram_spec; [inversion A; discriminate|apply Sa].
  - split; auto. destruct (mapM (element_volume vs) (e0 :: r)) as [vols|] eqn:A; [|discriminate]. cbn [rbind] in H. destruct (summarise vols) as [sv|] eqn:Sv; [|discriminate]. cbn [rbind] in H. injection H as <-. apply volumes_spec in A. apply summarise_spec in Sv. exists vols, sv. do 2 eexists. split; auto. split; auto. split; [|reflexivity]. apply histogram_spec; [inversion A; discriminate|apply Sv].
  - injection H as <-. auto.
Qed.
Lemma stats_surface vs e0 r : length e0 = 3%nat -> (exists areas, Forall2 (has_area vs) (e0 :: r) areas) -> exists s, mesh_stats vs (e0 :: r) = Ok s.
Proof.
  intros L (areas & F). unfold mesh_stats. cbn [at_index nth_error rbind]. rewrite L. cbn [Nat.eqb]. pose proof F as A. apply areas_spec in A. rewrite A. cbn [rbind].
  assert (X : exists edges, Forall2 (has_edges vs) (e0 :: r) edges). { clear - F. induction F as [|x y l l' H F (es & IH)]; [exists []; constructor|]. destruct (area_edges _ _ _ H) as (m & Hm). exists (m :: es). constructor; auto. }
  destruct X as (edges & Fe). pose proof Fe as E. apply edges_spec in E. rewrite E. cbn [rbind]. destruct (summarise_total areas) as (sa & ->); [inversion F; discriminate|]. cbn [rbind]. destruct (summarise_total (concat edges)) as (se & ->); [|cbn [rbind]; eauto].
  inversion Fe as [|x y l l' H _]; subst. destruct H as (i & j & k & r0 & p & q & s & _ & _ & _ & _ & ->). discriminate.
Qed.
Lemma stats_volume vs e0 r : length e0 = 4%nat -> (exists vols, Forall2 (has_volume vs) (e0 :: r) vols) -> exists s, mesh_stats vs (e0 :: r) = Ok s.
Proof.
  intros L (vols & F). unfold mesh_stats. cbn [at_index nth_error rbind]. rewrite L. cbn [Nat.eqb]. pose proof F as A. apply volumes_spec in A. rewrite A. cbn [rbind]. destruct (summarise_total vols) as (sa & ->); [inversion F; discriminate|]. cbn [rbind]. eauto.
Qed.
Lemma mapM_err {A B} (f : A -> result B) (e : pyerr) l : (forall x e', In x l -> f x = Err e' -> e' = e) -> (exists r, mapM f l = Ok r) \/ mapM f l = Err e.
Proof.
  induction l as [|x l IH]; intros H; [left; eexists; reflexivity|]. cbn [mapM]. destruct (f x) as [y|e'] eqn:E; cbn [rbind]; [|right; f_equal; apply (H x); auto; left; auto]. destruct IH as [(r & Er)|Er]; [intros; eapply H; eauto; right; auto|rewrite Er; left; cbn [rbind]; eauto|rewrite Er; right; auto].
Qed.
Lemma edges_err vs f e : face_edges vs f = Err e -> e = IndexError.
Proof.
  unfold face_edges, at_index. intros H. destruct f as [|i [|j [|k r]]]; cbn [nth_error rbind] in H; try (injection H; auto; fail); destruct (nth_error vs i) as [p|] eqn:E1; cbn [rbind] in H; try (injection H; auto; fail); destruct (nth_error vs j) as [q|] eqn:E2; cbn [rbind] in H; try (injection H; auto; fail).
  destruct (nth_error vs k) as [s|] eqn:E3; cbn [rbind] in H; [discriminate|injection H; auto].
Qed.
Lemma volume_err vs f e : element_volume vs f = Err e -> e = IndexError.
Proof.
  unfold element_volume. destruct (four_points vs f) as [q|e'] eqn:E; cbn [rbind].
  - destruct q as [|a [|b [|c [|d [|x q]]]]]; intros H; try (injection H; auto); discriminate.
  - intros H. injection H as <-. unfold four_points in E. destruct (mapM_err (fun k => do i <- at_index f k; at_index vs i) IndexError (seq 0 4)) as [(r & X)|X]; [|rewrite X in E; discriminate|rewrite X in E; injection E; auto].
    intros k e'' _ H. unfold at_index in H. destruct (nth_error f k) as [i|]; cbn [rbind] in H; [|injection H; auto]. destruct (nth_error vs i); [discriminate|injection H; auto].
Qed.
Lemma stats_fail vs els : (forall s, mesh_stats vs els <> Ok s) -> mesh_stats vs els = Err IndexError.
Proof.
  intros N. destruct (mesh_stats vs els) as [s|e] eqn:H; [exfalso; apply (N s); auto|]. f_equal. revert H. clear N. unfold mesh_stats. destruct els as [|e0 r]; [intros H; cbn in H; injection H; auto|]. cbn [at_index nth_error rbind]. destruct (length e0 =? 3)%nat; [|destruct (length e0 =? 4)%nat; [|discriminate]].
  - destruct (mapM_err (face_area vs) IndexError (e0 :: r)) as [(areas & A)|A]; [intros; eapply face_area_err; eauto| |rewrite A; intros H; injection H; auto]. rewrite A. cbn [rbind]. destruct (mapM_err (face_edges vs) IndexError (e0 :: r)) as [(edges & E)|E]; [intros; eapply edges_err; eauto| |rewrite E; intros H; injection H; auto]. rewrite E. cbn [rbind].
    apply areas_spec in A. apply edges_spec in E. destruct (summarise_total areas) as (sa & ->); [inversion A; discriminate|]. cbn [rbind]. destruct (summarise_total (concat edges)) as (se & ->); [|cbn [rbind]; discriminate].
    inversion E as [|x y l l' H _]; subst. destruct H as (i & j & k & r0 & p & q & s & _ & _ & _ & _ & ->). discriminate.
  - destruct (mapM_err (element_volume vs) IndexError (e0 :: r)) as [(vols & A)|A]; [intros; eapply volume_err; eauto| |rewrite A; intros H; injection H; auto]. rewrite A. cbn [rbind]. apply volumes_spec in A. destruct (summarise_total vols) as (sa & ->); [inversion A; discriminate|]. discriminate.
Qed.
