(** Proofs about the voxel grid and the target search. *)
From Coq Require Import Reals ZArith List Bool Arith Lia Lra Psatz.
From Verif Require Import Prelude MeshModel VecModel VecProofs SimModel VoxModel VoxSpec.
Import ListNotations.
Local Open Scope R_scope.

Lemma floor_spec x : IZR (floor x) <= x < IZR (floor x) + 1.
Proof. unfold floor. destruct (base_Int_part x). lra. Qed.
Lemma floor_unique x k : IZR k <= x < IZR k + 1 -> floor x = k.
Proof.
  intros H. pose proof (floor_spec x) as F.
  assert (floor x < k + 1)%Z by (apply lt_IZR; rewrite plus_IZR; lra).
  assert (k < floor x + 1)%Z by (apply lt_IZR; rewrite plus_IZR; lra). lia.
Qed.
Lemma ceil_spec x : IZR (ceil x) - 1 < x <= IZR (ceil x).
Proof. unfold ceil. pose proof (floor_spec (- x)). rewrite opp_IZR. lra. Qed.

Lemma cell_spec s x : 0 < s -> IZR (cell_of s x) * s <= x < (IZR (cell_of s x) + 1) * s.
Proof.
  intros S. unfold cell_of. pose proof (floor_spec (x / s)) as (A & B). assert (X : x = x / s * s) by (field; lra).
  split; [rewrite X at 2; apply Rmult_le_compat_r; lra|rewrite X at 1; apply Rmult_lt_compat_r; lra].
Qed.
Lemma cell_unique s x k : 0 < s -> IZR k * s <= x < (IZR k + 1) * s -> cell_of s x = k.
Proof.
  intros S H. apply floor_unique. assert (X : x = x / s * s) by (field; lra). split.
  - apply Rmult_le_reg_r with s; auto. lra.
  - apply Rmult_lt_reg_r with s; auto. lra.
Qed.
Lemma key_spec s p key : 0 < s -> in_cell s key p <-> key_of s p = key.
Proof.
  intros S. destruct key as ((x, y), z). unfold in_cell, key_of. split.
  - intros (A & B & C). rewrite (cell_unique s (vx p) x), (cell_unique s (vy p) y), (cell_unique s (vz p) z); auto.
  - intros E. inversion E; subst. repeat split; apply cell_spec; auto.
Qed.

(** Consecutive cells along an axis. *)
Lemma cell_shift s x i : 0 < s -> cell_of s (x + INR i * s) = (cell_of s x + Z.of_nat i)%Z.
Proof.
  intros S. apply cell_unique; auto. rewrite plus_IZR, <- INR_IZR_INZ. pose proof (cell_spec s x S). nra.
Qed.
Lemma arange_cells mn mx s e k : 0 < s -> 0 <= e ->
  (In k (map (cell_of s) (arange (mn - e) (mx + e + s + e) s)) <->
   (cell_of s (mn - e) <= k < cell_of s (mn - e) + ceil ((mx - mn + 3 * e) / s + 1))%Z).
Proof.
  intros S E. unfold arange. rewrite map_map.
  replace ((mx + e + s + e - (mn - e)) / s) with ((mx - mn + 3 * e) / s + 1) by (field; lra).
  set (c := ceil _). rewrite in_map_iff. split.
  - intros (i & <- & I). apply in_seq in I. rewrite cell_shift by auto. lia.
  - intros H. exists (Z.to_nat (k - cell_of s (mn - e))). rewrite cell_shift by auto. split; [lia|]. apply in_seq. lia.
Qed.
Lemma axis_covered mn mx s e q : 0 < s -> 0 <= e -> mn - e <= q <= mx + 2 * e -> In (cell_of s q) (map (cell_of s) (arange (mn - e) (mx + e + s + e) s)).
Proof.
  intros S E (A & B). apply arange_cells; auto. set (k0 := cell_of s (mn - e)).
  pose proof (cell_spec s (mn - e) S) as (C1 & C2). fold k0 in C1, C2. pose proof (cell_spec s q S) as (D1 & D2).
  pose proof (ceil_spec ((mx - mn + 3 * e) / s + 1)) as (_ & F). set (c := ceil ((mx - mn + 3 * e) / s + 1)) in *.
  assert (G : (mx - mn + 3 * e) + s <= IZR c * s).
  { apply Rmult_le_compat_r with (r := s) in F; [|lra]. replace (((mx - mn + 3 * e) / s + 1) * s) with ((mx - mn + 3 * e) + s) in F by (field; lra). auto. }
  split.
  - apply Z.lt_succ_r. apply lt_IZR. rewrite succ_IZR. apply Rmult_lt_reg_r with s; auto. lra.
  - apply lt_IZR. rewrite plus_IZR. apply Rmult_lt_reg_r with s; auto. nra.
Qed.
Lemma grid_keys_in mn mx s e kx ky kz : In (kx, ky, kz) (grid_keys mn mx s e) <->
  In kx (map (cell_of s) (arange (vx mn - e) (vx mx + e + s + e) s)) /\
  In ky (map (cell_of s) (arange (vy mn - e) (vy mx + e + s + e) s)) /\
  In kz (map (cell_of s) (arange (vz mn - e) (vz mx + e + s + e) s)).
Proof.
  unfold grid_keys. cbn [vx vy vz]. rewrite in_flat_map. split.
  - intros (x & Ix & I). apply in_flat_map in I. destruct I as (y & Iy & I). apply in_map_iff in I. destruct I as (z & E & Iz).
    inversion E; subst. repeat split; apply in_map; auto.
  - intros (X & Y & Z). apply in_map_iff in X, Y, Z. destruct X as (x & <- & Ix), Y as (y & <- & Iy), Z as (z & <- & Iz).
    exists x. split; auto. apply in_flat_map. exists y. split; auto. apply in_map_iff. exists z. auto.
Qed.
Lemma box_covered mn mx s e q : 0 < s -> 0 <= e -> in_box mn mx q -> In (key_of s q) (grid_keys mn mx s e).
Proof. intros S E (A & B & C). unfold key_of. apply grid_keys_in. repeat split; apply axis_covered; auto; lra. Qed.

(** Cells that miss a polygon. *)
Lemma off_axis_spec c pts lo hi : off_axis c pts lo hi = true <-> (forall p, In p pts -> c p < lo) \/ (forall p, In p pts -> hi < c p).
Proof.
  unfold off_axis. rewrite orb_true_iff, !forallb_forall. split; intros [H|H]; [left|right|left|right]; intros p I; specialize (H p I); apply Rltb_true; auto.
Qed.
Lemma off_cell_spec key s pts : off_cell key s pts = true <-> misses s key pts.
Proof.
  destruct key as ((x, y), z). unfold off_cell, misses. rewrite !orb_true_iff, !off_axis_spec.
  replace ((IZR x + 1) * s) with (IZR x * s + s) by ring. replace ((IZR y + 1) * s) with (IZR y * s + s) by ring. replace ((IZR z + 1) * s) with (IZR z * s + s) by ring. tauto.
Qed.
Lemma cell_polys_spec key s polys pn : In pn (cell_polys key s polys) <-> exists pts, nth_error polys pn = Some pts /\ ~ misses s key pts.
Proof.
  unfold cell_polys. rewrite filter_In, in_seq. split.
  - intros (I & B). destruct (nth_error polys pn) as [pts|] eqn:E; [|apply nth_error_None in E; lia]. exists pts. split; auto.
    rewrite (nth_error_nth _ _ _ E) in B. intros M. apply off_cell_spec in M. rewrite M in B. discriminate.
  - intros (pts & E & M). assert (pn < length polys)%nat by (apply nth_error_Some; congruence). split; [lia|].
    rewrite (nth_error_nth _ _ _ E). destruct (off_cell key s pts) eqn:B; auto. apply off_cell_spec in B. contradiction.
Qed.

(** Convex combinations. *)
Lemma hull_bound (f : vec -> R) pts ws lo : length ws = length pts -> (forall w, In w ws -> 0 <= w) -> (forall p, In p pts -> lo <= f p) ->
  lo * Rsum ws <= Rsum (map (fun wp => fst wp * f (snd wp)) (combine ws pts)).
Proof.
  revert ws. induction pts as [|p pts IH]; intros [|w ws] L W P; try discriminate; cbn [combine map]; [unfold Rsum; simpl; lra|].
  rewrite !Rsum_cons. cbn [fst snd]. simpl in L. specialize (IH ws ltac:(lia) ltac:(intros; apply W; right; auto) ltac:(intros; apply P; right; auto)).
  pose proof (W w (or_introl eq_refl)). pose proof (P p (or_introl eq_refl)). nra.
Qed.
Lemma hull_some_ge (f : vec -> R) pts ws q : length ws = length pts -> (forall w, In w ws -> 0 <= w) -> Rsum ws = 1 ->
  q = Rsum (map (fun wp => fst wp * f (snd wp)) (combine ws pts)) -> exists p, In p pts /\ f p <= q.
Proof.
  intros L W S ->. 
  (* minimum of f over pts *)
  assert (N : pts <> []) by (intros ->; destruct ws; [simpl in S; lra|discriminate]).
  assert (M : exists p, In p pts /\ forall p', In p' pts -> f p <= f p').
  { clear - N. induction pts as [|a pts IH]; [congruence|]. destruct pts as [|b pts].
    - exists a. split; [left; auto|]. intros p' [<-|[]]. lra.
    - destruct IH as (p & I & H); [discriminate|]. destruct (Rle_dec (f a) (f p)).
      + exists a. split; [left; auto|]. intros p' [<-|I']; [lra|]. specialize (H p' I'). lra.
      + exists p. split; [right; auto|]. intros p' [<-|I']; [lra|auto]. }
  destruct M as (p & I & H). exists p. split; auto. pose proof (hull_bound f pts ws (f p) L W H) as B. rewrite S in B. lra.
Qed.
Lemma hull_some_le (f : vec -> R) pts ws q : length ws = length pts -> (forall w, In w ws -> 0 <= w) -> Rsum ws = 1 ->
  q = Rsum (map (fun wp => fst wp * f (snd wp)) (combine ws pts)) -> exists p, In p pts /\ q <= f p.
Proof.
  intros L W S E. destruct (hull_some_ge (fun p => - f p) pts ws (- q) L W S) as (p & I & H).
  - rewrite E. clear. revert pts. induction ws as [|w ws IH]; intros [|p pts]; cbn [combine map]; try (unfold Rsum; simpl; ring).
    rewrite !Rsum_cons, <- IH. cbn [fst snd]. ring.
  - exists p. split; auto. lra.
Qed.
Lemma hull_not_off (f : vec -> R) pts ws q lo hi : length ws = length pts -> (forall w, In w ws -> 0 <= w) -> Rsum ws = 1 ->
  q = Rsum (map (fun wp => fst wp * f (snd wp)) (combine ws pts)) -> lo <= q <= hi ->
  ~ ((forall p, In p pts -> f p < lo) \/ (forall p, In p pts -> hi < f p)).
Proof.
  intros L W S E B [H|H].
  - destruct (hull_some_le f pts ws q L W S E) as (p & I & H1). specialize (H p I). lra.
  - destruct (hull_some_ge f pts ws q L W S E) as (p & I & H1). specialize (H p I). lra.
Qed.
Lemma hull_cell s key pts q : in_hull pts q -> in_cell s key q -> ~ misses s key pts.
Proof.
  intros (ws & L & W & S & E) C. destruct key as ((x, y), z). destruct C as (Cx & Cy & Cz). unfold misses.
  assert (Ex : vx q = Rsum (map (fun wp => fst wp * vx (snd wp)) (combine ws pts))) by (rewrite E; reflexivity).
  assert (Ey : vy q = Rsum (map (fun wp => fst wp * vy (snd wp)) (combine ws pts))) by (rewrite E; reflexivity).
  assert (Ez : vz q = Rsum (map (fun wp => fst wp * vz (snd wp)) (combine ws pts))) by (rewrite E; reflexivity).
  pose proof (hull_not_off vx pts ws _ _ ((IZR x + 1) * s) L W S Ex (conj (proj1 Cx) (Rlt_le _ _ (proj2 Cx)))).
  pose proof (hull_not_off vy pts ws _ _ ((IZR y + 1) * s) L W S Ey (conj (proj1 Cy) (Rlt_le _ _ (proj2 Cy)))).
  pose proof (hull_not_off vz pts ws _ _ ((IZR z + 1) * s) L W S Ez (conj (proj1 Cz) (Rlt_le _ _ (proj2 Cz)))).
  tauto.
Qed.
Lemma hull_box mn mx pts q : in_hull pts q -> (forall p, In p pts -> in_box mn mx p) -> in_box mn mx q.
Proof.
  intros (ws & L & W & S & E) B.
  assert (X : forall (f : vec -> R) lo hi, (forall p, In p pts -> lo <= f p <= hi) -> lo <= Rsum (map (fun wp => fst wp * f (snd wp)) (combine ws pts)) <= hi).
  { intros f lo hi H. destruct (hull_some_ge f pts ws _ L W S eq_refl) as (p & I & H1). destruct (hull_some_le f pts ws _ L W S eq_refl) as (p' & I' & H1').
    pose proof (hull_bound f pts ws lo L W ltac:(intros; apply H; auto)).
    pose proof (H _ I). pose proof (H _ I'). rewrite S in *. split; lra. }
  rewrite E. unfold in_box. cbn [vx vy vz]. split; [|split]; apply X; intros p I; apply B; auto.
Qed.
Lemma vertex_in_hull pts p : In p pts -> in_hull pts p.
Proof.
  intros I. apply in_split in I. destruct I as (a & b & ->). exists (repeat 0 (length a) ++ 1 :: repeat 0 (length b)).
  assert (Z : forall (f : vec -> R) l, Rsum (map (fun wp => fst wp * f (snd wp)) (combine (repeat 0 (length l)) l)) = 0).
  { induction l as [|x l IH]; [reflexivity|]. cbn [length repeat combine map]. rewrite Rsum_cons, IH. cbn [fst snd]. ring. }
  assert (Y : forall (f : vec -> R), Rsum (map (fun wp => fst wp * f (snd wp)) (combine (repeat 0 (length a) ++ 1 :: repeat 0 (length b)) (a ++ p :: b))) = f p).
  { intros f. induction a as [|x a IH].
    - cbn [length repeat app combine map]. rewrite Rsum_cons, Z. cbn [fst snd]. ring.
    - cbn [length repeat app combine map]. rewrite Rsum_cons, IH. cbn [fst snd]. ring. }
  split; [rewrite !app_length; cbn [length]; rewrite !repeat_length; auto|]. split.
  - intros w J. apply in_app_or in J. destruct J as [J|[<-|J]]; [apply repeat_spec in J; lra|lra|apply repeat_spec in J; lra].
  - split.
    + rewrite Rsum_app, Rsum_cons. assert (X : forall n, Rsum (repeat 0 n) = 0) by (induction n; [reflexivity|]; cbn [repeat]; rewrite Rsum_cons, IHn; ring). rewrite !X. ring.
    + rewrite (Y vx), (Y vy), (Y vz). destruct p; reflexivity.
Qed.

(** The grid. *)
Lemma grid_fold s polys keys : forall g key,
  dget (fold_left (fun g key => dset g key (cell_polys key s polys)) keys g) key =
  if memb key keys then Some (cell_polys key s polys) else dget g key.
Proof.
  induction keys as [|k keys IH]; intros g key; [reflexivity|]. cbn [fold_left]. rewrite IH.
  change (memb key (k :: keys)) with (eqb key k || memb key keys)%bool. destruct (memb key keys) eqn:M; [rewrite orb_true_r; auto|]. rewrite orb_false_r.
  destruct (eqb key k) eqn:E.
  - rewrite eqb_true in E. subst. rewrite dget_dset_same. auto.
  - apply eqb_false in E. rewrite dget_dset_other; auto.
Qed.
Lemma grid_ok mn mx polys s e grid : make_voxel_grid mn mx polys s e = Ok grid ->
  forall key, dget grid key = if memb key (grid_keys mn mx s e) then Some (cell_polys key s polys) else None.
Proof.
  unfold make_voxel_grid. destruct (forallb _ _); [|discriminate]. intros E key. inversion E. rewrite grid_fold. reflexivity.
Qed.
Lemma grid_err mn mx polys s e : make_voxel_grid mn mx polys s e = Err ValueError <->
  exists pn pts, nth_error polys pn = Some pts /\ forall key, In key (grid_keys mn mx s e) -> misses s key pts.
Proof.
  unfold make_voxel_grid. destruct (forallb _ _) eqn:F.
  - split; [discriminate|]. intros (pn & pts & Ep & H). exfalso. rewrite forallb_forall in F.
    assert (L : (pn < length polys)%nat) by (apply nth_error_Some; congruence).
    specialize (F pn ltac:(apply in_seq; lia)). apply existsb_exists in F. destruct F as (key & Ik & M). apply memb_true in M.
    apply cell_polys_spec in M. destruct M as (pts' & Ep' & NM). rewrite Ep in Ep'. inversion Ep'; subst. apply NM, H. auto.
  - split; [intros _|auto].
    assert (X : exists pn, In pn (seq 0 (length polys)) /\ existsb (fun key => memb pn (cell_polys key s polys)) (grid_keys mn mx s e) = false).
    { clear - F. induction (seq 0 (length polys)) as [|a l IH]; [discriminate|]. cbn [forallb] in F. apply andb_false_iff in F. destruct F as [F|F].
      - exists a. split; [left; auto|auto].
      - destruct (IH F) as (pn & I & H). exists pn. split; [right; auto|auto]. }
    destruct X as (pn & I & H). apply in_seq in I. destruct (nth_error polys pn) as [pts|] eqn:Ep; [|apply nth_error_None in Ep; lia].
    exists pn, pts. split; auto. intros key Ik. apply off_cell_spec. destruct (off_cell key s pts) eqn:O; auto. exfalso.
    assert (T : existsb (fun key => memb pn (cell_polys key s polys)) (grid_keys mn mx s e) = true).
    { apply existsb_exists. exists key. split; auto. apply memb_true. apply cell_polys_spec. exists pts. split; auto.
      intros M. apply off_cell_spec in M. congruence. }
    congruence.
Qed.
Lemma grid_result mn mx polys s e : (exists g, make_voxel_grid mn mx polys s e = Ok g) \/ make_voxel_grid mn mx polys s e = Err ValueError.
Proof. unfold make_voxel_grid. destruct (forallb _ _); eauto. Qed.

Lemma grid_complete mn mx polys s e : 0 < s -> 0 <= e ->
  (forall pts, In pts polys -> pts <> [] /\ forall p, In p pts -> in_box mn mx p) ->
  exists grid, make_voxel_grid mn mx polys s e = Ok grid /\
    forall pn pts q, nth_error polys pn = Some pts -> in_hull pts q ->
      forall key, in_cell s key q -> exists l, dget grid key = Some l /\ In pn l.
Proof.
  intros S E B. destruct (grid_result mn mx polys s e) as [(g & G)|G].
  - exists g. split; auto. intros pn pts q Ep H key C. rewrite (grid_ok _ _ _ _ _ _ G).
    assert (I : In key (grid_keys mn mx s e)).
    { apply (key_spec s q key S) in C. subst key. apply box_covered; auto. apply (hull_box mn mx pts); auto. intros p Ip. apply (B pts); auto. eapply nth_error_In; eauto. }
    apply memb_true in I. rewrite I. eexists. split; eauto. apply cell_polys_spec. exists pts. split; auto. eapply hull_cell; eauto.
  - exfalso. apply grid_err in G. destruct G as (pn & pts & Ep & H). destruct (B pts) as (N & Bp); [eapply nth_error_In; eauto|].
    destruct pts as [|p pts]; [congruence|]. specialize (H (key_of s p)).
    apply (hull_cell s (key_of s p) (p :: pts) p).
    + apply vertex_in_hull. left. auto.
    + apply key_spec; auto.
    + apply H. apply box_covered; auto. apply Bp. left. auto.
Qed.

(** Nearby. *)
Lemma set_add_in l : forall s x, In x (fold_left set_add l s) <-> In x s \/ In x l.
Proof.
  induction l as [|a l IH]; intros s x; cbn [fold_left]; [simpl; tauto|]. rewrite IH. unfold set_add. destruct (memb a s) eqn:M.
  - apply memb_true in M. split; [intros [H|H]; auto; right; right; auto|]. intros [H|[<-|H]]; auto.
  - rewrite in_app_iff. simpl. tauto.
Qed.
Lemma set_add_nodup l : forall s, NoDup s -> NoDup (fold_left set_add l s).
Proof.
  induction l as [|a l IH]; intros s N; cbn [fold_left]; auto. apply IH. unfold set_add. destruct (memb a s) eqn:M; auto.
  apply memb_false in M. apply NoDup_rev in N. rewrite <- rev_involutive. rewrite rev_app_distr. apply NoDup_rev. cbn [rev app]. constructor; auto. rewrite <- in_rev. auto.
Qed.
Lemma near_cell x y : (Z.abs (y - x) <= 1)%Z <-> exists i, In i offsets /\ y = (x + i)%Z.
Proof.
  unfold offsets. split.
  - intros H. exists (y - x)%Z. split; [|lia]. simpl. lia.
  - intros (i & I & ->). simpl in I. lia.
Qed.
Lemma nearby_spec key grid pn : In pn (find_nearby_polygons key grid) <->
  exists key' l, adjacent_cells key key' /\ dget grid key' = Some l /\ In pn l.
Proof.
  destruct key as ((x, y), z). unfold find_nearby_polygons.
  assert (K : forall i j ks s, In pn (fold_left (fun s k => match dget grid (x + i, y + j, z + k)%Z with Some l => fold_left set_add l s | None => s end) ks s) <->
     In pn s \/ exists k l, In k ks /\ dget grid (x + i, y + j, z + k)%Z = Some l /\ In pn l).
  { intros i j ks. induction ks as [|k ks IH]; intros s; cbn [fold_left].
    - split; auto. intros [H|(k & l & [] & _)]; auto.
    - rewrite IH. destruct (dget grid (x + i, y + j, z + k)%Z) as [l|] eqn:D.
      + rewrite set_add_in. split.
        * intros [[H|H]|(k' & l' & I & H)]; auto; right; [exists k, l; simpl; auto|exists k', l'; simpl; tauto].
        * intros [H|(k' & l' & [<-|I] & D' & H)]; auto; [left; right; congruence|right; eauto].
      + split.
        * intros [H|(k' & l' & I & H)]; auto. right. exists k', l'. simpl. tauto.
        * intros [H|(k' & l' & [<-|I] & D' & H)]; auto; [congruence|right; eauto]. }
  assert (J : forall i js s, In pn (fold_left (fun s j => fold_left (fun s k => match dget grid (x + i, y + j, z + k)%Z with Some l => fold_left set_add l s | None => s end) offsets s) js s) <->
     In pn s \/ exists j k l, In j js /\ In k offsets /\ dget grid (x + i, y + j, z + k)%Z = Some l /\ In pn l).
  { intros i js. induction js as [|j js IH]; intros s; cbn [fold_left].
    - split; auto. intros [H|(j & k & l & [] & _)]; auto.
    - rewrite IH, K. split.
      + intros [[H|(k & l & H)]|(j' & k & l & I & H)]; auto; right; [exists j, k, l; simpl; tauto|exists j', k, l; simpl; tauto].
      + intros [H|(j' & k & l & [<-|I] & H)]; auto; [left; right; exists k, l; tauto|right; exists j', k, l; tauto]. }
  assert (I : forall is s, In pn (fold_left (fun s i => fold_left (fun s j => fold_left (fun s k => match dget grid (x + i, y + j, z + k)%Z with Some l => fold_left set_add l s | None => s end) offsets s) offsets s) is s) <->
     In pn s \/ exists i j k l, In i is /\ In j offsets /\ In k offsets /\ dget grid (x + i, y + j, z + k)%Z = Some l /\ In pn l).
  { intros is. induction is as [|i is IH]; intros s; cbn [fold_left].
    - split; auto. intros [H|(i & j & k & l & [] & _)]; auto.
    - rewrite IH, J. split.
      + intros [[H|(j & k & l & H)]|(i' & j & k & l & I & H)]; auto; right; [exists i, j, k, l; simpl; tauto|exists i', j, k, l; simpl; tauto].
      + intros [H|(i' & j & k & l & [<-|I] & H)]; auto; [left; right; exists j, k, l; tauto|right; exists i', j, k, l; tauto]. }
  rewrite I. split.
  - intros [[]|(i & j & k & l & Ii & Ij & Ik & D & H)]. exists (x + i, y + j, z + k)%Z, l. split; auto.
    unfold adjacent_cells. rewrite !near_cell. repeat split; eauto.
  - intros (((x', y'), z') & l & (A & B & C) & D & H). rewrite near_cell in A, B, C. destruct A as (i & Ii & ->), B as (j & Ij & ->), C as (k & Ik & ->).
    right. exists i, j, k, l. tauto.
Qed.
Lemma nearby_nodup key grid : NoDup (find_nearby_polygons key grid).
Proof.
  destruct key as ((x, y), z). unfold find_nearby_polygons.
  assert (X : forall (A : Type) (f : list nat -> A -> list nat) l, (forall s a, NoDup s -> NoDup (f s a)) -> forall s, NoDup s -> NoDup (fold_left f l s)).
  { intros A f l H. induction l; intros s N; cbn [fold_left]; auto. }
  apply X; [|constructor]. intros s i N. apply X; auto. intros s' j N'. apply X; auto. intros s'' k N''.
  destruct (dget _ _); auto. apply set_add_nodup. auto.
Qed.
Lemma near_adjacent s p q key key' : 0 < s -> near s p q -> in_cell s key p -> in_cell s key' q -> adjacent_cells key key'.
Proof.
  destruct key as ((x, y), z), key' as ((x', y'), z'). intros S (A & B & C) (P1 & P2 & P3) (Q1 & Q2 & Q3).
  assert (X : forall a b p q, IZR a * s <= p < (IZR a + 1) * s -> IZR b * s <= q < (IZR b + 1) * s -> Rabs (q - p) <= s -> (Z.abs (b - a) <= 1)%Z).
  { clear - S. intros a b p q P Q D. assert (D' : - s <= q - p <= s) by (unfold Rabs in D; destruct (Rcase_abs (q - p)); lra).
    assert (b - a < 2)%Z by (apply lt_IZR; rewrite minus_IZR; apply Rmult_lt_reg_r with s; auto; lra).
    assert (-2 < b - a)%Z by (apply lt_IZR; rewrite minus_IZR; apply Rmult_lt_reg_r with s; auto; lra). lia. }
  repeat split; eapply X; eauto.
Qed.
Lemma nearby_complete mn mx polys s e grid p pn pts q : 0 < s -> 0 <= e ->
  (forall pts, In pts polys -> pts <> [] /\ forall p, In p pts -> in_box mn mx p) ->
  make_voxel_grid mn mx polys s e = Ok grid ->
  nth_error polys pn = Some pts -> in_hull pts q -> near s p q ->
  In pn (find_nearby_polygons (key_of s p) grid).
Proof.
  intros S E B G Ep H N. destruct (grid_complete mn mx polys s e S E B) as (g & G' & C). rewrite G in G'. inversion G'; subst g.
  destruct (C pn pts q Ep H (key_of s q)) as (l & D & I); [apply key_spec; auto|].
  apply nearby_spec. exists (key_of s q), l. split; auto. eapply near_adjacent; eauto; apply key_spec; auto.
Qed.
Lemma norm_near d p q : norm (vsub q p) <= d -> near d p q.
Proof.
  intros H. unfold near. assert (X : forall c, 0 <= c * c <= dot (vsub q p) (vsub q p) -> Rabs c <= d).
  { intros c (_ & C). apply Rle_trans with (norm (vsub q p)); auto. unfold norm. rewrite <- (sqrt_Rsqr_abs c). apply sqrt_le_1_alt. exact C. }
  destruct p as (a, b, c), q as (a', b', c'). unfold dot, vsub in *. cbn [vx vy vz] in *. pose proof (Rle_0_sqr (a' - a)); pose proof (Rle_0_sqr (b' - b)); pose proof (Rle_0_sqr (c' - c)); unfold Rsqr in *. split; [|split]; apply X; lra.
Qed.

(** The target search. *)
Lemma target_fold (hit : nat -> bool) (dist : nat -> R) (transparent order : list nat) : forall (cands : dict nat R) (best : option nat),
  (forall pn, dget cands pn = None \/ dget cands pn = Some (dist pn)) ->
  match best with Some b => dget cands b <> None | None => True end ->
  (forall b, best = Some b -> forall pn, dget cands pn <> None -> dist b <= dist pn) ->
  (best = None -> forall pn, dget cands pn = None) ->
  exists (cands' : dict nat R) (best' : option nat),
    foldM (fun (st : dict nat R * option nat) pn =>
            let (cands, best) := st in
            if memb pn transparent then Ok st
            else if hit pn then
              let d := dist pn in
              let cands1 := dset cands pn d in
              let b := match best with None => pn | Some b => b end in
              do db <- dlookup cands1 b;
              Ok (cands1, Some (if Rltb d db then pn else b))
            else Ok st) order (cands, best) = Ok (cands', best') /\
    (forall pn, dget cands' pn <> None <-> dget cands pn <> None \/ candidate hit transparent order pn) /\
    match best' with
    | Some b => dget cands' b <> None /\ forall pn, dget cands' pn <> None -> dist b <= dist pn
    | None => forall pn, dget cands' pn = None
    end.
Proof.
  induction order as [|pn order IH]; intros cands best H1 H2 H3 H4.
  - exists cands, best. split; [reflexivity|]. split.
    + intros pn. unfold candidate. simpl. tauto.
    + destruct best; auto.
  - cbn [foldM].
    assert (Skip : (exists (cands' : dict nat R) (best' : option nat), foldM (fun (st : dict nat R * option nat) pn =>
            let (cands, best) := st in
            if memb pn transparent then Ok st
            else if hit pn then
              let d := dist pn in
              let cands1 := dset cands pn d in
              let b := match best with None => pn | Some b => b end in
              do db <- dlookup cands1 b;
              Ok (cands1, Some (if Rltb d db then pn else b))
            else Ok st) order (cands, best) = Ok (cands', best') /\
    (forall pn, dget cands' pn <> None <-> dget cands pn <> None \/ candidate hit transparent order pn) /\
    match best' with
    | Some b => dget cands' b <> None /\ forall pn, dget cands' pn <> None -> dist b <= dist pn
    | None => forall pn, dget cands' pn = None
    end)) by (apply IH; auto).
    destruct (memb pn transparent) eqn:M.
    { cbn [rbind]. destruct Skip as (c' & b' & E & D & Mn). exists c', b'. split; [exact E|]. split; auto. intros x. rewrite D. unfold candidate. apply memb_true in M. simpl.
      split; intros [H|H]; auto; right; [tauto|]. destruct H as ([<-|I] & NT & Hx); tauto. }
    destruct (hit pn) eqn:Hp.
    2: { cbn [rbind]. destruct Skip as (c' & b' & E & D & Mn). exists c', b'. split; [exact E|]. split; auto. intros x. rewrite D. unfold candidate. simpl.
      split; intros [H|H]; auto; right; [tauto|]. destruct H as ([<-|I] & NT & Hx); [congruence|tauto]. }
    clear Skip. set (b := match best with None => pn | Some b => b end). set (cands1 := dset cands pn (dist pn)).
    assert (C1 : forall x, dget cands1 x = None \/ dget cands1 x = Some (dist x)).
    { intros x. unfold cands1. destruct (Nat.eq_dec x pn) as [->|Ne]; [rewrite dget_dset_same; auto|rewrite dget_dset_other; auto]. }
    assert (C2 : forall x, dget cands1 x <> None <-> x = pn \/ dget cands x <> None).
    { intros x. unfold cands1. destruct (Nat.eq_dec x pn) as [->|Ne]; [rewrite dget_dset_same; split; auto; discriminate|rewrite dget_dset_other by auto; tauto]. }
    assert (Cb : dget cands1 b = Some (dist b)).
    { destruct (C1 b) as [X|X]; auto. exfalso. apply (proj2 (C2 b)); auto. unfold b. destruct best; auto. }
    unfold dlookup at 1. rewrite Cb. cbn [rbind].
    destruct (IH cands1 (Some (if Rltb (dist pn) (dist b) then pn else b))) as (c' & b' & E & D & Mn); auto.
    + destruct (Rltb _ _); [apply C2; auto|congruence].
    + intros b0 Eb x Hx. inversion Eb; subst b0. clear Eb. apply C2 in Hx. destruct (Rltb (dist pn) (dist b)) eqn:L; rbool.
      * destruct Hx as [->|Hx]; [lra|]. destruct best as [b1|]; [|exfalso; apply Hx, H4; auto]. subst b. specialize (H3 b1 eq_refl x Hx). lra.
      * destruct Hx as [->|Hx]; [lra|]. destruct best as [b1|]; [|exfalso; apply Hx, H4; auto]. subst b. specialize (H3 b1 eq_refl x Hx). lra.
    + discriminate.
    + exists c', b'. split; [exact E|]. split; auto. intros x. rewrite D, C2. unfold candidate. simpl. apply memb_false in M.
      split; [intros [[->|H]|H]; [right; auto|auto|right; tauto]|]. intros [H|([<-|I] & NT & Hx)]; [auto|auto|right; auto].
Qed.
Lemma target_spec (hit : nat -> bool) (dist : nat -> R) (transparent order : list nat) :
  exists t, find_target_surface hit dist transparent order = Ok t /\
    match t with
    | None => forall pn, ~ candidate hit transparent order pn
    | Some b => candidate hit transparent order b /\ forall pn, candidate hit transparent order pn -> dist b <= dist pn
    end.
Proof.
  destruct (target_fold hit dist transparent order [] None) as (c & b & E & D & Mn); auto; try discriminate.
  exists b. split; [unfold find_target_surface; match goal with |- rbind ?x _ = _ => assert (E2 : x = Ok (c, b)) by exact E; rewrite E2 end; reflexivity|]. destruct b as [b|].
  - destruct Mn as (Hb & Mn). apply D in Hb. destruct Hb as [Hb|Hb]; [exfalso; apply Hb; reflexivity|]. split; auto.
    intros pn Hp. apply Mn, D. auto.
  - intros pn Hp. apply (proj2 (D pn)); auto.
Qed.

Lemma sim_target_spec hit dist order_of s grid transparent pos dir :
  (forall l x, In x (order_of l) <-> In x l) ->
  exists t, sim_target hit dist order_of s grid transparent pos dir = Ok t /\
    match t with
    | None => forall pn, ~ candidate (hit pos dir) transparent (find_nearby_polygons (key_of s pos) grid) pn
    | Some b => candidate (hit pos dir) transparent (find_nearby_polygons (key_of s pos) grid) b /\
        forall pn, candidate (hit pos dir) transparent (find_nearby_polygons (key_of s pos) grid) pn -> dist pos b <= dist pos pn
    end.
Proof.
  intros O. unfold sim_target. destruct (target_spec (hit pos dir) (dist pos) transparent (order_of (find_nearby_polygons (key_of s pos) grid))) as (t & E & H).
  exists t. split; auto. unfold candidate in *. destruct t as [b|].
  - destruct H as (Hb & H). rewrite O in Hb. split; auto. intros pn Hp. apply H. rewrite O. auto.
  - intros pn Hp. apply (H pn). rewrite O. auto.
Qed.
Lemma no_wall_missed hit dist order_of mn mx polys s e grid transparent pos dir pn pts q :
  (forall l x, In x (order_of l) <-> In x l) -> 0 < s -> 0 <= e ->
  (forall pts, In pts polys -> pts <> [] /\ forall p, In p pts -> in_box mn mx p) ->
  make_voxel_grid mn mx polys s e = Ok grid ->
  nth_error polys pn = Some pts -> in_hull pts q -> norm (vsub q pos) <= s -> ~ In pn transparent -> hit pos dir pn = true ->
  exists b, sim_target hit dist order_of s grid transparent pos dir = Ok (Some b) /\ dist pos b <= dist pos pn.
Proof.
  intros O S E B G Ep H N NT Hit. destruct (sim_target_spec hit dist order_of s grid transparent pos dir O) as (t & Et & T).
  assert (C : candidate (hit pos dir) transparent (find_nearby_polygons (key_of s pos) grid) pn).
  { split; [|auto]. eapply nearby_complete; eauto. apply norm_near. auto. }
  destruct t as [b|]; [exists b; split; auto; apply T; auto|]. exfalso. apply (T pn). auto.
Qed.

(** Every listed polygon overlaps the cell. *)
Lemma grid_exact mn mx polys s e grid : make_voxel_grid mn mx polys s e = Ok grid ->
  forall key l, dget grid key = Some l -> forall pn, In pn l <-> exists pts, nth_error polys pn = Some pts /\ ~ misses s key pts.
Proof.
  intros G key l D pn. rewrite (grid_ok _ _ _ _ _ _ G) in D. destruct (memb key (grid_keys mn mx s e)); [|discriminate]. inversion D; subst. apply cell_polys_spec.
Qed.
(** Polygons far outside the box (or without vertices) are reported. *)
Lemma grid_outside mn mx polys s e pn pts : 0 < s -> 0 <= e -> nth_error polys pn = Some pts ->
  (exists c, In c [vx; vy; vz] /\
    ((forall p, In p pts -> c p < c mn - e - s) \/ (forall p, In p pts -> c mx + 2 * e + 2 * s < c p))) ->
  make_voxel_grid mn mx polys s e = Err ValueError.
Proof.
  intros S E Ep (c & Ic & H). apply grid_err. exists pn, pts. split; auto. intros ((kx, ky), kz) I. apply grid_keys_in in I. destruct I as (Ix & Iy & Iz).
  apply arange_cells in Ix; auto. apply arange_cells in Iy; auto. apply arange_cells in Iz; auto.
  assert (X : forall (c : vec -> R) (k : Z), (cell_of s (c mn - e) <= k < cell_of s (c mn - e) + ceil ((c mx - c mn + 3 * e) / s + 1))%Z ->
    ((forall p, In p pts -> c p < c mn - e - s) \/ (forall p, In p pts -> c mx + 2 * e + 2 * s < c p)) ->
    (forall p, In p pts -> c p < IZR k * s) \/ (forall p, In p pts -> (IZR k + 1) * s < c p)).
  { clear - S E. intros c k (K1 & K2) H. pose proof (cell_spec s (c mn - e) S) as (A & B).
    pose proof (ceil_spec ((c mx - c mn + 3 * e) / s + 1)) as (F & _). set (k0 := cell_of s (c mn - e)) in *. set (m := ceil _) in *.
    assert (F' : (IZR m - 1) * s < c mx - c mn + 3 * e + s).
    { replace (c mx - c mn + 3 * e + s) with (((c mx - c mn + 3 * e) / s + 1) * s) by (field; lra). apply Rmult_lt_compat_r; auto. }
    assert (K1' : IZR k0 <= IZR k) by (apply IZR_le; auto).
    assert (K2' : IZR k + 1 <= IZR k0 + IZR m) by (rewrite <- plus_IZR, <- plus_IZR; apply IZR_le; lia).
    destruct H as [H|H]; [left|right]; intros p I; specialize (H p I).
    - apply Rlt_le_trans with (IZR k0 * s); [lra|apply Rmult_le_compat_r; lra].
    - apply Rle_lt_trans with ((IZR k0 + IZR m) * s); [apply Rmult_le_compat_r; lra|]. nra. }
  unfold misses. destruct Ic as [<-|[<-|[<-|[]]]]; [left|right; left|right; right]; apply X; auto.
Qed.
