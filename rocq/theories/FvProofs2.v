(** Proofs for the voxel grid in floating point: the grid. *)
From Coq Require Import Reals List Bool Arith ZArith Lra Lia Psatz.
From Verif Require Import Prelude MeshModel VecModel VecProofs VoxModel VoxSpec VoxProofs EqProofs SimModel FlModel FlSpec FlProofs FvModel FvSpec FvProofs.
Import ListNotations.
Local Open Scope R_scope.

Lemma dict_fold (f : cellkey -> list nat) keys : forall g key,
  dget (fold_left (fun g key => dset g key (f key)) keys g) key = if memb key keys then Some (f key) else dget g key.
Proof.
  induction keys as [|k keys IH]; intros g key; [reflexivity|]. cbn [fold_left]. rewrite IH.
  change (memb key (k :: keys)) with (eqb key k || memb key keys)%bool. destruct (memb key keys) eqn:M; [rewrite orb_true_r; auto|]. rewrite orb_false_r.
  destruct (eqb key k) eqn:E.
  - rewrite eqb_true in E. subst. rewrite dget_dset_same. auto.
  - apply eqb_false in E. rewrite dget_dset_other; auto.
Qed.

(** A cell misses the points along an axis. *)
Definition misses_axis (rnd : R -> R) (s : R) (c : vec -> R) (k : Z) (pts : list vec) : Prop :=
  (forall p, In p pts -> c p < flo rnd s k) \/ (forall p, In p pts -> fhi rnd s k < c p).
Definition fmisses (rnd : R -> R) (s : R) (key : cellkey) (pts : list vec) : Prop :=
  let '(x, y, z) := key in misses_axis rnd s vx x pts \/ misses_axis rnd s vy y pts \/ misses_axis rnd s vz z pts.

Section Grid.
  Context (rnd : R -> R).

  Lemma foff_spec key s pts : foff_cell rnd key s pts = true <-> fmisses rnd s key pts.
  Proof.
    destruct key as ((x, y), z). unfold foff_cell, fmisses, misses_axis. rewrite !orb_true_iff, !off_axis_spec. tauto.
  Qed.
  Lemma fcell_polys_spec key s polys pn : In pn (fcell_polys rnd key s polys) <-> exists pts, nth_error polys pn = Some pts /\ ~ fmisses rnd s key pts.
  Proof.
    unfold fcell_polys. rewrite filter_In, in_seq. split.
    - intros (I & B). destruct (nth_error polys pn) as [pts|] eqn:E; [|apply nth_error_None in E; lia]. exists pts. split; auto.
      rewrite (nth_error_nth _ _ _ E) in B. intros M. apply foff_spec in M. rewrite M in B. discriminate.
    - intros (pts & E & M). assert (pn < length polys)%nat by (apply nth_error_Some; congruence). split; [lia|].
      rewrite (nth_error_nth _ _ _ E). destruct (foff_cell rnd key s pts) eqn:B; auto. apply foff_spec in B. contradiction.
  Qed.
  Lemma fgrid_keys_in mn mx s e kx ky kz : In (kx, ky, kz) (fgrid_keys rnd mn mx s e) <->
    In kx (map (fcell rnd s) (frange rnd (vx mn) (vx mx) s e)) /\
    In ky (map (fcell rnd s) (frange rnd (vy mn) (vy mx) s e)) /\
    In kz (map (fcell rnd s) (frange rnd (vz mn) (vz mx) s e)).
  Proof.
    unfold fgrid_keys. rewrite in_flat_map. split.
    - intros (x & Ix & I). apply in_flat_map in I. destruct I as (y & Iy & I). apply in_map_iff in I. destruct I as (z & E & Iz).
      inversion E; subst. repeat split; apply in_map; auto.
    - intros (X & Y & Z). apply in_map_iff in X, Y, Z. destruct X as (x & <- & Ix), Y as (y & <- & Iy), Z as (z & <- & Iz).
      exists x. split; auto. apply in_flat_map. exists y. split; auto. apply in_map_iff. exists z. auto.
  Qed.
  Lemma fgrid_ok mn mx polys s e grid : fmake_voxel_grid rnd mn mx polys s e = Ok grid ->
    forall key, dget grid key = if memb key (fgrid_keys rnd mn mx s e) then Some (fcell_polys rnd key s polys) else None.
  Proof.
    unfold fmake_voxel_grid. destruct (forallb _ _); [|discriminate]. intros E key. inversion E. rewrite (dict_fold (fun key => fcell_polys rnd key s polys)). reflexivity.
  Qed.
  Lemma fgrid_err mn mx polys s e : fmake_voxel_grid rnd mn mx polys s e = Err ValueError <->
    exists pn pts, nth_error polys pn = Some pts /\ forall key, In key (fgrid_keys rnd mn mx s e) -> fmisses rnd s key pts.
  Proof.
    unfold fmake_voxel_grid. destruct (forallb _ _) eqn:F.
    - split; [discriminate|]. intros (pn & pts & Ep & H). exfalso. rewrite forallb_forall in F.
      assert (L : (pn < length polys)%nat) by (apply nth_error_Some; congruence).
      specialize (F pn ltac:(apply in_seq; lia)). apply existsb_exists in F. destruct F as (key & Ik & M). apply memb_true in M.
      apply fcell_polys_spec in M. destruct M as (pts' & Ep' & NM). rewrite Ep in Ep'. inversion Ep'; subst. apply NM, H. auto.
    - split; [intros _|auto].
      assert (X : exists pn, In pn (seq 0 (length polys)) /\ existsb (fun key => memb pn (fcell_polys rnd key s polys)) (fgrid_keys rnd mn mx s e) = false).
      { clear - F. induction (seq 0 (length polys)) as [|a l IH]; [discriminate|]. cbn [forallb] in F. apply andb_false_iff in F. destruct F as [F|F].
        - exists a. split; [left; auto|auto].
        - destruct (IH F) as (pn & I & H). exists pn. split; [right; auto|auto]. }
      destruct X as (pn & I & H). apply in_seq in I. destruct (nth_error polys pn) as [pts|] eqn:Ep; [|apply nth_error_None in Ep; lia].
      exists pn, pts. split; auto. intros key Ik. apply foff_spec. destruct (foff_cell rnd key s pts) eqn:O; auto. exfalso.
      assert (T : existsb (fun key => memb pn (fcell_polys rnd key s polys)) (fgrid_keys rnd mn mx s e) = true).
      { apply existsb_exists. exists key. split; auto. apply memb_true. apply fcell_polys_spec. exists pts. split; auto.
        intros M. apply foff_spec in M. congruence. }
      congruence.
  Qed.
  Lemma fgrid_result mn mx polys s e : (exists g, fmake_voxel_grid rnd mn mx polys s e = Ok g) \/ fmake_voxel_grid rnd mn mx polys s e = Err ValueError.
  Proof. unfold fmake_voxel_grid. destruct (forallb _ _); eauto. Qed.
End Grid.

(** ** One axis *)
Section Axis.
  Context (rnd : R -> R) (NR : to_nearest rnd) (s : R) (CS : cell_size s).
  Context (mn mx e : R) (E0 : 0 <= e <= s) (Bmn : Rabs mn <= 1000000 * s) (Bmx : Rabs mx <= 1000000 * s) (OG : off_grid s (mn - e)).
  Let sp := size_pos s CS.
  Let z := VoxModel.floor ((mn - e) / s).

  Lemma scaled x B : Rabs x <= B * s -> exists X, x = X * s /\ - B <= X <= B.
  Proof.
    intros H. exists (x / s). split; [field; lra|]. apply abs_le_both in H. assert (x = x / s * s) by (field; lra).
    split; apply (Rmult_le_reg_r s); auto; lra.
  Qed.
  Lemma abs_lim X B : - B <= X <= B -> Rabs X <= B.
  Proof. intros H. apply Rabs_le. lra. Qed.

  Lemma z_spec : IZR z + 1 / 10 ^ 8 <= (mn - e) / s <= IZR z + 1 - 1 / 10 ^ 8.
  Proof.
    pose proof (floor_spec ((mn - e) / s)) as F. fold z in F.
    pose proof (OG z) as A. pose proof (OG (z + 1)%Z) as B. rewrite plus_IZR in B.
    rewrite Rabs_pos_eq in A by lra. rewrite Rabs_left in B by lra. lra.
  Qed.

  Ltac bnd := unfold dl in *; lra.
  Lemma axis_key i : INR i <= 2000010 -> fcell rnd s (rnd (rnd (mn - e) + rnd (INR i * s))) = (z + Z.of_nat i)%Z.
  Proof.
    intros I. destruct (scaled mn 1000000 Bmn) as (N & EN & HN). destruct (scaled e 1) as (X & EX & HX).
    { rewrite Rabs_pos_eq by lra. lra. }
    pose proof z_spec as Z. pose proof (pos_INR i) as I0. rewrite EN, EX in *.
    replace ((N * s - X * s) / s) with (N - X) in Z by (field; lra).
    replace (N * s - X * s) with ((N - X) * s) by ring.
    destruct (rnd_scaled rnd NR s CS (N - X)) as (d1 & D1 & ->); [apply abs_lim; lra|]. apply abs_le_both in D1.
    destruct (rnd_scaled rnd NR s CS (INR i)) as (d2 & D2 & ->); [apply abs_lim; lra|]. apply abs_le_both in D2.
    replace ((N - X + d1) * s + (INR i + d2) * s) with ((N - X + d1 + INR i + d2) * s) by ring.
    destruct (rnd_scaled rnd NR s CS (N - X + d1 + INR i + d2)) as (d3 & D3 & ->); [apply abs_lim; bnd|]. apply abs_le_both in D3.
    unfold fcell. replace ((N - X + d1 + INR i + d2 + d3) * s / s) with (N - X + d1 + INR i + d2 + d3) by (field; lra).
    destruct (rnd_unscaled rnd NR (N - X + d1 + INR i + d2 + d3)) as (d4 & D4 & ->); [apply abs_lim; bnd|]. apply abs_le_both in D4.
    apply floor_unique. rewrite plus_IZR, <- INR_IZR_INZ. bnd.
  Qed.

  Lemma axis_has k : (z <= k)%Z -> (IZR k - IZR z) * s < mx - mn + 3 * e + (1 - 8 * dl) * s ->
    In k (map (fcell rnd s) (frange rnd mn mx s e)).
  Proof.
    intros K L. destruct (scaled mn 1000000 Bmn) as (N & EN & HN). destruct (scaled mx 1000000 Bmx) as (M & EM & HM). destruct (scaled e 1) as (X & EX & HX).
    { rewrite Rabs_pos_eq by lra. lra. }
    assert (X0 : 0 <= X) by (apply (Rmult_le_reg_r s); lra).
    pose proof z_spec as Z.
    assert (L' : IZR k - IZR z < M - N + 3 * X + (1 - 8 * dl)).
    { apply (Rmult_lt_reg_r s); auto. rewrite EN, EX, EM in L. lra. }
    unfold frange, farange. rewrite map_map. apply in_map_iff. exists (Z.to_nat (k - z)).
    assert (Ik : INR (Z.to_nat (k - z)) = IZR k - IZR z) by (rewrite INR_IZR_INZ, Z2Nat.id, minus_IZR by lia; auto).
    rewrite axis_key by (rewrite Ik; bnd). split; [lia|].
    apply in_seq. cbn [plus]. split; [lia|].
    rewrite ?EN, ?EM, ?EX. clear L.
    replace (M * s + X * s) with ((M + X) * s) by ring.
    destruct (rnd_scaled rnd NR s CS (M + X)) as (d1 & D1 & ->); [apply abs_lim; lra|]. apply abs_le_both in D1.
    replace ((M + X + d1) * s + s) with ((M + X + d1 + 1) * s) by ring.
    destruct (rnd_scaled rnd NR s CS (M + X + d1 + 1)) as (d2 & D2 & ->); [apply abs_lim; bnd|]. apply abs_le_both in D2.
    replace ((M + X + d1 + 1 + d2) * s + X * s) with ((M + X + d1 + 1 + d2 + X) * s) by ring.
    destruct (rnd_scaled rnd NR s CS (M + X + d1 + 1 + d2 + X)) as (d3 & D3 & ->); [apply abs_lim; bnd|]. apply abs_le_both in D3.
    replace (N * s - X * s) with ((N - X) * s) by ring.
    destruct (rnd_scaled rnd NR s CS (N - X)) as (d4 & D4 & ->); [apply abs_lim; lra|]. apply abs_le_both in D4.
    replace ((M + X + d1 + 1 + d2 + X + d3) * s - (N - X + d4) * s) with ((M + X + d1 + 1 + d2 + X + d3 - (N - X + d4)) * s) by ring.
    destruct (rnd_scaled rnd NR s CS (M + X + d1 + 1 + d2 + X + d3 - (N - X + d4))) as (d5 & D5 & ->); [apply abs_lim; bnd|]. apply abs_le_both in D5.
    set (Q := M + X + d1 + 1 + d2 + X + d3 - (N - X + d4) + d5).
    replace (Q * s / s) with Q by (field; lra).
    destruct (rnd_unscaled rnd NR Q) as (d6 & D6 & ->); [apply abs_lim; unfold Q; bnd|]. apply abs_le_both in D6.
    pose proof (ceil_spec (Q + d6)) as (_ & C). set (c := ceil (Q + d6)) in *. clearbody c.
    assert (LL : (k - z < c)%Z) by (apply lt_IZR; rewrite minus_IZR; unfold Q in C; bnd). lia.
  Qed.

  (** A cell near p that meets what lies between p1 and p2. *)
  Lemma axis_cell p t p1 p2 : f64 p1 -> f64 p2 -> mn <= p1 -> p1 <= t <= p2 -> p2 <= mx -> Rabs (t - p) <= (1 - 1 / 10 ^ 8) * s ->
    (forall k, mn < (IZR k + 1) * s -> IZR k * s <= mx -> seamless rnd s k) ->
    exists k, In k (map (fcell rnd s) (frange rnd mn mx s e)) /\ flo rnd s k <= p2 /\ p1 <= fhi rnd s k /\ (Z.abs (k - fcell rnd s p) <= 1)%Z.
  Proof.
    intros F1 F2 L1 (T1 & T2) L2 NP SL. set (k := VoxModel.floor (t / s)).
    pose proof (floor_spec (t / s)) as Fk. fold k in Fk.
    assert (Et : t = t / s * s) by (field; lra). set (T := t / s) in *. clearbody T.
    assert (Bt : Rabs t <= 1000000 * s) by (apply abs_le_both in Bmn, Bmx; apply abs_lim; lra).
    assert (BT : - 1000000 <= T <= 1000000) by (apply abs_le_both in Bt; split; apply (Rmult_le_reg_r s); auto; lra).
    assert (Ep : p = p / s * s) by (field; lra).
    assert (NP' : - (1 - 1 / 10 ^ 8) <= T - p / s <= 1 - 1 / 10 ^ 8) by (apply abs_le_both in NP; split; apply (Rmult_le_reg_r s); auto; lra).
    destruct (rnd_unscaled rnd NR (p / s)) as (dp & Dp & Rp); [apply abs_lim; lra|]. apply abs_le_both in Dp.
    pose proof (floor_spec (rnd (p / s))) as Fp. change (VoxModel.floor (rnd (p / s))) with (fcell rnd s p) in Fp. rewrite Rp in Fp. set (kp := fcell rnd s p) in *. clearbody kp.
    pose proof z_spec as Z. assert (Ez : mn - e = (mn - e) / s * s) by (field; lra). set (A := (mn - e) / s) in *.
    assert (AT : A <= T) by (apply (Rmult_le_reg_r s); auto; lra).
    assert (Kz : (z <= k)%Z) by (apply Z.lt_succ_r, lt_IZR; rewrite succ_IZR; lra).
    assert (Kl : flo rnd s k <= p2).
    { apply rnd_le; auto. apply Rle_trans with (2 := T2). rewrite Et. apply Rmult_le_compat_r; lra. }
    destruct (Rle_dec p1 (fhi rnd s k)) as [H|H].
    - exists k. split; [|split; [auto|split; [auto|]]].
      + apply axis_has; auto. assert (T * s <= mx) by lra.
        assert ((IZR k - IZR z) * s <= (T - A + 1 - 1 / 10 ^ 8) * s) by (apply Rmult_le_compat_r; lra).
        unfold dl. nra.
      + assert (kp < k + 2)%Z by (apply lt_IZR; rewrite plus_IZR; bnd).
        assert (k - 2 < kp)%Z by (apply lt_IZR; rewrite minus_IZR; bnd). lia.
    - assert (SK : seamless rnd s k).
      { apply SL.
        - apply Rle_lt_trans with t; [lra|]. rewrite Et. apply Rmult_lt_compat_r; lra.
        - apply Rle_trans with t; [|lra]. rewrite Et. apply Rmult_le_compat_r; lra. }
      assert (N1 : rnd (IZR (k + 1) * s) <= p1).
      { destruct (Rle_dec (rnd (IZR (k + 1) * s)) p1); auto. exfalso. apply (SK p1 F1). unfold fhi, flo in H. lra. }
      assert (N2 : p1 <= rnd (IZR (k + 1) * s)).
      { apply rnd_ge; auto. rewrite plus_IZR. apply Rle_trans with t; auto. rewrite Et. apply Rmult_le_compat_r; lra. }
      assert (HH : fhi rnd s k < p1) by lra. unfold fhi, flo in HH.
      destruct (rnd_scaled rnd NR s CS (IZR k)) as (d1 & D1 & R1); [apply abs_lim; lra|]. apply abs_le_both in D1. rewrite R1 in HH.
      replace ((IZR k + d1) * s + s) with ((IZR k + d1 + 1) * s) in HH by ring.
      destruct (rnd_scaled rnd NR s CS (IZR k + d1 + 1)) as (d2 & D2 & R2); [apply abs_lim; bnd|]. apply abs_le_both in D2. rewrite R2 in HH.
      assert (TK : IZR k + 1 - 2 * dl < T) by (apply (Rmult_lt_reg_r s); auto; unfold dl in *; nra).
      exists (k + 1)%Z. split; [|split; [|split]].
      + apply axis_has; [lia|]. rewrite plus_IZR. assert (T * s <= mx) by lra.
        assert ((IZR k + 1 - IZR z) * s < (T + 2 * dl - A + 1 - 1 / 10 ^ 8) * s) by (apply Rmult_lt_compat_r; lra).
        unfold dl in *. nra.
      + unfold flo. lra.
      + unfold fhi, flo. apply rnd_ge; auto. lra.
      + assert (kp < k + 2)%Z by (apply lt_IZR; rewrite plus_IZR; bnd).
        assert (k - 1 < kp)%Z by (apply lt_IZR; rewrite minus_IZR; bnd). lia.
  Qed.
End Axis.

(** ** The three axes *)
Section Box.
  Context (rnd : R -> R) (NR : to_nearest rnd) (s : R) (CS : cell_size s).
  Context (mn mx : vec) (e : R) (E0 : 0 <= e <= s).
  Context (AX : forall c, In c [vx; vy; vz] -> Rabs (c mn) <= 1000000 * s /\ Rabs (c mx) <= 1000000 * s /\ off_grid s (c mn - e) /\
    forall k, c mn < (IZR k + 1) * s -> IZR k * s <= c mx -> seamless rnd s k).
  Context (polys : list (list vec)) (BX : forall pts, In pts polys -> pts <> [] /\ forall p, In p pts -> f64_vec p /\ in_box mn mx p).

  Lemma box_cell p pts q : In pts polys -> in_hull pts q -> near ((1 - 1 / 10 ^ 8) * s) p q ->
    exists key, In key (fgrid_keys rnd mn mx s e) /\ ~ fmisses rnd s key pts /\ adjacent_cells (fkey rnd s p) key.
  Proof.
    intros I (ws & L & W & S & E) (NX & NY & NZ). destruct (BX pts I) as (_ & B).
    assert (G : forall c, In c [vx; vy; vz] -> (forall p, In p pts -> f64 (c p) /\ c mn <= c p <= c mx) ->
      c q = Rsum (map (fun wp => fst wp * c (snd wp)) (combine ws pts)) -> Rabs (c q - c p) <= (1 - 1 / 10 ^ 8) * s ->
      exists k, In k (map (fcell rnd s) (frange rnd (c mn) (c mx) s e)) /\ ~ misses_axis rnd s c k pts /\ (Z.abs (k - fcell rnd s (c p)) <= 1)%Z).
    { intros c Ic Bc Ec Nc. destruct (AX c Ic) as (A1 & A2 & A3 & A4).
      destruct (hull_some_ge c pts ws (c q) L W S Ec) as (p1 & I1 & H1). destruct (hull_some_le c pts ws (c q) L W S Ec) as (p2 & I2 & H2).
      destruct (Bc p1 I1) as (F1 & B1). destruct (Bc p2 I2) as (F2 & B2).
      destruct (axis_cell rnd NR s CS (c mn) (c mx) e E0 A1 A2 A3 (c p) (c q) (c p1) (c p2) F1 F2 ltac:(lra) ltac:(lra) ltac:(lra) Nc A4) as (k & K1 & K2 & K3 & K4).
      exists k. split; auto. split; auto. intros [M|M]; [specialize (M p2 I2)|specialize (M p1 I1)]; lra. }
    destruct (G vx) as (x & X1 & X2 & X3); [left; auto| |rewrite E; reflexivity|auto|].
    { intros p' I'. destruct (B p' I') as ((F & _) & (Q & _)). auto. }
    destruct (G vy) as (y & Y1 & Y2 & Y3); [right; left; auto| |rewrite E; reflexivity|auto|].
    { intros p' I'. destruct (B p' I') as ((_ & F & _) & (_ & Q & _)). auto. }
    destruct (G vz) as (zz & Z1 & Z2 & Z3); [right; right; left; auto| |rewrite E; reflexivity|auto|].
    { intros p' I'. destruct (B p' I') as ((_ & _ & F) & (_ & _ & Q)). auto. }
    exists (x, y, zz). split; [apply fgrid_keys_in; auto|]. split; [unfold fmisses; tauto|]. unfold fkey, adjacent_cells. auto.
  Qed.

  Lemma fgrid_near : exists grid, fmake_voxel_grid rnd mn mx polys s e = Ok grid /\
    forall p pn pts q, nth_error polys pn = Some pts -> in_hull pts q -> near ((1 - 1 / 10 ^ 8) * s) p q ->
      In pn (find_nearby_polygons (fkey rnd s p) grid).
  Proof.
    destruct (fgrid_result rnd mn mx polys s e) as [(g & G)|G].
    - exists g. split; auto. intros p pn pts q Ep H N. destruct (box_cell p pts q) as (key & K1 & K2 & K3); auto; [eapply nth_error_In; eauto|].
      apply nearby_spec. exists key, (fcell_polys rnd key s polys). split; auto. split.
      + rewrite (fgrid_ok _ _ _ _ _ _ _ G). apply memb_true in K1. rewrite K1. auto.
      + apply fcell_polys_spec. eauto.
    - exfalso. apply fgrid_err in G. destruct G as (pn & pts & Ep & H). assert (I : In pts polys) by (eapply nth_error_In; eauto).
      destruct (BX pts I) as (Nn & _). destruct pts as [|p pts]; [congruence|].
      destruct (box_cell p (p :: pts) p) as (key & K1 & K2 & _); auto.
      + apply vertex_in_hull. left. auto.
      + pose proof (size_pos s CS). unfold near. unfold Rminus. rewrite !Rplus_opp_r, Rabs_R0.
        assert (0 <= (1 + - (1 / 10 ^ 8)) * s) by (apply Rmult_le_pos; lra). repeat apply conj; assumption.
  Qed.
End Box.
