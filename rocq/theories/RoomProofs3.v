(** Proofs: a ray does not pass through a wall. *)
From Coq Require Import Reals ZArith List Bool Arith Lia Lra Permutation.
From Verif Require Import Prelude VecModel VecProofs SimModel SimSpec SimProofs SimProofs2 SimProofs3 SimProofs4 VoxModel VoxSpec VoxProofs GeomModel GeomSpec GeomProofs1 GeomProofs2 GeomProofs3 GeomProofs4 GeomProofs5 TriModel TriSpec PolyModel PolySpec PolyProofs1 PolyProofs2 CrossSpec CrossProofs1 InsideSpec InsideProofs1 RoomSpec RoomProofs1 RoomProofs2.
Import ListNotations.
Local Open Scope R_scope.

(** Triangles of corners are in the hull of the corners. *)
Lemma wsum_lin (g : vec -> R) x y z : forall (pts : list vec) wa wb wc, length wa = length pts -> length wb = length pts -> length wc = length pts ->
  let ws := map (fun t => x * fst (fst t) + y * snd (fst t) + z * snd t) (combine (combine wa wb) wc) in
  length ws = length pts /\ (0 <= x -> 0 <= y -> 0 <= z -> (forall w, In w wa -> 0 <= w) -> (forall w, In w wb -> 0 <= w) -> (forall w, In w wc -> 0 <= w) -> forall w, In w ws -> 0 <= w) /\
  Rsum ws = x * Rsum wa + y * Rsum wb + z * Rsum wc /\
  Rsum (map (fun wp => fst wp * g (snd wp)) (combine ws pts)) = x * Rsum (map (fun wp => fst wp * g (snd wp)) (combine wa pts)) + y * Rsum (map (fun wp => fst wp * g (snd wp)) (combine wb pts)) + z * Rsum (map (fun wp => fst wp * g (snd wp)) (combine wc pts)).
Proof.
  induction pts as [|p pts IH]; intros wa wb wc La Lb Lc; cbn zeta.
  - destruct wa; [|discriminate]. destruct wb; [|discriminate]. destruct wc; [|discriminate]. cbn. split; auto. split; [intros _ _ _ _ _ _ w []|split; ring].
  - destruct wa as [|a wa]; [discriminate|]. destruct wb as [|b wb]; [discriminate|]. destruct wc as [|c wc]; [discriminate|]. injection La as La. injection Lb as Lb. injection Lc as Lc.
    destruct (IH wa wb wc La Lb Lc) as (I1 & I2 & I3 & I4). cbn [combine map fst snd length]. split; [cbn [length]; rewrite I1; auto|]. split.
    + intros X Y Z A B C w [<-|I]; [|apply I2; auto; intros v V; [apply A|apply B|apply C]; right; auto]. assert (0 <= a) by (apply A; left; auto). assert (0 <= b) by (apply B; left; auto). assert (0 <= c) by (apply C; left; auto).
      pose proof (Rmult_le_pos x a). pose proof (Rmult_le_pos y b). pose proof (Rmult_le_pos z c). cbn [fst snd]. lra.
    + split; unfold Rsum in *; cbn [fold_right fst snd]; [rewrite I3; ring|rewrite I4; ring].
Qed.
Lemma hull_bary pts a b c x y z : in_hull pts a -> in_hull pts b -> in_hull pts c -> 0 <= x -> 0 <= y -> 0 <= z -> x + y + z = 1 -> in_hull pts (bary a b c x y z).
Proof.
  intros (wa & La & Pa & Sa & Ea) (wb & Lb & Pb & Sb & Eb) (wc & Lc & Pc & Sc & Ec) X Y Z S.
  destruct (wsum_lin vx x y z pts wa wb wc La Lb Lc) as (L & P & T & Ex). destruct (wsum_lin vy x y z pts wa wb wc La Lb Lc) as (_ & _ & _ & Ey). destruct (wsum_lin vz x y z pts wa wb wc La Lb Lc) as (_ & _ & _ & Ez).
  set (ws := map _ (combine (combine wa wb) wc)) in *. exists ws. split; auto. split; [auto|]. split; [rewrite T, Sa, Sb, Sc; lra|]. rewrite Ex, Ey, Ez, Ea, Eb, Ec. unfold bary. vunf. auto.
Qed.
Lemma mesh_in_hull (f : face) q : in_mesh f q -> in_hull (fst f) q.
Proof.
  intros (((i, j), k) & a & b & c & _ & (A & B & C) & (x & y & z & X & Y & Z & S & ->)). apply hull_bary; auto; apply vertex_in_hull; eapply nth_error_In; eauto.
Qed.
Lemma mesh_on_plane (f : face) n d q : (forall q, In q (fst f) -> on_plane n d q) -> in_mesh f q -> on_plane n d q.
Proof. intros P (((i, j), k) & a & b & c & It & (A & B & C) & H). eapply triangle_on_plane; [| | |exact H]; apply P; eapply nth_error_In; eauto. Qed.
(** A wall ahead is hit, if the point in question is accepted. *)
Lemma hit_ahead (f : face) n d p v t : sound_wall f n d -> 0 <= t -> on_plane n d (vadd p (smul t v)) -> 1 / 1000 <= Rabs (dot n v) ->
  is_point_inside_projection p v (fst f) (snd f) true (1 / 1000) = is_point_inside (vadd p (smul t v)) (fst f) (snd f) true (1 / 1000).
Proof.
  intros S T Q L. destruct (wall_plane f n d S) as (e & He & C). pose proof (wall_flat _ _ _ S) as (U & P & G & Ne).
  assert (L' : 1 / 1000 <= Rabs (dot (smul e n) v)). { replace (dot (smul e n) v) with (e * dot n v) by (dvec n; dvec v; vunf; ring). rewrite Rabs_mult. replace (Rabs e) with 1 by (destruct He as [->| ->]; [rewrite Rabs_R1|rewrite Rabs_left]; lra). lra. }
  destruct (inside_poly_total (vadd p (smul t v)) (fst f) (snd f) true (1 / 1000) Ne G) as (b & E). rewrite E.
  destruct (projection_spec p v (fst f) (snd f) true (1 / 1000) (smul e n) (e * d) b C) as (s & _ & Un & I); [lra|auto|]. apply I.
  rewrite <- (Un t); [|apply (smul_plane e n d _ He); auto]. cbn [andb]. rewrite (proj2 (Rltb_false t 0)) by lra. exact E.
Qed.
Lemma projection_total (f : face) n d p v : sound_wall f n d -> exists b, is_point_inside_projection p v (fst f) (snd f) true (1 / 1000) = Ok b.
Proof.
  intros S. destruct (wall_plane f n d S) as (e & He & C). pose proof (wall_flat _ _ _ S) as (U & P & G & Ne).
  destruct (Rlt_dec (Rabs (dot (smul e n) v)) (1 / 1000)) as [L|L]; [rewrite (projection_parallel _ _ _ _ _ _ _ _ C L); apply inside_poly_total; auto|].
  destruct (projection_spec p v (fst f) (snd f) true (1 / 1000) (smul e n) (e * d) false C) as (s & _ & Un & I); [lra|lra|].
  destruct (true && Rltb s 0) eqn:Sg; [exists false; apply I; auto|]. destruct (inside_poly_total (vadd p (smul s v)) (fst f) (snd f) true (1 / 1000) Ne G) as (b & E). exists b.
  destruct (projection_spec p v (fst f) (snd f) true (1 / 1000) (smul e n) (e * d) b C) as (s' & Hs & _ & I'); [lra|lra|]. apply I'. rewrite (Un s' Hs), Sg. exact E.
Qed.

Section Room.
Context (polys : list face) (transparent : list nat) (order_of : list nat -> list nat) (mn mx : vec) (s e : R) (grid : dict (Z * Z * Z) (list nat)) (sc : scene).
Context (Rm : room polys transparent order_of mn mx s e grid sc).
Lemma boxed : forall pts, In pts (map fst polys) -> pts <> [] /\ forall p, In p pts -> in_box mn mx p.
Proof. intros pts I. apply in_map_iff in I. destruct I as (f & <- & I). destruct Rm as (_ & _ & _ & B & _). auto. Qed.
(** Targets are polygons of the room, with unit normals. *)
Lemma target_wall p v b : target sc p v = Some b -> exists f, nth_error polys b = Some f.
Proof.
  intros T. destruct Rm as (O & S & E & B & G & _ & hit & Hh & Ht). destruct (sim_target_spec hit (pdist sc) order_of s grid transparent p v O) as (t & Et & X). rewrite Ht, T in Et. apply Ok_inj in Et. subst t. destruct X as ((I & _) & _).
  apply nearby_spec in I. destruct I as (key & l & _ & D & I). apply (grid_exact _ _ _ _ _ _ G key l D) in I. destruct I as (pts & N & _). destruct (nth_error polys b) as [f|] eqn:Eb; [eauto|]. apply nth_error_None in Eb. assert (X : nth_error (map fst polys) b <> None) by congruence. apply nth_error_Some in X. rewrite map_length in X. exfalso. exact (Nat.lt_irrefl _ (Nat.lt_le_trans _ _ _ X Eb)).
Qed.
Lemma target_unit p v b : target sc p v = Some b -> dot (pnormal sc b) (pnormal sc b) = 1.
Proof.
  intros T. destruct (target_wall p v b T) as (f & N). destruct Rm as (_ & _ & _ & _ & _ & D & _). destruct (D b f N) as ((a & c & r & _ & H) & _). apply normal_spec in H. destruct H as (U & _). exact U.
Qed.
Lemma bounces_norm p v ps v' : bounces sc p v ps v' -> norm v' = norm v.
Proof.
  induction 1 as [|ps v1 k B IH T D]; auto. rewrite <- IH. pose proof (target_unit _ _ _ T) as U. unfold norm. f_equal. unfold mirror. set (n := pnormal sc k) in *. set (w := dot n v1).
  replace (dot (vsub v1 (smul (2 * w) n)) (vsub v1 (smul (2 * w) n))) with (dot v1 v1 - 4 * w * dot n v1 + 4 * w * w * dot n n) by (clearbody w n; dvec v1; dvec n; vunf; ring). rewrite U. fold w. ring.
Qed.
(** Not moving past an accepted point of a wall. *)
Lemma no_crossing p v pn f n d t q : 0 < speed sc * dt sc <= s -> 0 <= dt sc -> norm v = speed sc ->
  (target sc p v = None \/ exists k, target sc p v = Some k /\ rdist sc < pdist sc p k) ->
  nth_error polys pn = Some f -> sound_wall f n d -> ~ In pn transparent -> 0 <= t <= 1 -> q = vadd p (smul t (smul (dt sc) v)) -> in_mesh f q ->
  is_point_inside q (fst f) (snd f) true (1 / 1000) = Ok true -> 1 / 1000 <= Rabs (dot n v) -> rdist sc <= pdist sc p pn.
Proof.
  intros Sp D0 Nv Tg N S NT T Eq M Ac Gr. destruct Rm as (O & S0 & E0 & B & G & Dp & hit & Hh & Ht).
  assert (Eq' : q = vadd p (smul (t * dt sc) v)) by (rewrite Eq; dvec p; dvec v; vunf; f_equal; ring).
  assert (Hit : hit p v pn = true).
  { assert (X : is_point_inside_projection p v (fst f) (snd f) true (1 / 1000) = Ok true); [|rewrite (Hh p v pn f N) in X; apply Ok_inj in X; auto].
    rewrite (hit_ahead f n d p v (t * dt sc) S); auto; [rewrite <- Eq'; auto|apply Rmult_le_pos; lra|rewrite <- Eq'; eapply mesh_on_plane; eauto; apply (wall_flat f n d S)]. }
  assert (Nq : norm (vsub q p) <= s).
  { replace (vsub q p) with (smul (t * dt sc) v) by (rewrite Eq'; dvec p; dvec v; vunf; f_equal; ring). rewrite norm_smul, Rabs_pos_eq, Nv by (apply Rmult_le_pos; lra). apply Rle_trans with (1 * (speed sc * dt sc)); [|lra].
    replace (t * dt sc * speed sc) with (t * (speed sc * dt sc)) by ring. apply Rmult_le_compat_r; lra. }
  destruct (no_wall_missed hit (pdist sc) order_of mn mx (map fst polys) s e grid transparent p v pn (fst f) q O S0 E0 boxed G) as (b & Eb & Lb); auto.
  { exact (map_nth_error fst pn polys N). } { apply mesh_in_hull; auto. }
  rewrite Ht in Eb. apply Ok_inj in Eb. destruct Tg as [Tg|(k & Tg & Lk)]; [congruence|]. rewrite Eb in Tg. injection Tg as <-. lra.
Qed.
Lemma no_crossing_point p v pn f n d t q : 0 < speed sc * dt sc <= s -> 0 <= dt sc -> norm v = speed sc ->
  (target sc p v = None \/ exists k, target sc p v = Some k /\ rdist sc < pdist sc p k) ->
  nth_error polys pn = Some f -> sound_wall f n d -> ~ In pn transparent -> 0 <= t <= 1 -> q = vadd p (smul t (smul (dt sc) v)) -> touches f q ->
  1 / 1000 <= Rabs (dot n v) -> (touches f (foot n d p) \/ ~ in_mesh f (foot n d p)) -> False.
Proof.
  intros Sp D0 Nv Tg N S NT T Eq M Gr Ft. pose proof (wall_flat _ _ _ S) as Fl. pose proof (touches_in_mesh f n d q Fl M) as Mq.
  assert (Pq : on_plane n d q) by (eapply mesh_on_plane; eauto; apply Fl).
  assert (Ac : is_point_inside q (fst f) (snd f) true (1 / 1000) = Ok true) by (apply (flat_accepted f n d); auto; lra).
  pose proof (no_crossing p v pn f n d t q Sp D0 Nv Tg N S NT T Eq Mq Ac Gr) as L. destruct Rm as (_ & _ & _ & _ & _ & Dp & _). destruct (Dp pn f N) as (Fn & Ed).
  pose proof (distance_upper f n d (pnormal sc pn) p (pdist sc p pn) q S Fn (Ed p)) as Up. assert (pdist sc p pn <= dist p q).
  { apply Up; auto. intros I. destruct Ft as [Ft|Ft]; [apply (ortho_true f n d); auto|tauto]. }
  assert (dist p q <= speed sc * dt sc).
  { unfold dist. rewrite Eq. replace (vsub (vadd p (smul t (smul (dt sc) v))) p) with (smul (t * dt sc) v) by (dvec p; dvec v; vunf; f_equal; ring). rewrite norm_smul, Rabs_pos_eq, Nv by (apply Rmult_le_pos; lra).
    replace (t * dt sc * speed sc) with (t * (speed sc * dt sc)) by ring. apply Rle_trans with (1 * (speed sc * dt sc)); [apply Rmult_le_compat_r; lra|lra]. }
  unfold rdist in L. lra.
Qed.

(** The invariant of a run. *)
Definition steady (r : SimModel.ray) : Prop := norm (r_vel r) = speed sc /\ r_dpos r = smul (dt sc) (r_vel r).
Lemma steady_absorbed r r1 : absorbed sc r r1 -> steady r -> steady r1 /\ r_pos r1 = r_pos r.
Proof. intros [(_ & _ & ->)|(_ & ->)] S; split; auto. Qed.
Lemma steady_bounces p v ps v' dp : bounces sc p v ps v' -> norm v = speed sc -> dp = smul (dt sc) v -> norm v' = speed sc /\ match ps with [] => dp | _ => smul (dt sc) v' end = smul (dt sc) v'.
Proof. intros B N D. split; [rewrite (bounces_norm _ _ _ _ B); auto|]. inversion B; subst; auto. destruct ps0; auto. Qed.
Lemma steady_outcome r r' : outcome sc r r' -> steady r -> steady r' /\ (r_pos r' = r_pos r \/
  (r_pos r' = vadd (r_pos r) (smul (dt sc) (r_vel r')) /\ (target sc (r_pos r) (r_vel r') = None \/ exists k, target sc (r_pos r) (r_vel r') = Some k /\ rdist sc < pdist sc (r_pos r) k))).
Proof.
  intros [D ->|_ L ->|ps _ _ B _ _ Ed Tg Ep|ps k _ _ B _ _ Ed Tg Pd Ep|ps k _ _ B Tg Pd _ _ Ed _ Ep] (N & Dp).
  - split; [split; auto|auto].
  - split; [split; auto|auto].
  - destruct (steady_bounces _ _ _ _ (r_dpos r) B N Dp) as (N' & D'). rewrite D' in Ed. split; [split; auto|]. right. split; [rewrite Ep, Ed; auto|auto].
  - destruct (steady_bounces _ _ _ _ (r_dpos r) B N Dp) as (N' & D'). rewrite D' in Ed. split; [split; auto|auto].
  - destruct (steady_bounces _ _ _ _ (r_dpos r) B N Dp) as (N' & D'). rewrite D' in Ed. split; [split; auto|auto].
Qed.
Lemma forall2_nth {A B} (P : A -> B -> Prop) l1 l2 k b : Forall2 P l1 l2 -> nth_error l2 k = Some b -> exists a, nth_error l1 k = Some a /\ P a b.
Proof. intros F. revert k. induction F as [|x y l1 l2 H F IH]; intros [|k] E; try discriminate; cbn in *; [injection E as <-; eauto|auto]. Qed.
Lemma step_moves s1 s2 k r' : steps_to sc s1 s2 -> (forall r, In r (s_rays s1) -> steady r) -> nth_error (s_rays s2) k = Some r' ->
  exists r, nth_error (s_rays s1) k = Some r /\ steady r' /\ (r_pos r' = r_pos r \/
  (r_pos r' = vadd (r_pos r) (smul (dt sc) (r_vel r')) /\ (target sc (r_pos r) (r_vel r') = None \/ exists k, target sc (r_pos r) (r_vel r') = Some k /\ rdist sc < pdist sc (r_pos r) k))).
Proof.
  intros ((rs & A & O) & _) St N. destruct (forall2_nth _ _ _ _ _ O N) as (r1 & N1 & O1). destruct (forall2_nth _ _ _ _ _ A N1) as (r & Nr & A1). exists r. split; auto.
  destruct (steady_absorbed r r1 A1) as (S1 & E1); [apply St; eapply nth_error_In; eauto|]. destruct (steady_outcome r1 r' O1 S1) as (S2 & H). rewrite E1 in H. auto.
Qed.
Lemma run_steady s0 sts i st : run_of sc s0 sts -> (forall r, In r (s_rays s0) -> steady r) -> nth_error sts i = Some st -> forall r, In r (s_rays st) -> steady r.
Proof.
  intros (H0 & H) S0. revert st. induction i as [|i IH]; intros st N; [rewrite H0 in N; injection N as <-; auto|].
  destruct (nth_error sts i) as [st'|] eqn:E; [|apply nth_error_None in E; assert (nth_error sts (S i) <> None) by congruence; apply nth_error_Some in H1; lia].
  intros r I. apply In_nth_error in I. destruct I as (k & I). destruct (step_moves st' st k r (H i st' st E N) (IH st' eq_refl) I) as (r0 & _ & Sr & _). exact Sr.
Qed.
Lemma simulation_moves fuel num pos vel en hits b : 0 <= eps sc -> length vel = length pos -> length en = length pos -> length hits = length (absorbers sc) ->
  (forall v, In v vel -> norm v = speed sc) -> simulation_loop sc fuel num pos vel en hits = Ok b ->
  forall i k p p', cell (b_pos b) i k p -> cell (b_pos b) (S i) k p' -> p' = p \/ exists v, norm v = speed sc /\ p' = vadd p (smul (dt sc) v) /\
    (target sc p v = None \/ exists k, target sc p v = Some k /\ rdist sc < pdist sc p k).
Proof.
  intros Ep Lv Le Lh Nv E i k p p' (row & Nr & Nk) (row' & Nr' & Nk'). destruct (loop_history sc Ep fuel num pos vel en hits b Lv Le Lh E) as (s0 & sts & (I1 & I2 & I3 & I4 & I5) & _ & Rn & Eb & _).
  rewrite Eb, nth_error_map in Nr, Nr'. destruct (nth_error sts i) as [s1|] eqn:E1; [|discriminate]. destruct (nth_error sts (S i)) as [s2|] eqn:E2; [|discriminate]. injection Nr as <-. injection Nr' as <-.
  rewrite nth_error_map in Nk, Nk'. destruct (nth_error (s_rays s1) k) as [r|] eqn:Er; [|discriminate]. destruct (nth_error (s_rays s2) k) as [r'|] eqn:Er'; [|discriminate]. injection Nk as <-. injection Nk' as <-.
  assert (S0 : forall r, In r (s_rays s0) -> steady r) by (intros r0 I0; split; [apply Nv; rewrite <- I2; apply in_map; auto|rewrite Forall_forall in I5; auto]).
  destruct (step_moves s1 s2 k r' (proj2 Rn i s1 s2 E1 E2) (run_steady s0 sts i s1 Rn S0 E1) Er') as (r0 & N0 & (Sr & _) & H). rewrite Er in N0. injection N0 as <-.
  destruct H as [H|(H1 & H2)]; [auto|right]. exists (r_vel r'). auto.
Qed.
Lemma walls_hold fuel num pos vel en hits b : 0 <= eps sc -> length vel = length pos -> length en = length pos -> length hits = length (absorbers sc) ->
  (forall v, In v vel -> norm v = speed sc) -> simulation_loop sc fuel num pos vel en hits = Ok b -> 0 < dt sc -> 0 < speed sc * dt sc <= s ->
  forall i k p p' pn f n d t, cell (b_pos b) i k p -> cell (b_pos b) (S i) k p' -> nth_error polys pn = Some f -> ~ In pn transparent -> sound_wall f n d ->
  0 <= t <= 1 -> touches f (vadd p (smul t (vsub p' p))) -> dt sc / 1000 <= Rabs (dot n (vsub p' p)) -> (touches f (foot n d p) \/ ~ in_mesh f (foot n d p)) -> False.
Proof.
  intros Ep Lv Le Lh Nv E D0 Sp i k p p' pn f n d t C C' N NT S T Tc Gr Ft. destruct (simulation_moves fuel num pos vel en hits b Ep Lv Le Lh Nv E i k p p' C C') as [->|(v & Nn & -> & Tg)].
  - replace (vsub p p) with vzero in Gr by (dvec p; vunf; f_equal; ring). replace (dot n vzero) with 0 in Gr by (dvec n; vunf; ring). rewrite Rabs_R0 in Gr. lra.
  - replace (vsub (vadd p (smul (dt sc) v)) p) with (smul (dt sc) v) in * by (dvec p; dvec v; vunf; f_equal; ring).
    apply (no_crossing_point p v pn f n d t _ Sp (Rlt_le _ _ D0) Nn Tg N S NT T eq_refl Tc); auto. rewrite dot_smul_r, Rabs_mult, (Rabs_pos_eq (dt sc)) in Gr by lra. apply Rmult_le_reg_l with (dt sc); auto. lra.
Qed.
End Room.

(** The scene exists. *)
Definition ok_or {A} (d : A) (r : result A) : A := match r with Ok x => x | Err _ => d end.
Lemma scene_exists polys transparent order_of s grid sc0 : (forall l x, In x (order_of l) <-> In x l) -> (forall f, In f polys -> exists n d, sound_wall f n d) ->
  exists sc, scene_of polys transparent order_of s grid sc /\ surf sc = surf sc0 /\ bbmin sc = bbmin sc0 /\ bbmax sc = bbmax sc0 /\ absorbers sc = absorbers sc0 /\ radius sc = radius sc0 /\ eps sc = eps sc0 /\ dt sc = dt sc0 /\ speed sc = speed sc0.
Proof.
  intros O W.
  set (nor := fun pn => match nth_error polys pn with Some f => match fst f with a :: b :: _ => match normal (last (fst f) a) a b with Some m => m | None => vzero end | _ => vzero end | None => vzero end).
  set (pd := fun p pn => match nth_error polys pn with Some f => ok_or 0 (distance_point_to_polygon p (fst f) (snd f) (nor pn)) | None => 0 end).
  set (hit := fun p v pn => match nth_error polys pn with Some f => ok_or false (is_point_inside_projection p v (fst f) (snd f) true (1 / 1000)) | None => false end).
  set (tg := fun p v => ok_or None (sim_target hit pd order_of s grid transparent p v)).
  exists (mkScene tg pd nor (surf sc0) (bbmin sc0) (bbmax sc0) (absorbers sc0) (radius sc0) (eps sc0) (dt sc0) (speed sc0)). cbn [surf bbmin bbmax absorbers radius eps dt speed]. split; [|repeat split].
  split; cbn [pnormal pdist target].
  - intros pn f N. destruct (W f (nth_error_In _ _ N)) as (n & d & S). assert (Fn : first_normal_is (fst f) (nor pn)).
    { destruct (wall_plane f n d S) as (e & _ & C). destruct S as (_ & _ & _ & a & b & c & r & E & _). exists a, b, (c :: r). split; auto. unfold nor. rewrite N. unfold plane_coefficients in C. rewrite E in *. cbn [first_three rbind] in C.
      destruct (normal (last (a :: b :: c :: r) a) a b); [auto|discriminate]. }
    split; auto. intros p. unfold pd. rewrite N. destruct (distance_total f n d (nor pn) p S Fn) as (x & ->). auto.
  - exists hit. split.
    + intros p v pn f N. unfold hit. rewrite N. destruct (W f (nth_error_In _ _ N)) as (n & d & S). destruct (projection_total f n d p v S) as (b & ->). auto.
    + intros p v. unfold tg. destruct (sim_target_spec hit pd order_of s grid transparent p v O) as (t & -> & _). auto.
Qed.
