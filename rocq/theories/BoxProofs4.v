(** Proofs: rays stay in a box. *)
From Coq Require Import Ascii String Reals ZArith List Bool Arith Lia Lra.
From Verif Require Import Prelude TreeModel VecModel VecProofs SimModel SimSpec SimProofs SimProofs2 SimProofs3 SimProofs4 VoxModel VoxSpec VoxProofs GeomModel GeomSpec GeomProofs1 GeomProofs2 GeomProofs3 GeomProofs4 GeomProofs5 TriModel TriSpec PolyModel PolySpec PolyProofs1 PolyProofs2 SolidModel SolidSpec SolidProofs1 CrossSpec InsideSpec RoomSpec RoomProofs1 RoomProofs2 RoomProofs3 RoomProofs4 BoxSpec BoxProofs2 BoxProofs3.
Import ListNotations.
Local Open Scope R_scope.

(** Velocities with a property that reflections keep. *)
Section Keep.
Context (sc : scene) (P : vec -> Prop).
Context (Pm : forall p v k, P v -> target sc p v = Some k -> P (mirror (pnormal sc k) v)).
Definition kept (r : SimModel.ray) : Prop := P (r_vel r) /\ r_dpos r = smul (dt sc) (r_vel r).
Lemma kept_bounces p v ps v' : bounces sc p v ps v' -> P v -> P v'.
Proof. induction 1; auto. intros H'. eapply Pm; eauto. Qed.
Lemma kept_delta p v ps v' dp : bounces sc p v ps v' -> dp = smul (dt sc) v -> match ps with [] => dp | _ => smul (dt sc) v' end = smul (dt sc) v'.
Proof. intros B D. inversion B; subst; auto. destruct ps0; auto. Qed.
Lemma kept_outcome r r' : outcome sc r r' -> kept r -> kept r' /\ (r_pos r' = r_pos r \/
  (r_pos r' = vadd (r_pos r) (smul (dt sc) (r_vel r')) /\ (target sc (r_pos r) (r_vel r') = None \/ exists k, target sc (r_pos r) (r_vel r') = Some k /\ rdist sc < pdist sc (r_pos r) k))).
Proof.
  intros [D ->|_ L ->|ps _ _ B _ _ Ed Tg Ep|ps k _ _ B _ _ Ed Tg Pd Ep|ps k _ _ B Tg Pd _ _ Ed _ Ep] (N & Dp).
  - split; [split; auto|auto].
  - split; [split; auto|auto].
  - pose proof (kept_bounces _ _ _ _ B N) as N'. rewrite (kept_delta _ _ _ _ _ B Dp) in Ed. split; [split; auto|]. right. split; [rewrite Ep, Ed; auto|auto].
  - pose proof (kept_bounces _ _ _ _ B N) as N'. rewrite (kept_delta _ _ _ _ _ B Dp) in Ed. split; [split; auto|auto].
  - pose proof (kept_bounces _ _ _ _ B N) as N'. rewrite (kept_delta _ _ _ _ _ B Dp) in Ed. split; [split; auto|auto].
Qed.
Lemma kept_moves s1 s2 k r' : steps_to sc s1 s2 -> (forall r, In r (s_rays s1) -> kept r) -> nth_error (s_rays s2) k = Some r' ->
  exists r, nth_error (s_rays s1) k = Some r /\ kept r' /\ (r_pos r' = r_pos r \/
  (r_pos r' = vadd (r_pos r) (smul (dt sc) (r_vel r')) /\ (target sc (r_pos r) (r_vel r') = None \/ exists k, target sc (r_pos r) (r_vel r') = Some k /\ rdist sc < pdist sc (r_pos r) k))).
Proof.
  intros ((rs & A & O) & _) St N. destruct (forall2_nth _ _ _ _ _ O N) as (r1 & N1 & O1). destruct (forall2_nth _ _ _ _ _ A N1) as (r & Nr & A1). exists r. split; auto.
  assert (S1 : kept r1 /\ r_pos r1 = r_pos r). { assert (K : kept r) by (apply St; eapply nth_error_In; eauto). destruct A1 as [(_ & _ & ->)|(_ & ->)]; split; auto. }
  destruct S1 as (S1 & E1). destruct (kept_outcome r1 r' O1 S1) as (S2 & H). rewrite E1 in H. auto.
Qed.
Lemma kept_run s0 sts i st : run_of sc s0 sts -> (forall r, In r (s_rays s0) -> kept r) -> nth_error sts i = Some st -> forall r, In r (s_rays st) -> kept r.
Proof.
  intros (H0 & H) S0. revert st. induction i as [|i IH]; intros st N; [rewrite H0 in N; injection N as <-; auto|].
  destruct (nth_error sts i) as [st'|] eqn:E; [|apply nth_error_None in E; assert (X : nth_error sts (S i) <> None) by congruence; apply nth_error_Some in X; lia].
  intros r I. apply In_nth_error in I. destruct I as (k & I). destruct (kept_moves st' st k r (H i st' st E N) (IH st' eq_refl) I) as (r0 & _ & Sr & _). exact Sr.
Qed.
Lemma kept_simulation fuel num pos vel en hits b : 0 <= eps sc -> length vel = length pos -> length en = length pos -> length hits = length (absorbers sc) ->
  (forall v, In v vel -> P v) -> simulation_loop sc fuel num pos vel en hits = Ok b ->
  forall i k p p', cell (b_pos b) i k p -> cell (b_pos b) (S i) k p' -> p' = p \/ exists v, P v /\ p' = vadd p (smul (dt sc) v) /\
    (target sc p v = None \/ exists k, target sc p v = Some k /\ rdist sc < pdist sc p k).
Proof.
  intros Ep Lv Le Lh Nv E i k p p' (row & Nr & Nk) (row' & Nr' & Nk'). destruct (loop_history sc Ep fuel num pos vel en hits b Lv Le Lh E) as (s0 & sts & (I1 & I2 & I3 & I4 & I5) & _ & Rn & Eb & _).
  rewrite Eb, nth_error_map in Nr, Nr'. destruct (nth_error sts i) as [s1|] eqn:E1; [|discriminate]. destruct (nth_error sts (S i)) as [s2|] eqn:E2; [|discriminate]. injection Nr as <-. injection Nr' as <-.
  rewrite nth_error_map in Nk, Nk'. destruct (nth_error (s_rays s1) k) as [r|] eqn:Er; [|discriminate]. destruct (nth_error (s_rays s2) k) as [r'|] eqn:Er'; [|discriminate]. injection Nk as <-. injection Nk' as <-.
  assert (S0 : forall r, In r (s_rays s0) -> kept r) by (intros r0 I0; split; [apply Nv; rewrite <- I2; apply in_map; auto|rewrite Forall_forall in I5; auto]).
  destruct (kept_moves s1 s2 k r' (proj2 Rn i s1 s2 E1 E2) (kept_run s0 sts i s1 Rn S0 E1) Er') as (r0 & N0 & (Sr & _) & H). rewrite Er in N0. injection N0 as <-.
  destruct H as [H|(H1 & H2)]; [auto|right]. exists (r_vel r'). auto.
Qed.
End Keep.

(** When a moving point leaves an interval, and a box. *)
Lemma exit1 a lo hi w : lo < a < hi -> exists T, 0 < T /\ (forall t, 0 <= t < T -> lo < a + t * w < hi) /\ (T <= 1 -> (a + T * w = hi /\ 0 < w) \/ (a + T * w = lo /\ w < 0)).
Proof.
  intros A. destruct (Rtotal_order w 0) as [H|[->|H]].
  - exists ((lo - a) / w). assert (E : (lo - a) / w = (a - lo) * / (- w)) by (field; lra). pose proof (Rinv_0_lt_compat (- w) ltac:(lra)) as I. split; [rewrite E; apply Rmult_lt_0_compat; lra|]. split.
    + intros t T. assert (Q : t * (- w) < a - lo). { apply Rlt_le_trans with ((lo - a) / w * (- w)); [apply Rmult_lt_compat_r; lra|right; field; lra]. } pose proof (Rmult_le_pos t (- w)). lra.
    + intros _. right. split; [field; lra|auto].
  - exists 2. split; [lra|]. split; [intros t T; lra|lra].
  - exists ((hi - a) / w). pose proof (Rinv_0_lt_compat w H) as I. split; [unfold Rdiv; apply Rmult_lt_0_compat; lra|]. split.
    + intros t T. assert (Q : t * w < hi - a). { apply Rlt_le_trans with ((hi - a) / w * w); [apply Rmult_lt_compat_r; lra|right; field; lra]. } pose proof (Rmult_le_pos t w). lra.
    + intros _. left. split; [field; lra|auto].
Qed.
Lemma exit3 x y z mv p w : inside_box x y z mv p -> inside_box x y z mv (vadd p w) \/ exists T, 0 < T <= 1 /\ let q := vadd p (smul T w) in
  (vx mv <= vx q <= vx mv + x /\ vy mv <= vy q <= vy mv + y /\ vz mv <= vz q <= vz mv + z) /\
  ((vx q = vx mv + x /\ 0 < vx w) \/ (vx q = vx mv /\ vx w < 0) \/ (vy q = vy mv + y /\ 0 < vy w) \/ (vy q = vy mv /\ vy w < 0) \/ (vz q = vz mv + z /\ 0 < vz w) \/ (vz q = vz mv /\ vz w < 0)).
Proof.
  intros (A1 & A2 & A3). destruct (exit1 (vx p) (vx mv) (vx mv + x) (vx w) A1) as (T1 & P1 & I1 & O1). destruct (exit1 (vy p) (vy mv) (vy mv + y) (vy w) A2) as (T2 & P2 & I2 & O2). destruct (exit1 (vz p) (vz mv) (vz mv + z) (vz w) A3) as (T3 & P3 & I3 & O3).
  assert (C : forall T T' a lo hi u, 0 < T <= T' -> T <= 1 -> lo < hi -> (forall t, 0 <= t < T' -> lo < a + t * u < hi) -> (T' <= 1 -> (a + T' * u = hi /\ 0 < u) \/ (a + T' * u = lo /\ u < 0)) -> lo <= a + T * u <= hi).
  { intros T T' a lo hi u H1 H2 H3 H4 H5. destruct (Rlt_dec T T') as [L|L]; [specialize (H4 T); lra|]. assert (T' = T) as -> by lra. specialize (H5 H2). lra. }
  assert (M : exists T, 0 < T /\ T <= T1 /\ T <= T2 /\ T <= T3 /\ (T = T1 \/ T = T2 \/ T = T3)).
  { destruct (Rle_dec T1 T2), (Rle_dec T2 T3), (Rle_dec T1 T3); first [exists T1; repeat split; auto; lra|exists T2; repeat split; auto; lra|exists T3; repeat split; auto; lra]. }
  destruct M as (T & P & L1 & L2 & L3 & E). destruct (Rle_dec T 1) as [L|L]; [right|left].
  - exists T. split; [lra|]. cbn zeta. split.
    + vunf. split; [|split]; [apply (C T T1)|apply (C T T2)|apply (C T T3)]; auto; lra.
    + vunf. destruct E as [->|[->| ->]]; [specialize (O1 L)|specialize (O2 L)|specialize (O3 L)]; tauto.
  - unfold inside_box. vunf. specialize (I1 1). specialize (I2 1). specialize (I3 1). lra.
Qed.

Section Box.
Context (x y z : R) (mv : vec) (D : box_dims x y z mv) (name : str) (ws : list wall_t) (Hb : box x y z mv name = Ok ws) (Hv : validate_name name = Ok name).
Context (order_of : list nat -> list nat) (mn mx : vec) (s e : R) (grid : dict (Z * Z * Z) (list nat)) (sc : scene).
Context (Rm : room (faces_of ws) [] order_of mn mx s e grid sc).
Notation pt i j k := (box_point i j k x y z mv).
Lemma fits : box_fits x y z mv.
Proof. destruct D as (Dx & Dy & Dz & M1 & M2 & M3). exists 1. repeat (split; [lra|]). lra. Qed.
Definition side : Type := vec * vec * vec * R * R.
Definition sides : list side := [(pt 0 0 0, ey, ex, y, x); (pt 0 0 0, ex, ez, x, z); (pt 1 0 0, ey, ez, y, z); (pt 0 1 0, ez, ex, z, x); (pt 0 0 0, ez, ey, z, y); (pt 0 0 1, ex, ey, x, y)].
Definition side_face (d : side) : face := let '(o, e1, e2, L, W) := d in rface o e1 e2 L W.
Lemma faces_sides : faces_of ws = map side_face sides.
Proof.
  destruct (box_ok x y z mv fits name Hv) as (ws' & B & _ & _ & O & _ & T & _). rewrite Hb in B. injection B as <-. unfold outlines, box_outlines in O.
  assert (G : forall l : list wall_t, map (fun w => p_pts (snd (snd w))) l = map (fun d => fst (side_face d)) sides -> map (fun w => p_tri (snd (snd w))) l = repeat [(3, 0, 1); (3, 1, 2)]%nat 6 -> faces_of l = map side_face sides).
  { intros l. unfold faces_of, sides. destruct l as [|w0 [|w1 [|w2 [|w3 [|w4 [|w5 [|w6 l]]]]]]]; try discriminate. cbn [map repeat]. intros E1 E2. injection E1 as -> -> -> -> -> ->. injection E2 as -> -> -> -> -> ->. reflexivity. }
  apply G; auto. rewrite O. unfold sides, side_face, rface, off, box_point, ex, ey, ez. cbn [map fst snd]. vunf. repeat (apply f_equal2; [repeat (apply f_equal2; [f_equal; ring|]); reflexivity|]). reflexivity.
Qed.
Definition side_ok (d : side) : Prop := let '(o, e1, e2, L, W) := d in axes2 e1 e2 /\ 1 <= L <= 100 /\ 1 <= W <= 100.
Lemma sides_ok d : In d sides -> side_ok d.
Proof.
  destruct D as (Dx & Dy & Dz & _). unfold sides. intros [<-|[<-|[<-|[<-|[<-|[<-|[]]]]]]]; cbn [side_ok]; (split; [unfold axes2; cbn; tauto|split; lra]).
Qed.
Lemma side_at k d : nth_error sides k = Some d -> nth_error (faces_of ws) k = Some (side_face d).
Proof. intros N. rewrite faces_sides. exact (map_nth_error side_face k sides N). Qed.
Lemma side_of k f : nth_error (faces_of ws) k = Some f -> exists d, nth_error sides k = Some d /\ f = side_face d.
Proof. rewrite faces_sides. intros N. destruct (nth_error sides k) as [d|] eqn:E. { rewrite (map_nth_error side_face k sides E) in N. injection N as <-. eauto. } apply nth_error_None in E. assert (X : nth_error (map side_face sides) k <> None) by congruence. apply nth_error_Some in X. rewrite map_length in X. lia. Qed.
(** The normals the simulation uses. *)
Lemma side_normal k o e1 e2 L W : nth_error sides k = Some (o, e1, e2, L, W) -> pnormal sc k = cross e1 e2.
Proof.
  intros N. pose proof (sides_ok _ (nth_error_In _ _ N)) as (A & HL & HW). pose proof (side_at k _ N) as Nf. destruct Rm as (_ & _ & _ & _ & _ & Dp & _). destruct (Dp k _ Nf) as (Fn & _).
  apply (rect_first_normal o e1 e2 (cross e1 e2) L W A HL HW eq_refl _ Fn).
Qed.
(** A side is not passed away from its rim. *)
Lemma side_blocks p v k o e1 e2 L W t a b a' b' h : 1 / 1000 < speed sc * dt sc <= s -> 0 < dt sc -> norm v = speed sc ->
  (target sc p v = None \/ exists k, target sc p v = Some k /\ rdist sc < pdist sc p k) ->
  nth_error sides k = Some (o, e1, e2, L, W) -> 0 <= t <= 1 -> vadd p (smul t (smul (dt sc) v)) = off o e1 e2 a b -> 1 / 100000 <= a <= L - 1 / 100000 -> 1 / 100000 <= b <= W - 1 / 100000 ->
  p = vadd (off o e1 e2 a' b') (smul h (cross e1 e2)) -> 0 <= a' <= L -> 0 <= b' <= W -> Rabs h <= speed sc * dt sc -> 1 / 1000 <= Rabs (dot (cross e1 e2) v) -> False.
Proof.
  intros Sp D0 Nv Tg N T Eq Ha Hb' Ep Ha' Hb'' Hh Gr. pose proof (sides_ok _ (nth_error_In _ _ N)) as (A & HL & HW). pose proof (side_at k _ N) as Nf. cbn [side_face] in Nf.
  pose proof (rect_wall o e1 e2 (cross e1 e2) L W A HL HW eq_refl) as S.
  assert (R : rdist sc <= pdist sc p k).
  { apply (no_crossing _ _ _ _ _ _ _ _ _ Rm p v k (rface o e1 e2 L W) (cross e1 e2) (- dot (cross e1 e2) o) t (off o e1 e2 a b)); auto; try lra.
    - apply rect_in_mesh; lra.
    - apply (rect_accepts o e1 e2 (cross e1 e2) L W A HL HW eq_refl); auto; lra. }
  destruct Rm as (_ & _ & _ & _ & _ & Dp & _). destruct (Dp k _ Nf) as (Fn & Ed). specialize (Ed p). rewrite Ep in Ed at 1.
  pose proof (rect_distance o e1 e2 (cross e1 e2) L W A HL HW eq_refl (pnormal sc k) a' b' h (pdist sc p k) Fn Ha' Hb'' Ed) as Up. unfold rdist in R. lra.
Qed.
Lemma near_or lo len c : lo <= c <= lo + len -> near_bound lo len c \/ 1 / 100000 <= c - lo <= len - 1 / 100000.
Proof.
  intros H. unfold near_bound. rewrite Rabs_pos_eq by lra. rewrite (Rabs_left1 (c - (lo + len))) by lra. lra.
Qed.
Lemma at_bound lo len c : (c = lo \/ c = lo + len) -> near_bound lo len c.
Proof. intros [->| ->]; unfold near_bound; [left|right]; rewrite Rminus_diag_eq, Rabs_R0 by auto; lra. Qed.
Lemma box_move p v : 1 / 1000 < speed sc * dt sc <= s -> 0 < dt sc -> norm v = speed sc -> no_tiny v ->
  (target sc p v = None \/ exists k, target sc p v = Some k /\ rdist sc < pdist sc p k) -> inside_box x y z mv p ->
  inside_box x y z mv (vadd p (smul (dt sc) v)) \/ exists t, 0 <= t <= 1 /\ near_edge x y z mv (vadd p (smul t (smul (dt sc) v))).
Proof.
  intros Sp D0 Nv Nt Tg I. destruct (exit3 x y z mv p (smul (dt sc) v) I) as [H|(T & HT & Cl & Cs)]; [left; exact H|right]. cbn zeta in Cl, Cs. exists T. split; [lra|].
  set (q := vadd p (smul T (smul (dt sc) v))) in *. destruct Cl as (Cx & Cy & Cz). destruct I as (Ix & Iy & Iz).
  assert (Lc : forall c, In c [vx; vy; vz] -> Rabs (c (smul (dt sc) v)) <= speed sc * dt sc). { intros c Ic. eapply Rle_trans; [apply coord_le_norm; auto|]. rewrite norm_smul, Nv, Rabs_pos_eq by lra. lra. }
  assert (Nz : forall c, In c [vx; vy; vz] -> c (smul (dt sc) v) <> 0 -> 1 / 1000 <= Rabs (c v)). { intros c Ic H. destruct (Nt c Ic) as [E|]; auto. exfalso. apply H. replace (c (smul (dt sc) v)) with (dt sc * c v) by (destruct Ic as [<-|[<-|[<-|[]]]]; vunf; ring). rewrite E. ring. }
  assert (Mq : forall c, In c [vx; vy; vz] -> c q = c p + T * c (smul (dt sc) v)) by (intros c Ic; unfold q; destruct Ic as [<-|[<-|[<-|[]]]]; vunf; ring).
  assert (Hh : forall c, In c [vx; vy; vz] -> Rabs (c q - c p) <= speed sc * dt sc). { intros c Ic. rewrite (Mq c Ic). replace (c p + T * c (smul (dt sc) v) - c p) with (T * c (smul (dt sc) v)) by ring. rewrite Rabs_mult, Rabs_pos_eq by lra. pose proof (Lc c Ic). pose proof (Rabs_pos (c (smul (dt sc) v))). nra. }
  pose proof (Hh vx ltac:(cbn; auto)) as Hx. pose proof (Hh vy ltac:(cbn; auto)) as Hy. pose proof (Hh vz ltac:(cbn; auto)) as Hz.
  pose proof (near_or _ _ _ Cx) as Nx. pose proof (near_or _ _ _ Cy) as Ny. pose proof (near_or _ _ _ Cz) as Nzz. unfold near_edge.
  assert (Qe : vadd p (smul T (smul (dt sc) v)) = V (vx q) (vy q) (vz q)) by (unfold q; destruct (vadd p (smul T (smul (dt sc) v))); reflexivity). clearbody q. assert (Pv : p = V (vx p) (vy p) (vz p)) by (destruct p; reflexivity).
  destruct Cs as [(E & Lt)|[(E & Lt)|[(E & Lt)|[(E & Lt)|[(E & Lt)|(E & Lt)]]]]].
  - pose proof (at_bound (vx mv) x (vx q) (or_intror E)) as Bq. destruct Ny as [Ny|Ny]; [auto|]. destruct Nzz as [Nzz|Nzz]; [auto|]. exfalso.
    apply (side_blocks p v 2 (pt 1 0 0) ey ez y z T (vy q - vy mv) (vz q - vz mv) (vy p - vy mv) (vz p - vz mv) (vx p - vx q)); auto; try lra.
    + rewrite Qe. unfold off, box_point, ey, ez. vunf. f_equal; lra.
    + rewrite Pv at 1. unfold off, box_point, ey, ez. vunf. f_equal; lra.
    + rewrite Rabs_minus_sym. auto.
    + replace (dot (cross ey ez) v) with (vx v) by (unfold ey, ez; dvec v; vunf; ring). apply Nz; [cbn; auto|lra].
  - pose proof (at_bound (vx mv) x (vx q) (or_introl E)) as Bq. destruct Ny as [Ny|Ny]; [auto|]. destruct Nzz as [Nzz|Nzz]; [auto|]. exfalso.
    apply (side_blocks p v 4 (pt 0 0 0) ez ey z y T (vz q - vz mv) (vy q - vy mv) (vz p - vz mv) (vy p - vy mv) (vx q - vx p)); auto; try lra.
    + rewrite Qe. unfold off, box_point, ey, ez. vunf. f_equal; lra.
    + rewrite Pv at 1. unfold off, box_point, ey, ez. vunf. f_equal; lra.
    + replace (dot (cross ez ey) v) with (- vx v) by (unfold ey, ez; dvec v; vunf; ring). rewrite Rabs_Ropp. apply Nz; [cbn; auto|lra].
  - pose proof (at_bound (vy mv) y (vy q) (or_intror E)) as Bq. destruct Nx as [Nx|Nx]; [auto|]. destruct Nzz as [Nzz|Nzz]; [auto|]. exfalso.
    apply (side_blocks p v 3 (pt 0 1 0) ez ex z x T (vz q - vz mv) (vx q - vx mv) (vz p - vz mv) (vx p - vx mv) (vy p - vy q)); auto; try lra.
    + rewrite Qe. unfold off, box_point, ex, ez. vunf. f_equal; lra.
    + rewrite Pv at 1. unfold off, box_point, ex, ez. vunf. f_equal; lra.
    + rewrite Rabs_minus_sym. auto.
    + replace (dot (cross ez ex) v) with (vy v) by (unfold ex, ez; dvec v; vunf; ring). apply Nz; [cbn; auto|lra].
  - pose proof (at_bound (vy mv) y (vy q) (or_introl E)) as Bq. destruct Nx as [Nx|Nx]; [auto|]. destruct Nzz as [Nzz|Nzz]; [auto|]. exfalso.
    apply (side_blocks p v 1 (pt 0 0 0) ex ez x z T (vx q - vx mv) (vz q - vz mv) (vx p - vx mv) (vz p - vz mv) (vy q - vy p)); auto; try lra.
    + rewrite Qe. unfold off, box_point, ex, ez. vunf. f_equal; lra.
    + rewrite Pv at 1. unfold off, box_point, ex, ez. vunf. f_equal; lra.
    + replace (dot (cross ex ez) v) with (- vy v) by (unfold ex, ez; dvec v; vunf; ring). rewrite Rabs_Ropp. apply Nz; [cbn; auto|lra].
  - pose proof (at_bound (vz mv) z (vz q) (or_intror E)) as Bq. destruct Nx as [Nx|Nx]; [auto|]. destruct Ny as [Ny|Ny]; [auto|]. exfalso.
    apply (side_blocks p v 5 (pt 0 0 1) ex ey x y T (vx q - vx mv) (vy q - vy mv) (vx p - vx mv) (vy p - vy mv) (vz p - vz q)); auto; try lra.
    + rewrite Qe. unfold off, box_point, ex, ey. vunf. f_equal; lra.
    + rewrite Pv at 1. unfold off, box_point, ex, ey. vunf. f_equal; lra.
    + rewrite Rabs_minus_sym. auto.
    + replace (dot (cross ex ey) v) with (vz v) by (unfold ex, ey; dvec v; vunf; ring). apply Nz; [cbn; auto|lra].
  - pose proof (at_bound (vz mv) z (vz q) (or_introl E)) as Bq. destruct Nx as [Nx|Nx]; [auto|]. destruct Ny as [Ny|Ny]; [auto|]. exfalso.
    apply (side_blocks p v 0 (pt 0 0 0) ey ex y x T (vy q - vy mv) (vx q - vx mv) (vy p - vy mv) (vx p - vx mv) (vz q - vz p)); auto; try lra.
    + rewrite Qe. unfold off, box_point, ex, ey. vunf. f_equal; lra.
    + rewrite Pv at 1. unfold off, box_point, ex, ey. vunf. f_equal; lra.
    + replace (dot (cross ey ex) v) with (- vz v) by (unfold ex, ey; dvec v; vunf; ring). rewrite Rabs_Ropp. apply Nz; [cbn; auto|lra].
Qed.
(** Reflections only change the sign of one component. *)
Lemma mirror_axis n v : In n [V 1 0 0; V (-1) 0 0; V 0 1 0; V 0 (-1) 0; V 0 0 1; V 0 0 (-1)] -> forall c, In c [vx; vy; vz] -> Rabs (c (mirror n v)) = Rabs (c v).
Proof.
  intros I c Ic. assert (E : mirror n v = v \/ exists i j k, (i = 1 \/ i = -1) /\ (j = 1 \/ j = -1) /\ (k = 1 \/ k = -1) /\ mirror n v = V (i * vx v) (j * vy v) (k * vz v)).
  { right. destruct I as [<-|[<-|[<-|[<-|[<-|[<-|[]]]]]]]; [exists (-1), 1, 1|exists (-1), 1, 1|exists 1, (-1), 1|exists 1, (-1), 1|exists 1, 1, (-1)|exists 1, 1, (-1)]; repeat (split; [auto|]); unfold mirror; dvec v; vunf; f_equal; ring. }
  destruct E as [->|(i & j & k & Hi & Hj & Hk & ->)]; auto. assert (Q : forall i u, (i = 1 \/ i = -1) -> Rabs (i * u) = Rabs u) by (intros i0 u [->| ->]; [f_equal; ring|replace (-1 * u) with (- u) by ring; apply Rabs_Ropp]).
  destruct Ic as [<-|[<-|[<-|[]]]]; cbn [vx vy vz]; auto.
Qed.
Lemma box_normal p v k : target sc p v = Some k -> In (pnormal sc k) [V 1 0 0; V (-1) 0 0; V 0 1 0; V 0 (-1) 0; V 0 0 1; V 0 0 (-1)].
Proof.
  intros T. destruct (target_wall _ _ _ _ _ _ _ _ _ Rm p v k T) as (f & N). destruct (side_of k f N) as (((((o, e1), e2), L), W) & Nd & _). rewrite (side_normal k o e1 e2 L W Nd).
  apply nth_error_In in Nd. unfold sides in Nd. destruct Nd as [E|[E|[E|[E|[E|[E|[]]]]]]]; injection E as <- <- <- <- <-; unfold ex, ey, ez.
  - do 5 right. left. vunf; f_equal; ring.
  - do 3 right. left. vunf; f_equal; ring.
  - left. vunf; f_equal; ring.
  - do 2 right. left. vunf; f_equal; ring.
  - right. left. vunf; f_equal; ring.
  - do 4 right. left. vunf; f_equal; ring.
Qed.
Lemma keeps_tiny p v k : (norm v = speed sc /\ no_tiny v) -> target sc p v = Some k -> norm (mirror (pnormal sc k) v) = speed sc /\ no_tiny (mirror (pnormal sc k) v).
Proof.
  intros (N & Nt) T. pose proof (box_normal p v k T) as I. split.
  - rewrite <- N. unfold norm. f_equal. pose proof (target_unit _ _ _ _ _ _ _ _ _ Rm p v k T) as U. unfold mirror. set (n := pnormal sc k) in *. set (w := dot n v).
    replace (dot (vsub v (smul (2 * w) n)) (vsub v (smul (2 * w) n))) with (dot v v - 4 * w * dot n v + 4 * w * w * dot n n) by (clearbody w n; dvec v; dvec n; vunf; ring). rewrite U. fold w. ring.
  - intros c Ic. pose proof (mirror_axis _ v I c Ic) as E. destruct (Nt c Ic) as [Z0|L]; [left|right; lra]. rewrite Z0, Rabs_R0 in E. destruct (Req_dec (c (mirror (pnormal sc k) v)) 0); auto. apply Rabs_pos_lt in H. lra.
Qed.
Lemma keeps_oblique p v k : oblique v -> target sc p v = Some k -> oblique (mirror (pnormal sc k) v).
Proof. intros O T c Ic. rewrite (mirror_axis _ v (box_normal p v k T) c Ic). auto. Qed.
Lemma box_confines fuel num pos vel en hits b : 0 <= eps sc -> length vel = length pos -> length en = length pos -> length hits = length (absorbers sc) ->
  (forall v, In v vel -> norm v = speed sc /\ no_tiny v) -> simulation_loop sc fuel num pos vel en hits = Ok b -> 0 < dt sc -> 1 / 1000 < speed sc * dt sc <= s ->
  forall i k p p', cell (b_pos b) i k p -> cell (b_pos b) (S i) k p' -> inside_box x y z mv p ->
  inside_box x y z mv p' \/ exists t, 0 <= t <= 1 /\ near_edge x y z mv (vadd p (smul t (vsub p' p))).
Proof.
  intros Ep Lv Le Lh Nv E D0 Sp i k p p' C C' I.
  destruct (kept_simulation sc (fun v => norm v = speed sc /\ no_tiny v) keeps_tiny fuel num pos vel en hits b Ep Lv Le Lh Nv E i k p p' C C') as [->|(v & (Nn & Nt) & -> & Tg)]; [auto|].
  destruct (box_move p v Sp D0 Nn Nt Tg I) as [H|(t & T & H)]; [auto|right]. exists t. split; auto. replace (vsub (vadd p (smul (dt sc) v)) p) with (smul (dt sc) v) by (dvec p; dvec v; vunf; f_equal; ring). exact H.
Qed.
End Box.
