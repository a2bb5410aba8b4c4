(** Proofs: the number of reflections in one step in a box. *)
From Coq Require Import Ascii String Reals ZArith List Bool Arith Lia Lra.
From Verif Require Import Prelude TreeModel VecModel VecProofs SimModel SimSpec SimProofs SimProofs2 SimProofs3 SimProofs4 VoxModel VoxSpec VoxProofs GeomModel GeomSpec GeomProofs1 GeomProofs2 GeomProofs3 GeomProofs4 GeomProofs5 TriModel TriSpec PolyModel PolySpec PolyProofs1 PolyProofs2 SolidModel SolidSpec SolidProofs1 CrossSpec InsideSpec RoomSpec RoomProofs1 RoomProofs2 RoomProofs3 RoomProofs4 BoxSpec BoxProofs2 BoxProofs3 BoxProofs4.
Import ListNotations.
Local Open Scope R_scope.

(** Reflections that reduce a measure come to an end. *)
Section Measure.
Context (sc : scene) (p : vec) (P : vec -> Prop) (m : vec -> nat).
Context (Pm : forall v k, P v -> target sc p v = Some k -> pdist sc p k < rdist sc -> P (mirror (pnormal sc k) v) /\ (m (mirror (pnormal sc k) v) < m v)%nat).
Lemma measure_bounces v ps v' : bounces sc p v ps v' -> P v -> P v' /\ (m v' + length ps <= m v)%nat.
Proof.
  induction 1 as [|ps v1 k B IH T L]; intros Pv; [split; auto; cbn [length]; lia|]. destruct (IH Pv) as (P1 & M1). destruct (Pm v1 k P1 T L) as (P2 & M2). split; auto. rewrite app_length. cbn [length]. lia.
Qed.
Lemma measure_loop n : forall v dp en, P v -> (m v <= n)%nat -> exists r, Nat.iter (S n) (micro sc) (Loop (target sc p v), mkRay p v dp en) = (Done, r).
Proof.
  induction n as [|n IH]; intros v dp en Pv M.
  - match goal with |- context [Nat.iter 1 ?f ?x] => change (Nat.iter 1 f x) with (f x) end. cbn [micro r_pos r_vel r_en r_dpos]. destruct (target sc p v) as [k|] eqn:T; [|match goal with |- context [if ?c then _ else _] => destruct c end; eauto].
    destruct (dist_lt sc p (Some k) && Rltb (eps sc) en) eqn:C; [|match goal with |- context [if ?c then _ else _] => destruct c end; eauto]. apply andb_true_iff in C. destruct C as (C & _). cbn [dist_lt] in C. apply Rltb_true in C. destruct (Pm v k Pv T C) as (_ & X). lia.
  - rewrite iter_succ_r. cbn [micro r_pos r_vel r_en r_dpos]. destruct (target sc p v) as [k|] eqn:T; [|match goal with |- context [if ?c then _ else _] => destruct c end; rewrite iter_done; eauto].
    destruct (dist_lt sc p (Some k) && Rltb (eps sc) en) eqn:C; [|match goal with |- context [if ?c then _ else _] => destruct c end; rewrite iter_done; eauto]. apply andb_true_iff in C. destruct C as (C & _). cbn [dist_lt] in C. apply Rltb_true in C. destruct (Pm v k Pv T C) as (P1 & X).
    destruct (Rleb (en - surf sc k) (eps sc)); [rewrite iter_done; eauto|]. unfold reflect. cbn [r_pos r_vel r_en r_dpos]. apply IH; [exact P1|]. unfold mirror in X. lia.
Qed.
Lemma measure_step r n : r_pos r = p -> P (r_vel r) -> (m (r_vel r) <= n)%nat -> exists r', forall fuel, (n + 2 <= fuel)%nat -> step_ray sc fuel r = Ok r'.
Proof.
  intros E Pv M. assert (X : exists r', step_ray sc (n + 2) r = Ok r').
  { unfold step_ray. replace (n + 2)%nat with (S (S n)) by lia. rewrite iter_succ_r. unfold micro at 2. destruct (Rleb (r_en r) (eps sc)); [rewrite iter_done; eauto|]. rewrite E.
    match goal with |- context [mkRay p (r_vel r) ?d ?e] => destruct (measure_loop n (r_vel r) d e Pv M) as (r' & ->) end. eauto. }
  destruct X as (r' & X). exists r'. intros fuel L. exact (step_more sc _ _ _ _ L X).
Qed.
End Measure.

Section Box.
Context (x y z : R) (mv : vec) (D : box_dims x y z mv) (name : str) (ws : list wall_t) (Hb : box x y z mv name = Ok ws) (Hv : validate_name name = Ok name).
Context (order_of : list nat -> list nat) (mn mx : vec) (s e : R) (grid : dict (Z * Z * Z) (list nat)) (sc : scene).
Context (Rm : room (faces_of ws) [] order_of mn mx s e grid sc).
Notation sides := (sides x y z mv).
(** The target of a ray in the box lies ahead of it and is no nearer than its plane. *)
Lemma target_ahead p v k o e1 e2 L W : nth_error sides k = Some (o, e1, e2, L, W) -> 1 / 1000 <= Rabs (dot (cross e1 e2) v) -> dot (cross e1 e2) p + - dot (cross e1 e2) o < 0 -> target sc p v = Some k ->
  0 < dot (cross e1 e2) v /\ Rabs (dot (cross e1 e2) p + - dot (cross e1 e2) o) <= pdist sc p k.
Proof.
  intros N Ob Ng T. pose proof (sides_ok x y z mv D _ (nth_error_In _ _ N)) as (A & HL & HW). pose proof (side_at x y z mv D name ws Hb Hv k _ N) as Nf. cbn [side_face] in Nf.
  pose proof (rect_wall o e1 e2 (cross e1 e2) L W A HL HW eq_refl) as S. set (n := cross e1 e2) in *. set (d := - dot n o) in *. set (f := rface o e1 e2 L W) in *.
  destruct Rm as (O & _ & _ & _ & _ & Dp & hit & Hh & Ht). destruct (Dp k f Nf) as (Fn & Ed). split; [|exact (plane_below o e1 e2 n L W A HL HW eq_refl _ p _ Fn (Ed p))].
  destruct (sim_target_spec hit (pdist sc) order_of s grid [] p v O) as (t & Et & X). rewrite Ht, T in Et. apply Ok_inj in Et. subst t. destruct X as ((_ & _ & X) & _).
  pose proof (Hh p v k f Nf) as H. rewrite X in H. destruct (wall_plane f n d S) as (e0 & He & C).
  assert (L' : 1 / 1000 <= Rabs (dot (smul e0 n) v)). { replace (dot (smul e0 n) v) with (e0 * dot n v) by (unfold dot, smul; cbn [vx vy vz]; ring). rewrite Rabs_mult. replace (Rabs e0) with 1 by (destruct He as [->| ->]; [rewrite Rabs_R1|rewrite Rabs_left]; lra). lra. }
  destruct (projection_spec p v (fst f) (snd f) true (1 / 1000) (smul e0 n) (e0 * d) true C) as (s0 & Hs & _ & I); [lra|auto|]. apply I in H. cbn [andb] in H.
  destruct (Rltb s0 0) eqn:Sg; [discriminate|]. apply Rltb_false in Sg. apply (smul_plane e0 n d _ He) in Hs. unfold on_plane in Hs. rewrite dot_vadd_r, dot_smul_r in Hs.
  clearbody d n. destruct (Rlt_dec 0 (dot n v)) as [|G]; auto. exfalso. pose proof (Rmult_le_pos s0 (- dot n v) ltac:(lra) ltac:(lra)). lra.
Qed.
(** How many axes have a side within reach ahead. *)
Definition facing (lo hi a u : R) : nat := if Rlt_dec 0 u then (if Rlt_dec (hi - a) (rdist sc) then 1 else 0) else (if Rlt_dec (a - lo) (rdist sc) then 1 else 0).
Definition facings (p v : vec) : nat := facing (vx mv) (vx mv + x) (vx p) (vx v) + facing (vy mv) (vy mv + y) (vy p) (vy v) + facing (vz mv) (vz mv + z) (vz p) (vz v).
Lemma facing_le lo hi a u : (facing lo hi a u <= 1)%nat.
Proof. unfold facing. destruct (Rlt_dec 0 u), (Rlt_dec (hi - a) (rdist sc)), (Rlt_dec (a - lo) (rdist sc)); lia. Qed.
Lemma facing_up lo hi a u : 2 * rdist sc < hi - lo -> 0 < u -> hi - a < rdist sc -> (facing lo hi a (- u) < facing lo hi a u)%nat.
Proof. intros H U N. unfold facing. destruct (Rlt_dec 0 (- u)); [lra|]. destruct (Rlt_dec 0 u); [|lra]. destruct (Rlt_dec (hi - a) (rdist sc)); [|lra]. destruct (Rlt_dec (a - lo) (rdist sc)); [lra|lia]. Qed.
Lemma facing_down lo hi a u : 2 * rdist sc < hi - lo -> u < 0 -> a - lo < rdist sc -> (facing lo hi a (- u) < facing lo hi a u)%nat.
Proof. intros H U N. unfold facing. destruct (Rlt_dec 0 (- u)); [|lra]. destruct (Rlt_dec 0 u); [lra|]. destruct (Rlt_dec (a - lo) (rdist sc)); [|lra]. destruct (Rlt_dec (hi - a) (rdist sc)); [lra|lia]. Qed.
Lemma oblique_dot v e1 e2 : oblique v -> axes2 e1 e2 -> 1 / 1000 <= Rabs (dot (cross e1 e2) v).
Proof.
  intros O A. pose proof (O vx ltac:(cbn; auto)). pose proof (O vy ltac:(cbn; auto)). pose proof (O vz ltac:(cbn; auto)).
  assert (G : forall u, dot (cross e1 e2) v = u \/ dot (cross e1 e2) v = - u -> 1 / 1000 <= Rabs u -> 1 / 1000 <= Rabs (dot (cross e1 e2) v)) by (intros u [->| ->]; rewrite ?Rabs_Ropp; auto).
  ax A; first [apply (G (vx v)); [unfold ex, ey, ez, dot, cross; cbn [vx vy vz]; first [left; ring|right; ring]|auto]|apply (G (vy v)); [unfold ex, ey, ez, dot, cross; cbn [vx vy vz]; first [left; ring|right; ring]|auto]|apply (G (vz v)); [unfold ex, ey, ez, dot, cross; cbn [vx vy vz]; first [left; ring|right; ring]|auto]].
Qed.
Lemma bounce_less p v k : inside_box x y z mv p -> 2 * rdist sc < x -> 2 * rdist sc < y -> 2 * rdist sc < z -> oblique v -> target sc p v = Some k -> pdist sc p k < rdist sc ->
  oblique (mirror (pnormal sc k) v) /\ (facings p (mirror (pnormal sc k) v) < facings p v)%nat.
Proof.
  intros (Ix & Iy & Iz) Lx Ly Lz Ob T Pd. split; [exact (keeps_oblique x y z mv D name ws Hb Hv order_of mn mx s e grid sc Rm p v k Ob T)|].
  destruct (target_wall _ _ _ _ _ _ _ _ _ Rm p v k T) as (f & N). destruct (side_of x y z mv D name ws Hb Hv k f N) as (((((o, e1), e2), L), W) & Nd & _).
  rewrite (side_normal x y z mv D name ws Hb Hv order_of mn mx s e grid sc Rm k o e1 e2 L W Nd).
  pose proof (sides_ok x y z mv D _ (nth_error_In _ _ Nd)) as (A & _). pose proof (oblique_dot v e1 e2 Ob A) as Od. pose proof (target_ahead p v k o e1 e2 L W Nd Od) as Ah.
  assert (Mx : forall n, mirror n v = V (vx v - 2 * dot n v * vx n) (vy v - 2 * dot n v * vy n) (vz v - 2 * dot n v * vz n)) by (intros n; reflexivity). rewrite Mx. unfold facings. cbn [vx vy vz].
  destruct k as [|[|[|[|[|[|k]]]]]]; cbn [nth_error BoxProofs4.sides] in Nd; [..|destruct k; discriminate]; injection Nd as <- <- <- <- <-; unfold box_point, ex, ey, ez, dot, cross in Ah; unfold ex, ey, ez, dot, cross; cbn [vx vy vz] in *.
  - destruct Ah as (G & Q); [lra|auto|]. rewrite Rabs_left in Q by lra.
    match goal with |- (facing (vx mv) _ _ ?a + _ + _ < _)%nat => replace a with (vx v) by ring end. match goal with |- (_ + facing (vy mv) _ _ ?a + _ < _)%nat => replace a with (vy v) by ring end.
    match goal with |- (_ + facing (vz mv) _ _ ?a < _)%nat => replace a with (- vz v) by ring end. pose proof (facing_down (vz mv) (vz mv + z) (vz p) (vz v) ltac:(lra) ltac:(lra) ltac:(lra)). lia.
  - destruct Ah as (G & Q); [lra|auto|]. rewrite Rabs_left in Q by lra.
    match goal with |- (facing (vx mv) _ _ ?a + _ + _ < _)%nat => replace a with (vx v) by ring end. match goal with |- (_ + facing (vy mv) _ _ ?a + _ < _)%nat => replace a with (- vy v) by ring end.
    match goal with |- (_ + facing (vz mv) _ _ ?a < _)%nat => replace a with (vz v) by ring end. pose proof (facing_down (vy mv) (vy mv + y) (vy p) (vy v) ltac:(lra) ltac:(lra) ltac:(lra)). lia.
  - destruct Ah as (G & Q); [lra|auto|]. rewrite Rabs_left in Q by lra.
    match goal with |- (facing (vx mv) _ _ ?a + _ + _ < _)%nat => replace a with (- vx v) by ring end. match goal with |- (_ + facing (vy mv) _ _ ?a + _ < _)%nat => replace a with (vy v) by ring end.
    match goal with |- (_ + facing (vz mv) _ _ ?a < _)%nat => replace a with (vz v) by ring end. pose proof (facing_up (vx mv) (vx mv + x) (vx p) (vx v) ltac:(lra) ltac:(lra) ltac:(lra)). lia.
  - destruct Ah as (G & Q); [lra|auto|]. rewrite Rabs_left in Q by lra.
    match goal with |- (facing (vx mv) _ _ ?a + _ + _ < _)%nat => replace a with (vx v) by ring end. match goal with |- (_ + facing (vy mv) _ _ ?a + _ < _)%nat => replace a with (- vy v) by ring end.
    match goal with |- (_ + facing (vz mv) _ _ ?a < _)%nat => replace a with (vz v) by ring end. pose proof (facing_up (vy mv) (vy mv + y) (vy p) (vy v) ltac:(lra) ltac:(lra) ltac:(lra)). lia.
  - destruct Ah as (G & Q); [lra|auto|]. rewrite Rabs_left in Q by lra.
    match goal with |- (facing (vx mv) _ _ ?a + _ + _ < _)%nat => replace a with (- vx v) by ring end. match goal with |- (_ + facing (vy mv) _ _ ?a + _ < _)%nat => replace a with (vy v) by ring end.
    match goal with |- (_ + facing (vz mv) _ _ ?a < _)%nat => replace a with (vz v) by ring end. pose proof (facing_down (vx mv) (vx mv + x) (vx p) (vx v) ltac:(lra) ltac:(lra) ltac:(lra)). lia.
  - destruct Ah as (G & Q); [lra|auto|]. rewrite Rabs_left in Q by lra.
    match goal with |- (facing (vx mv) _ _ ?a + _ + _ < _)%nat => replace a with (vx v) by ring end. match goal with |- (_ + facing (vy mv) _ _ ?a + _ < _)%nat => replace a with (vy v) by ring end.
    match goal with |- (_ + facing (vz mv) _ _ ?a < _)%nat => replace a with (- vz v) by ring end. pose proof (facing_up (vz mv) (vz mv + z) (vz p) (vz v) ltac:(lra) ltac:(lra) ltac:(lra)). lia.
Qed.
Lemma facings_le p v : (facings p v <= 3)%nat.
Proof. unfold facings. pose proof (facing_le (vx mv) (vx mv + x) (vx p) (vx v)). pose proof (facing_le (vy mv) (vy mv + y) (vy p) (vy v)). pose proof (facing_le (vz mv) (vz mv + z) (vz p) (vz v)). lia. Qed.
Lemma three_bounces p v ps v' : inside_box x y z mv p -> 2 * rdist sc < x -> 2 * rdist sc < y -> 2 * rdist sc < z -> oblique v -> bounces sc p v ps v' -> (length ps <= 3)%nat.
Proof.
  intros I Lx Ly Lz Ob B. destruct (measure_bounces sc p oblique (facings p) (fun v k O T P => bounce_less p v k I Lx Ly Lz O T P) v ps v' B Ob) as (_ & H). pose proof (facings_le p v). lia.
Qed.
Lemma box_step r : inside_box x y z mv (r_pos r) -> 2 * rdist sc < x -> 2 * rdist sc < y -> 2 * rdist sc < z -> oblique (r_vel r) -> exists r', forall fuel, (5 <= fuel)%nat -> step_ray sc fuel r = Ok r'.
Proof.
  intros I Lx Ly Lz Ob. exact (measure_step sc (r_pos r) oblique (facings (r_pos r)) (fun v k O T P => bounce_less (r_pos r) v k I Lx Ly Lz O T P) r 3 eq_refl Ob (facings_le _ _)).
Qed.
(** The loss of energy in a step. *)
Lemma box_energy a r r' : 0 <= a -> (forall k, 0 <= surf sc k <= a) -> inside_box x y z mv (r_pos r) -> 2 * rdist sc < x -> 2 * rdist sc < y -> 2 * rdist sc < z -> oblique (r_vel r) -> ~ left_box sc (r_pos r) -> eps sc + 3 * a < r_en r ->
  outcome sc r r' -> r_en r - 3 * a <= r_en r' <= r_en r.
Proof.
  intros A Sf I Lx Ly Lz Ob Nl E O.
  assert (Ts : forall ps, (length ps <= 3)%nat -> 0 <= total_surf sc ps <= 3 * a).
  { intros ps. assert (G : 0 <= total_surf sc ps <= INR (length ps) * a). { unfold total_surf. induction ps as [|k ps IH]; [simpl; lra|]. cbn [length map]. rewrite S_INR, Rsum_cons. specialize (Sf k). lra. }
    intros L. apply le_INR in L. change (INR 3) with (1 + 1 + 1) in L. pose proof (Rmult_le_compat_r a _ _ A L). lra. }
  destruct O as [H ->|_ H ->|ps _ _ B En _ _ _ _|ps k _ _ B En _ _ _ _ _|ps k _ _ B T P _ Sp _ _ _].
  - lra.
  - tauto.
  - specialize (Ts ps (three_bounces _ _ _ _ I Lx Ly Lz Ob B)). lra.
  - specialize (Ts ps (three_bounces _ _ _ _ I Lx Ly Lz Ob B)). lra.
  - exfalso. specialize (Ts (ps ++ [k]) (three_bounces _ _ _ _ I Lx Ly Lz Ob (bounces_snoc _ _ _ _ _ _ B T P))). lra.
Qed.
End Box.
