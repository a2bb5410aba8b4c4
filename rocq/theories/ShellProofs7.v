(** Convex solids: the code finds the points behind all faces. *)
From Coq Require Import Reals List ZArith Bool Arith Lia Lra Psatz Permutation Classical.
From Verif Require Import Prelude VecModel VecProofs GeomModel GeomSpec GeomProofs1 TriModel TriSpec TriProofs2 PolyModel PolySpec SolidModel SolidSpec CrossSpec InsideSpec InsideProofs1 RoomSpec RoomProofs1 PlanProofs4 GeomProofs3
  WindSpec WindProofs1 LoopSpec LoopProofs5 LoopProofs6 ShellSpec ShellProofs1 ShellProofs2 ShellProofs3 ShellProofs4 ShellProofs5.
Import ListNotations.
Local Open Scope R_scope.

Lemma only_one f n d i j t0 tj a b c a' b' c' x : covers f n d -> simple_outline (fst f) -> nth_error (snd f) i = Some t0 -> tri_verts (fst f) t0 (a, b, c) -> strictly_inside a b c x ->
  nth_error (snd f) j = Some tj -> tri_verts (fst f) tj (a', b', c') -> in_triangle a' b' c' x -> i = j.
Proof.
  intros C Sm Ei Ve Si Etj Vj In'. pose proof (nth_error_In _ _ Etj) as Itj. pose proof (nth_error_In _ _ Ei) as It.
  assert (Pt : on_plane n d x). { destruct (covers_tri f n d t0 a b c C It Ve) as (U & A & B & Ce & _). apply (triangle_on_plane n d a b c); auto. apply strictly_in. exact Si. }
  pose proof (proj1 (tri_edges_inside n d f t0 a b c x C It Ve Pt) Si) as Le. destruct (left_near n x (middle a' b' c') _ Le) as (k & K & Lk).
  assert (Pk : on_plane n d (seg_point x (middle a' b' c') k)). { pose proof (middle_on n d f tj a' b' c' C Itj Vj) as Pm. unfold on_plane in *. unfold seg_point. replace (dot n (vadd x (smul k (vsub (middle a' b' c') x)))) with ((1 - k) * dot n x + k * dot n (middle a' b' c')) by (vunf; ring). assert (dot n x = - d) as -> by lra. assert (dot n (middle a' b' c') = - d) as -> by lra. ring. }
  pose proof (proj2 (tri_edges_inside n d f t0 a b c _ C It Ve Pk) Lk) as Sk. pose proof (towards_middle a' b' c' x k In' K) as Sk'.
  exact (no_overlap f n d C Sm i j t0 tj a b c a' b' c' _ Ei Ve Sk Etj Vj Sk').
Qed.
Lemma covers_some f n d : covers f n d -> fst f <> [] -> snd f <> [].
Proof.
  intros (_ & _ & _ & ds & P) Ne E. rewrite E in P. apply Permutation_length in P. rewrite app_length, cyc_pairs_length, seq_length in P. destruct (fst f) as [|v l]; [contradiction|]. cbn [tri_edges flat_map concat map length] in P. lia.
Qed.
Lemma mesh_of (fs : list (face * vec * R)) Ts a b c : Forall2 (fun (f : face) ts => Forall2 (tri_verts (fst f)) (snd f) ts) (solid_of fs) Ts -> In (a, b, c) (concat Ts) ->
  exists f n d t, In (f, n, d) fs /\ In t (snd f) /\ tri_verts (fst f) t (a, b, c).
Proof.
  revert Ts. induction fs as [|((f, n), d) fs IH]; intros Ts F I; unfold solid_of in *; cbn [map fst] in *; inversion F as [|? ts ? Ts' F1 F2]; subst; [destruct I|]. cbn [concat] in I. apply in_app_iff in I. destruct I as [I|I].
  - assert (exists t, In t (snd f) /\ tri_verts (fst f) t (a, b, c)) as (t & It & Vt). { clear -F1 I. induction F1 as [|t x l l' H F IH]; [destruct I|]. destruct I as [->|I]; [exists t; simpl; auto|]. destruct (IH I) as (t' & A & B). exists t'. simpl. auto. }
    exists f, n, d, t. simpl. auto.
  - destruct (IH Ts' F2 I) as (f' & n' & d' & t & A & B & C). exists f', n', d', t. simpl. auto.
Qed.
Lemma corner_in (fs : list (face * vec * R)) f n d t a b c : In (f, n, d) fs -> tri_verts (fst f) t (a, b, c) -> In a (concat (map fst (solid_of fs))) /\ In b (concat (map fst (solid_of fs))) /\ In c (concat (map fst (solid_of fs))).
Proof.
  intros I Vt. destruct t as ((i, j), k). destruct Vt as (V1 & V2 & V3). assert (G : forall v, In v (fst f) -> In v (concat (map fst (solid_of fs)))). { intros v Iv. apply in_concat. exists (fst f). split; auto. apply in_map. unfold solid_of. change f with ((fun x : face * vec * R => fst (fst x)) (f, n, d)). apply in_map. exact I. }
  split; [|split]; apply G; eapply nth_error_In; eauto.
Qed.
Lemma bary_dot n a b c x y z : dot n (bary a b c x y z) = x * dot n a + y * dot n b + z * dot n c.
Proof. unfold bary. vunf. ring. Qed.
(** A plane through three corners of a triangle is its plane. *)
Lemma same_plane n d n' d' a b c : unit n -> unit n' -> 0 < side n a b c -> on_plane n d a -> on_plane n d b -> on_plane n d c -> on_plane n' d' a -> on_plane n' d' b -> on_plane n' d' c -> (n', d') = (n, d) \/ n' = smul (-1) n /\ d' = - d.
Proof.
  unfold on_plane. intros U U' K A B C A' B' C'. assert (P1 : exists k, tn a b c = smul k n) by (apply perp_cross; auto; vunf; lra). assert (P2 : exists k, tn a b c = smul k n') by (apply perp_cross; auto; vunf; lra).
  destruct P1 as (k & E), P2 as (k' & E'). unfold side in K. fold (tn a b c) in K. rewrite E in K. replace (dot n (smul k n)) with (k * dot n n) in K by (vunf; ring). rewrite (U : dot n n = 1) in K. rewrite E in E'.
  assert (Q : k * k = k' * k'). { assert (dot (smul k n) (smul k n) = dot (smul k' n') (smul k' n')) as X by (rewrite E'; auto). replace (dot (smul k n) (smul k n)) with (k * k * dot n n) in X by (vunf; ring). replace (dot (smul k' n') (smul k' n')) with (k' * k' * dot n' n') in X by (vunf; ring). rewrite (U : dot n n = 1), (U' : dot n' n' = 1) in X. lra. }
  assert (k' = k \/ k' = - k) as [-> | ->] by (assert ((k' - k) * (k' + k) = 0) as X by lra; apply Rmult_integral in X; destruct X; [left|right]; lra).
  - left. assert (n' = n) as ->. { injection E' as X Y Z. dvec n; dvec n'. cbn [vx vy vz] in *. f_equal; apply (Rmult_eq_reg_l k); lra. } f_equal. lra.
  - right. assert (n' = smul (-1) n) as ->. { injection E' as X Y Z. dvec n; dvec n'. vunf. cbn [vx vy vz] in *. f_equal; apply (Rmult_eq_reg_l k); lra. } split; auto. replace (dot (smul (-1) n) a) with (- dot n a) in A' by (vunf; ring). lra.
Qed.
Lemma convex_inside fs T q bs : ok_faces fs -> fs <> [] -> shell fs T -> convex_solid fs -> seen_well q fs bs -> (forall f n d, In (f, n, d) fs -> dot n q + d < 0) -> solid_point_inside (solid_of fs) q = Ok true.
Proof.
  intros Ok Ne Sh (Cx & Nd) Sw Bh. pose proof (shell_mesh fs T Sh) as (Pr & Cl). pose proof Sh as ((C & Ts & F & ET) & _). destruct fs as [|((f, n), d) fs]; [contradiction|]. clear Ne.
  assert (Inf : In (f, n, d) ((f, n, d) :: fs)) by (left; auto). destruct (C f n d Inf) as (Cf & Sf).
  pose proof F as F0. unfold solid_of in F. cbn [map fst] in F. inversion F as [|? ts ? Ts' F1 F2]. subst. cbn [concat] in *. assert (Nf : fst f <> []) by (intros E; destruct Sf as (_ & L & _); rewrite E in L; cbn in L; lia).
  pose proof (covers_some f n d Cf Nf) as Ns. destruct (snd f) as [|t0 l] eqn:Es; [contradiction|]. inversion F1 as [|? t ? ts' Vt F1']. subst. destruct t as ((a, b), c).
  pose proof (covers_tri f n d t0 a b c Cf ltac:(rewrite Es; left; auto) Vt) as (U & A & B & Ce & K). set (x := bary a b c (1 / 3) (1 / 3) (1 / 3)). assert (Sx : strictly_inside a b c x) by (exists (1 / 3), (1 / 3), (1 / 3); repeat split; auto; lra).
  assert (Px : on_plane n d x) by (apply (triangle_on_plane n d a b c); auto; apply strictly_in; auto). pose proof (Bh f n d Inf) as Bq. pose proof (corner_in _ f n d t0 a b c Inf Vt) as (Ia & Ib & Ic).
  assert (Xle : forall f' n' d', In (f', n', d') ((f, n, d) :: fs) -> dot n' x + d' <= 0). { intros f' n' d' I. unfold x. rewrite bary_dot. pose proof (Cx f' n' d' a I Ia). pose proof (Cx f' n' d' b I Ib). pose proof (Cx f' n' d' c I Ic). lra. }
  assert (Xlt : forall f' n' d', In (f', n', d') fs -> dot n' x + d' < 0).
  { intros f' n' d' I. pose proof (Xle f' n' d' (or_intror I)) as L. destruct L as [L|L]; auto. exfalso. unfold x in L. rewrite bary_dot in L. pose proof (Cx f' n' d' a (or_intror I) Ia). pose proof (Cx f' n' d' b (or_intror I) Ib). pose proof (Cx f' n' d' c (or_intror I) Ic).
    destruct (C f' n' d' (or_intror I)) as ((U' & _) & _). destruct (same_plane n d n' d' a b c U U' K A B Ce) as [E|(-> & ->)]; try (unfold on_plane; lra).
    - inversion Nd as [|? ? Nin _]. apply Nin. cbn [snd fst]. rewrite <- E. change (n', d') with ((fun x : face * vec * R => (snd (fst x), snd x)) (f', n', d')). apply in_map. exact I.
    - pose proof (Bh f' _ _ (or_intror I)) as B2. replace (dot (smul (-1) n) q) with (- dot n q) in B2 by (vunf; ring). lra. }
  set (r := vsub x q). assert (Dr : forall m s, dot m (vadd q (smul s r)) = (1 - s) * dot m q + s * dot m x) by (intros; unfold r; vunf; ring). unfold on_plane in Px.
  assert (Msn : forall t', In t' (ts' ++ concat Ts') -> misses q r t').
  { intros ((a', b'), c') I s S0 In'.
    assert (IT : In (a', b', c') (((a, b, c) :: ts') ++ concat Ts')) by (right; exact I). destruct (mesh_of _ _ a' b' c' F0 IT) as (g & m & e & t1 & Ig & It1 & Vt1).
    pose proof (corner_in _ g m e t1 a' b' c' Ig Vt1) as (Ia' & Ib' & Ic').
    assert (S1 : s <= 1). { pose proof (Cx f n d a' Inf Ia') as La. pose proof (Cx f n d b' Inf Ib') as Lb. pose proof (Cx f n d c' Inf Ic') as Lc. destruct In' as (u & v & w & Pu & Pv & Pw & Sm & E). pose proof (f_equal (dot n) E) as Eq. rewrite Dr, bary_dot in Eq. assert (R1 : u * dot n a' + v * dot n b' + w * dot n c' <= - d) by (assert (u = 1 - v - w) by lra; subst u; nra). replace (dot n x) with (- d) in Eq by lra. nra. }
    assert (Fs : forall g m e, In (g, m, e) fs -> dot m (vadd q (smul s r)) + e < 0). { intros g0 m0 e0 I0. rewrite Dr. pose proof (Xlt _ _ _ I0) as X1. pose proof (Bh g0 m0 e0 (or_intror I0)) as X2. replace ((1 - s) * dot m0 q + s * dot m0 x + e0) with ((1 - s) * (dot m0 q + e0) + s * (dot m0 x + e0)) by ring. destruct (Rle_lt_dec s (1 / 2)); nra. }
    assert (Not : forall g m e t1, In (g, m, e) fs -> In t1 (snd g) -> tri_verts (fst g) t1 (a', b', c') -> False).
    { intros g0 m0 e0 t2 I0 It2 Vt2. destruct (C g0 m0 e0 (or_intror I0)) as (Cg & _). destruct (covers_tri g0 m0 e0 t2 a' b' c' Cg It2 Vt2) as (_ & A' & B' & C' & _). pose proof (triangle_on_plane m0 e0 a' b' c' _ A' B' C' In') as P'. pose proof (Fs _ _ _ I0). unfold on_plane in P'. lra. }
    apply in_app_iff in I. destruct I as [I|I]; [|destruct (mesh_of fs Ts' a' b' c' F2 I) as (g0 & m0 & e0 & t2 & I0 & It2 & Vt2); exact (Not g0 m0 e0 t2 I0 It2 Vt2)].
    destruct (In_nth_error _ _ I) as (j & Ej). assert (Vj : exists tj, nth_error l j = Some tj /\ tri_verts (fst f) tj (a', b', c')).
    { clear -F1' Ej. revert j Ej. induction F1' as [|t x l l' H F IH]; intros [|j] Ej; try discriminate; cbn [nth_error] in *; [injection Ej as ->; exists t; auto|]. apply IH; auto. }
    destruct Vj as (tj & Etj & Vj). assert (E1 : s = 1). { assert (Itj : In tj (snd f)) by (rewrite Es; right; apply (nth_error_In _ _ Etj)). destruct (covers_tri f n d tj a' b' c' Cf Itj Vj) as (_ & A' & B' & C' & _). pose proof (triangle_on_plane n d a' b' c' _ A' B' C' In') as P'. unfold on_plane in P'. rewrite Dr in P'. nra. }
    subst s. replace (vadd q (smul 1 r)) with x in In' by (unfold r; dvec x; dvec q; vunf; f_equal; ring).
    assert (0%nat = S j); [|discriminate]. apply (only_one f n d 0 (S j) t0 tj a b c a' b' c' x); auto; rewrite Es; auto. }
  destruct (forall2_misses q r _ Msn) as (b0 & Fb & Hb).
  assert (St : sees (((a, b, c) :: ts') ++ concat Ts') q r (true :: b0)).
  { split; [intros E; pose proof (Dr n 1) as X; rewrite E in X; replace (dot n (vadd q (smul 1 vzero))) with (dot n q) in X by (unfold vzero; vunf; ring); lra|]. cbn [app]. constructor; [|exact Fb]. split.
    - intros E0. fold (tn a b c) in E0. assert (Par : exists k, tn a b c = smul k n) by (unfold on_plane in *; apply perp_cross; auto; vunf; lra).
      destruct Par as (k & Ek). unfold side in K. fold (tn a b c) in K. rewrite Ek in K, E0. replace (dot (smul k n) r) with (k * (dot n x - dot n q)) in E0 by (unfold r; vunf; ring). replace (dot n (smul k n)) with (k * dot n n) in K by (vunf; ring). rewrite (U : dot n n = 1) in K. apply Rmult_integral in E0. destruct E0; lra.
    - exists 1. split; [lra|]. replace (vadd q (smul 1 r)) with x by (unfold r; dvec x; dvec q; vunf; f_equal; ring). exact Sx. }
  destruct (shell_sees _ _ q bs Ok Sh Sw) as (bt & Sb & Hbt). destruct (same_rays _ Pr Cl q r _ sight bt St Sb) as (_ & Od). rewrite Hbt in Od. replace (hits (true :: b0)) with 1%nat in Od by (unfold hits in *; cbn [filter length]; rewrite Hb; auto).
  apply (parity_odd _ q bs); auto; [discriminate| |apply seen_well_seen; auto].
  apply NNPP. intros Nx. pose proof (extent_outside _ _ q Sh Nx) as Oq. destruct (outside_rays _ Pr Cl q q 0 0 sight bt Oq (way_stay _ q) Sb) as (_ & X). rewrite Hbt, <- Od in X. discriminate.
Qed.
Lemma convex_outside fs T q bs f n d : ok_faces fs -> shell fs T -> convex_solid fs -> seen_well q fs bs -> (forall f n d, In (f, n, d) fs -> off_face q f n d) -> In (f, n, d) fs -> 0 < dot n q + d -> solid_point_inside (solid_of fs) q = Ok false.
Proof.
  intros Ok Sh (Cx & _) Sw Of I L. change false with (Nat.odd 0). apply (solid_path fs T q q 0 0 bs); auto; [intros E; rewrite E in I; destruct I| |apply way_stay].
  exists n. destruct Sh as ((_ & Ts & F & ->) & _). intros a b c It. destruct (mesh_of fs Ts a b c F It) as (g & m & e & t & Ig & _ & Vt). destruct (corner_in fs g m e t a b c Ig Vt) as (Ia & Ib & Ic).
  pose proof (Cx f n d a I Ia). pose proof (Cx f n d b I Ib). pose proof (Cx f n d c I Ic). lra.
Qed.
(** ** Outlines that turn one way are simple *)
Lemma left_at n a b a' b' t : left_of n a b (seg_point a' b' t) = (1 - t) * left_of n a b a' + t * left_of n a b b'.
Proof. unfold left_of, seg_point. vunf. ring. Qed.
Lemma left_on n a b m : on_segment a b m -> left_of n a b m = 0.
Proof. intros (t & _ & ->). rewrite left_at. unfold left_of. vunf. ring. Qed.
Definition three : list vec := [vzero; vzero; vzero].
Lemma three_long : (3 <= length three)%nat.
Proof. cbn. lia. Qed.
Lemma cyc_at {A} (l : list A) x y : In (x, y) (cyc_pairs l) -> exists i, (i < length l)%nat /\ nth_error l i = Some x /\ nth_error l ((i + 1) mod length l) = Some y.
Proof. exact (cyc_index three three_long l x y). Qed.
Lemma cyc_same_end {A} (l : list A) x y z : NoDup l -> In (x, z) (cyc_pairs l) -> In (y, z) (cyc_pairs l) -> x = y.
Proof.
  intros N I J. destruct (cyc_at l _ _ I) as (i & Li & E1 & E2). destruct (cyc_at l _ _ J) as (j & Lj & E3 & E4). rewrite NoDup_nth_error in N.
  assert (E : ((i + 1) mod length l = (j + 1) mod length l)%nat) by (apply N; [apply Nat.mod_upper_bound; lia|congruence]).
  assert (i = j). { destruct (Nat.eq_dec (i + 1) (length l)) as [Q|Q], (Nat.eq_dec (j + 1) (length l)) as [Q'|Q']; [lia|rewrite Q, Nat.mod_same, Nat.mod_small in E by lia; lia|rewrite Q', Nat.mod_same, Nat.mod_small in E by lia; lia|rewrite !Nat.mod_small in E by lia; lia]. } subst j. congruence.
Qed.
Lemma cyc_same_start {A} (l : list A) x y z : NoDup l -> In (z, x) (cyc_pairs l) -> In (z, y) (cyc_pairs l) -> x = y.
Proof.
  intros N I J. destruct (cyc_at l _ _ I) as (i & Li & E1 & E2). destruct (cyc_at l _ _ J) as (j & Lj & E3 & E4). rewrite NoDup_nth_error in N. assert (i = j) by (apply N; auto; congruence). subst j. congruence.
Qed.
Lemma cyc_members {A} (l : list A) x y : In (x, y) (cyc_pairs l) -> In x l /\ In y l.
Proof. intros I. destruct (cyc_at l _ _ I) as (i & Li & E1 & E2). split; eapply nth_error_In; eauto. Qed.
Lemma convex_simple n pts : NoDup pts -> (3 <= length pts)%nat -> strictly_convex n pts -> simple_outline pts.
Proof.
  intros N L S. split; auto. split; auto. intros a b a' b' m I I' Ne Sa Sb. destruct (cyc_members _ _ _ I) as (Ia & Ib). destruct (cyc_members _ _ _ I') as (Ia' & Ib').
  pose proof (left_on n a b m Sa) as Z. destruct Sb as (t & Ht & Em). rewrite Em, left_at in Z.
  assert (Wa : forall v, In v pts -> 0 <= left_of n a b v /\ (left_of n a b v = 0 -> v = a \/ v = b)).
  { intros v Iv. destruct (classic (v = a)) as [->|Na]; [split; [unfold left_of; apply Req_le; vunf; ring|auto]|]. destruct (classic (v = b)) as [->|Nb]; [split; [unfold left_of; apply Req_le; vunf; ring|auto]|]. pose proof (S a b v I Iv Na Nb). split; [lra|intros E; lra]. }
  destruct (Wa a' Ia') as (La & Za), (Wa b' Ib') as (Lb & Zb).
  assert (Ca : t = 1 \/ a' = a \/ a' = b) by (destruct (Req_dec t 1); auto; right; apply Za; nra). assert (Cb : t = 0 \/ b' = a \/ b' = b) by (destruct (Req_dec t 0); auto; right; apply Zb; nra).
  assert (M1 : t = 1 -> m = b') by (intros ->; rewrite Em; unfold seg_point; dvec a'; dvec b'; vunf; f_equal; ring). assert (M0 : t = 0 -> m = a') by (intros ->; rewrite Em; unfold seg_point; dvec a'; dvec b'; vunf; f_equal; ring).
  destruct Ca as [T1|[->| ->]].
  - specialize (M1 T1). destruct Cb as [T0|[->| ->]]; [lra|auto|]. exfalso. apply Ne. f_equal. apply (cyc_same_end pts a a' b); auto.
  - exfalso. apply Ne. f_equal. apply (cyc_same_start pts b b' a); auto.
  - destruct Cb as [T0|[->| ->]]; [auto|exfalso; apply (cyc_antisym three three_long pts a b); auto|]. exfalso. apply Ne. f_equal. apply (cyc_same_end pts a b b); auto.
Qed.
