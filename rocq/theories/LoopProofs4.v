(** Outlines in a plane of space as closed paths of pairs of numbers. *)
From Coq Require Import Reals List ZArith Bool Arith Lia Lra Permutation.
From Verif Require Import Prelude VecModel VecProofs GeomModel GeomSpec GeomProofs1 TriSpec PolyModel PolySpec CrossSpec InsideSpec RoomSpec WindSpec WindProofs1 WindProofs2 LoopSpec LoopProofs1 LoopProofs2 LoopProofs3.
Import ListNotations.
Local Open Scope R_scope.

Lemma perp_exists n : unit n -> exists f, unit f /\ dot f n = 0.
Proof.
  unfold unit. destruct n as [x y z]. unfold dot. cbn. intros U. destruct (Req_dec (x * x + y * y) 0) as [E|E].
  - assert (x = 0) by nra. assert (y = 0) by nra. subst. exists (V 1 0 0). cbn. split; ring.
  - assert (P : 0 < x * x + y * y) by nra. pose (s := sqrt (x * x + y * y)). assert (S2 : s * s = x * x + y * y) by (apply sqrt_sqrt; lra). assert (S0 : 0 < s) by (apply sqrt_lt_R0; auto).
    exists (V (y / s) (- x / s) 0). cbn. split; [|field; lra]. replace (y / s * (y / s) + - x / s * (- x / s) + 0 * 0) with ((x * x + y * y) / (s * s)) by (field; lra). rewrite <- S2. field. lra.
Qed.

Lemma seg_on n d a b t : on_plane n d a -> on_plane n d b -> on_plane n d (seg_point a b t).
Proof.
  unfold on_plane, seg_point. intros A B. assert (E : dot n (vadd a (smul t (vsub b a))) = dot n a + t * (dot n b - dot n a)) by (destruct n, a, b; vunf; ring). rewrite E. replace (dot n b) with (dot n a) by lra. lra.
Qed.
Section Frame.
Context (n f : vec) (d : R) (Un : unit n) (Uf : unit f) (Pf : dot f n = 0).
Definition other : vec := cross n f.
Definition flat2 (q : vec) : p2 := (dot f q, dot other q).
Definition dir2 (u : vec) : p2 := (dot u f, dot u other).
Definition lift (q : p2) : vec := vadd (vadd (smul (fst q) f) (smul (snd q) other)) (smul (- d) n).
Lemma frame_1 : cross other n = f.
Proof. unfold other. assert (H : cross (cross n f) n = vadd (smul (dot n n) f) (smul (- dot f n) n)) by (destruct n, f; vunf; f_equal; ring). rewrite H, Pf. unfold unit in Un. rewrite Un. destruct n, f. vunf. f_equal; ring. Qed.
Lemma frame_2 : cross f other = n.
Proof. unfold other. assert (H : cross f (cross n f) = vadd (smul (dot f f) n) (smul (- dot f n) f)) by (destruct n, f; vunf; f_equal; ring). rewrite H, Pf. unfold unit in Uf. rewrite Uf. destruct n, f. vunf. f_equal; ring. Qed.
Lemma frame_sum q : q = vadd (vadd (smul (dot f q) f) (smul (dot other q) other)) (smul (dot n q) n).
Proof.
  assert (H : smul (dot f (cross other n)) q = vadd (vadd (smul (dot f q) (cross other n)) (smul (dot other q) (cross n f))) (smul (dot n q) (cross f other))) by (destruct n, f, other, q; vunf; f_equal; ring).
  rewrite frame_1, frame_2 in H. fold other in H. unfold unit in Uf. rewrite Uf in H. rewrite <- H. destruct q. vunf. f_equal; ring.
Qed.
Lemma lift_flat q : on_plane n d q -> lift (flat2 q) = q.
Proof. intros P. unfold lift, flat2. cbn [fst snd]. replace (- d) with (dot n q) by (unfold on_plane in P; lra). symmetry. apply frame_sum. Qed.
Lemma other_unit : dot other other = 1 /\ dot f other = 0 /\ dot other n = 0.
Proof.
  unfold other. repeat split; [|destruct n, f; vunf; ring|destruct n, f; vunf; ring]. replace (dot (cross n f) (cross n f)) with (dot n n * dot f f - dot f n * dot f n) by (destruct n, f; vunf; ring). unfold unit in *. rewrite Un, Uf, Pf. ring.
Qed.
Lemma dot_lin a x y b c : dot a (vadd (smul x b) (smul y c)) = x * dot a b + y * dot a c.
Proof. destruct a, b, c. vunf. ring. Qed.
Lemma dot_lin3 a x y z b c e : dot a (vadd (vadd (smul x b) (smul y c)) (smul z e)) = x * dot a b + y * dot a c + z * dot a e.
Proof. destruct a, b, c, e. vunf. ring. Qed.
Lemma dot_comm' a b : dot a b = dot b a.
Proof. destruct a, b. vunf. ring. Qed.
Lemma flat_lift q : flat2 (lift q) = q.
Proof.
  destruct other_unit as (O1 & O2 & O3). unfold flat2, lift. rewrite !dot_lin3. rewrite (dot_comm' other f), O1, O2, O3, Pf. unfold unit in Uf. rewrite Uf. destruct q. cbn. f_equal; ring.
Qed.
Lemma lift_on q : on_plane n d (lift q).
Proof. destruct other_unit as (O1 & O2 & O3). unfold on_plane, lift. rewrite dot_lin3, (dot_comm' n f), (dot_comm' n other), O3, Pf. unfold unit in Un. rewrite Un. ring. Qed.
Lemma flat_inj a b : on_plane n d a -> on_plane n d b -> flat2 a = flat2 b -> a = b.
Proof. intros A B E. rewrite <- (lift_flat a A), <- (lift_flat b B), E. auto. Qed.
Lemma flat_seg a b t : flat2 (seg_point a b t) = at2 (flat2 a) (flat2 b) t.
Proof. clear. unfold flat2, at2, seg_point. cbn [fst snd]. generalize other. intros g. destruct f, g, a, b. vunf. f_equal; ring. Qed.
Lemma flat_on_segment a b q : on_plane n d a -> on_plane n d b -> on_plane n d q -> (on_segment a b q <-> seg (flat2 a) (flat2 b) (flat2 q)).
Proof.
  intros A B Q. split; intros (t & T & E); exists t; (split; [auto|]); [subst; apply flat_seg|]. apply flat_inj; auto; [apply seg_on; auto|]. rewrite E. symmetry. apply flat_seg.
Qed.
Lemma flat_det a b q : det (flat2 a) (flat2 b) (flat2 q) = left_of n a b q.
Proof. unfold left_of. rewrite <- frame_2. unfold det, flat2. cbn [fst snd]. generalize other. intros g. destruct f, g, a, b, q. vunf. ring. Qed.
Lemma flat_ht u a b : on_plane n d a -> on_plane n d b -> ht (dir2 u) (flat2 a) - ht (dir2 u) (flat2 b) = dot u a - dot u b.
Proof.
  intros A B. pose proof (f_equal (dot u) (frame_sum a)) as Ea. pose proof (f_equal (dot u) (frame_sum b)) as Eb. rewrite dot_lin3 in Ea, Eb. rewrite Ea, Eb. replace (dot n a) with (- d) by (unfold on_plane in A; lra). replace (dot n b) with (- d) by (unfold on_plane in B; lra). unfold ht, dir2, flat2. cbn [fst snd]. ring.
Qed.
Lemma dir_nonzero u : cross u n <> vzero -> nonzero (dir2 u).
Proof.
  intros N E. apply N. unfold dir2 in E. injection E as E1 E2. pose proof (frame_sum u) as H. rewrite (dot_comm' f), (dot_comm' other), E1, E2 in H. rewrite H. generalize (dot n u). intros k. destruct n, f, other, u. vunf. f_equal; ring.
Qed.
Lemma flat_turn u q a b : on_plane n d a -> on_plane n d b -> on_plane n d q -> edge_turn n u q (a, b) = turn2 (dir2 u) (flat2 q) (flat2 a, flat2 b).
Proof. intros A B Q. rewrite turn_crossing. unfold turn2. cbn [fst snd]. rewrite flat_det, !flat_ht; auto. Qed.
Lemma cyc_pts {A} (l : list A) e : In e (cyc_pairs l) -> In (fst e) l /\ In (snd e) l.
Proof.
  destruct l as [|x r]; [intros []|]. cbn [cyc_pairs]. destruct e as (a, b). intros I. cbn [fst snd]. split; [eapply in_combine_l; eauto|]. apply in_combine_r, in_app_iff in I. destruct I as [I|[<-|[]]]; [right; auto|left; auto].
Qed.
Lemma flat_wind u q pts : (forall p, In p pts -> on_plane n d p) -> on_plane n d q -> winding n u q pts = wind (dir2 u) (flat2 q) (map flat2 pts).
Proof.
  intros P Q. unfold winding, wind. rewrite <- cyc_pairs_map, map_map. f_equal. apply map_ext_in. intros (a, b) I. destruct (cyc_pts pts _ I) as (Ia & Ib). cbn [fst snd] in *. apply flat_turn; auto.
Qed.
Lemma flat_edges pts e : In e (cyc_pairs (map flat2 pts)) <-> exists a b, In (a, b) (cyc_pairs pts) /\ e = (flat2 a, flat2 b).
Proof. rewrite <- cyc_pairs_map, in_map_iff. split; [intros ((a, b) & <- & I); eauto|intros (a & b & I & ->); exists (a, b); auto]. Qed.
Lemma flat_simple pts : (forall p, In p pts -> on_plane n d p) -> simple_outline pts -> simple2 (map flat2 pts).
Proof.
  intros P (Nd & L & H). split; [|split; [rewrite map_length; auto|]].
  - clear L H. induction pts as [|x r IH]; [constructor|]. cbn [map]. inversion Nd; subst. constructor; [|apply IH; auto; intros; apply P; right; auto]. intros I. apply in_map_iff in I. destruct I as (y & E & Iy). apply flat_inj in E; [congruence|apply P; right; auto|apply P; left; auto].
  - intros e e' m I I' N S1 S2. apply flat_edges in I, I'. destruct I as (a & b & I & ->), I' as (a' & b' & I' & ->). cbn [fst snd] in *. destruct (cyc_pts pts _ I) as (Ia & Ib). destruct (cyc_pts pts _ I') as (Ia' & Ib'). cbn [fst snd] in *.
    rewrite <- (flat_lift m) in S1, S2. apply flat_on_segment in S1; auto using lift_on. apply flat_on_segment in S2; auto using lift_on. destruct (H a b a' b' (lift m) I I') as [(E1 & E2)|(E1 & E2)]; auto; [congruence|left|right]; apply (f_equal flat2) in E1, E2; rewrite flat_lift in E1, E2; auto.
Qed.
Lemma flat_off pts q : (forall p, In p pts -> on_plane n d p) -> on_plane n d q -> ~ on_outline pts q -> off (map flat2 pts) (flat2 q).
Proof.
  intros P Q O e I E. apply flat_edges in I. destruct I as (a & b & I & ->). cbn [fst snd] in E. apply O. exists (a, b). split; auto. destruct (cyc_pts pts _ I) as (Ia & Ib). cbn [fst snd] in *. apply flat_on_segment; auto.
Qed.
End Frame.
