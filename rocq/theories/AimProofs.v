(** Proofs: the wall a ray aims at. *)
From Coq Require Import Ascii String Reals ZArith List Bool Arith Lia Lra Psatz.
From Verif Require Import Prelude TreeModel VecModel VecProofs SimModel SimSpec SimProofs SimProofs2 SimProofs3 VoxModel VoxSpec VoxProofs GeomModel GeomSpec GeomProofs1 GeomProofs2 GeomProofs3 GeomProofs4 GeomProofs5 TriModel TriSpec PolyModel PolySpec PolyProofs1 PolyProofs2 SolidModel SolidSpec SolidProofs1 CrossSpec InsideSpec InsideProofs1 InsideProofs3 RoomSpec RoomProofs1 RoomProofs2 RoomProofs3 RoomProofs4 BoxSpec BoxProofs1 BoxProofs2 BoxProofs3 BoxProofs4 BoxProofs5 BoxProofs6 AimSpec.
Import ListNotations.
Local Open Scope R_scope.

Section Room.
Context (polys : list face) (transparent : list nat) (order_of : list nat -> list nat) (mn mx : vec) (s e : R) (grid : dict (Z * Z * Z) (list nat)) (sc : scene).
Context (Rm : room polys transparent order_of mn mx s e grid sc).
(** A target was hit. *)
Lemma target_hit p v k : target sc p v = Some k -> exists f, nth_error polys k = Some f /\ ~ In k transparent /\ is_point_inside_projection p v (fst f) (snd f) true (1 / 1000) = Ok true.
Proof.
  intros T. destruct (target_wall _ _ _ _ _ _ _ _ _ Rm p v k T) as (f & N). exists f. split; auto. destruct Rm as (O & _ & _ & _ & _ & _ & hit & Hh & Ht).
  destruct (sim_target_spec hit (pdist sc) order_of s grid transparent p v O) as (t & Et & X). rewrite Ht, T in Et. apply Ok_inj in Et. subst t. destruct X as ((_ & NT & X) & _). split; auto. rewrite (Hh p v k f N), X. auto.
Qed.
Lemma target_least p v k k' f q : target sc p v = Some k -> nth_error polys k' = Some f -> ~ In k' transparent -> is_point_inside_projection p v (fst f) (snd f) true (1 / 1000) = Ok true -> in_hull (fst f) q -> norm (vsub q p) <= s -> pdist sc p k <= pdist sc p k'.
Proof.
  intros T N NT H Hu L. pose proof Rm as (O & S0 & E0 & B & G & _ & hit & Hh & Ht). assert (X : hit p v k' = true) by (rewrite (Hh p v k' f N) in H; apply Ok_inj in H; auto).
  destruct (no_wall_missed hit (pdist sc) order_of mn mx (map fst polys) s e grid transparent p v k' (fst f) q O S0 E0 (boxed _ _ _ _ _ _ _ _ _ Rm) G (map_nth_error fst k' _ N) Hu L NT X) as (b & Eb & Lb). rewrite Ht, T in Eb. apply Ok_inj in Eb. injection Eb as <-. auto.
Qed.
Lemma target_some p v k f q : nth_error polys k = Some f -> ~ In k transparent -> is_point_inside_projection p v (fst f) (snd f) true (1 / 1000) = Ok true -> in_hull (fst f) q -> norm (vsub q p) <= s -> exists k', target sc p v = Some k'.
Proof.
  intros N NT H Hu L. pose proof Rm as (O & S0 & E0 & B & G & _ & hit & Hh & Ht). assert (X : hit p v k = true) by (rewrite (Hh p v k f N) in H; apply Ok_inj in H; auto).
  destruct (no_wall_missed hit (pdist sc) order_of mn mx (map fst polys) s e grid transparent p v k (fst f) q O S0 E0 (boxed _ _ _ _ _ _ _ _ _ Rm) G (map_nth_error fst k _ N) Hu L NT X) as (b & Eb & Lb). rewrite Ht in Eb. apply Ok_inj in Eb. eauto.
Qed.
Lemma only_target p v k f q : nth_error polys k = Some f -> ~ In k transparent -> is_point_inside_projection p v (fst f) (snd f) true (1 / 1000) = Ok true -> in_hull (fst f) q -> norm (vsub q p) <= s ->
  (forall k' f', k' <> k -> nth_error polys k' = Some f' -> In k' transparent \/ is_point_inside_projection p v (fst f') (snd f') true (1 / 1000) = Ok false) -> target sc p v = Some k.
Proof.
  intros N NT H Hu L Oth. destruct (target_some p v k f q N NT H Hu L) as (k' & T). destruct (Nat.eq_dec k' k) as [->|Ne]; auto. destruct (target_hit p v k' T) as (f' & N' & NT' & H').
  destruct (Oth k' f' Ne N') as [I|E]; [tauto|congruence].
Qed.
Lemma no_target p v : (forall k f, nth_error polys k = Some f -> In k transparent \/ is_point_inside_projection p v (fst f) (snd f) true (1 / 1000) = Ok false) -> target sc p v = None.
Proof. intros H. destruct (target sc p v) as [k|] eqn:T; auto. destruct (target_hit p v k T) as (f & N & NT & E). destruct (H k f N); [tauto|congruence]. Qed.
End Room.
(** A missed wall is not hit. *)
Lemma hit_missed f n d p v : sound_wall f n d -> missed f n d p v -> is_point_inside_projection p v (fst f) (snd f) true (1 / 1000) = Ok false.
Proof.
  intros S M. pose proof (wall_flat _ _ _ S) as F. destruct (wall_plane f n d S) as (e0 & He & C).
  assert (Ed : Rabs (dot (smul e0 n) v) = Rabs (dot n v)). { replace (dot (smul e0 n) v) with (e0 * dot n v) by (unfold dot, smul; cbn [vx vy vz]; ring). rewrite Rabs_mult. replace (Rabs e0) with 1 by (destruct He as [->| ->]; [rewrite Rabs_R1|rewrite Rabs_left]; lra). lra. }
  destruct M as [(L & M)|(L & B)].
  - destruct (projection_spec p v (fst f) (snd f) true (1 / 1000) (smul e0 n) (e0 * d) false C) as (t & Ht & _ & I); [lra|rewrite Ed; auto|]. apply I. cbn [andb]. destruct (Rltb t 0) eqn:Sg; auto. apply Rltb_false in Sg.
    apply (smul_plane e0 n d _ He) in Ht. apply (flat_rejected f n d); auto; [lra|]. exact (M t Sg Ht).
  - rewrite (projection_parallel p v (fst f) (snd f) true (1 / 1000) (smul e0 n) (e0 * d) C); [|rewrite Ed; auto]. exact (proj2 (beyond_box p (fst f) (1 / 1000) (proj2 (proj2 (proj2 F))) B) (snd f) true).
Qed.
Section Walls.
Context (polys : list face) (transparent : list nat) (order_of : list nat -> list nat) (mn mx : vec) (s e : R) (grid : dict (Z * Z * Z) (list nat)) (sc : scene).
Context (Rm : room polys transparent order_of mn mx s e grid sc).
Lemma not_missed p v k f n d : target sc p v = Some k -> nth_error polys k = Some f -> sound_wall f n d -> ~ In k transparent /\ ~ missed f n d p v.
Proof. intros T N S. destruct (target_hit _ _ _ _ _ _ _ _ _ Rm p v k T) as (f' & N' & NT & H). rewrite N in N'. injection N' as <-. split; auto. intros M. rewrite (hit_missed f n d p v S M) in H. discriminate. Qed.
Lemma only_wall p v k f n d t : nth_error polys k = Some f -> sound_wall f n d -> ~ In k transparent -> 0 <= t -> touches f (at_time p v t) -> 1 / 1000 <= Rabs (dot n v) -> norm (smul t v) <= s ->
  (forall k' f', k' <> k -> nth_error polys k' = Some f' -> In k' transparent \/ exists n' d', sound_wall f' n' d' /\ missed f' n' d' p v) -> target sc p v = Some k.
Proof.
  intros N S NT T0 Tc L Ln Oth. pose proof (wall_flat _ _ _ S) as F. pose proof (touches_in_mesh f n d _ F Tc) as M. pose proof (mesh_on_plane f n d _ (proj1 (proj2 F)) M) as Pl.
  apply (only_target _ _ _ _ _ _ _ _ _ Rm p v k f (at_time p v t) N NT); auto.
  - rewrite (hit_ahead f n d p v t S T0 Pl L). apply (flat_accepted f n d); auto. lra.
  - apply mesh_in_hull; auto.
  - replace (vsub (at_time p v t) p) with (smul t v) by (unfold at_time; destruct p, v; vunf; f_equal; ring). auto.
  - intros k' f' Ne N'. destruct (Oth k' f' Ne N') as [I|(n' & d' & S' & M')]; auto. right. exact (hit_missed f' n' d' p v S' M').
Qed.
End Walls.

(** Sides of a box: which coordinate they bound. *)
Section Box.
Context (x y z : R) (mv : vec) (D : box_dims x y z mv) (name : str) (ws : list wall_t) (Hb : box x y z mv name = Ok ws) (Hv : validate_name name = Ok name).
Context (order_of : list nat -> list nat) (mn mx : vec) (s e : R) (grid : dict (Z * Z * Z) (list nat)) (sc : scene).
Context (Rm : room (faces_of ws) [] order_of mn mx s e grid sc).
Notation sides := (sides x y z mv).
Notation hi := (vadd mv (V x y z)).
(** Side k bounds the coordinate c from above or below. *)
Definition bounds (k : nat) (c : vec -> R) (up : bool) : Prop :=
  (k = 0%nat /\ c = vz /\ up = false) \/ (k = 1%nat /\ c = vy /\ up = false) \/ (k = 2%nat /\ c = vx /\ up = true) \/ (k = 3%nat /\ c = vy /\ up = true) \/ (k = 4%nat /\ c = vx /\ up = false) \/ (k = 5%nat /\ c = vz /\ up = true).
Lemma side_view k o e1 e2 L W : nth_error sides k = Some (o, e1, e2, L, W) -> exists c up, bounds k c up /\ In c [vx; vy; vz] /\
  (forall q, on_plane (cross e1 e2) (- dot (cross e1 e2) o) q <-> c q = if up then c hi else c mv) /\ (forall v, Rabs (dot (cross e1 e2) v) = Rabs (c v)) /\
  (forall w, In w (fst (rface o e1 e2 L W)) -> c w = (if up then c hi else c mv) /\ forall c', In c' [vx; vy; vz] -> c' mv <= c' w <= c' hi).
Proof.
  destruct D as (Dx & Dy & Dz & _). intros N. unfold bounds, on_plane.
  destruct k as [|[|[|[|[|[|k]]]]]]; cbn [nth_error BoxProofs4.sides] in N; [..|destruct k; discriminate]; injection N as <- <- <- <- <-;
  [exists vz, false|exists vy, false|exists vx, true|exists vy, true|exists vx, false|exists vz, true]; (split; [tauto|]); (split; [cbn; tauto|]); (split; [|split]).
  all: try (intros q; destruct q; unfold box_point, ex, ey, ez; vunf; split; lra).
  all: try (intros v; match goal with |- Rabs ?a = Rabs ?b => assert (G : a = b \/ a = - b) by (destruct v; unfold ex, ey, ez; vunf; first [left; ring|right; ring]); destruct G as [->| ->]; rewrite ?Rabs_Ropp; auto end).
  all: unfold rface, off, box_point, ex, ey, ez; cbn [fst]; intros w [<-|[<-|[<-|[<-|[]]]]]; vunf; (split; [lra|]); intros c' [<-|[<-|[<-|[]]]]; cbn [vx vy vz]; lra.
Qed.
Lemma bounds_inj k k' c up : bounds k c up -> bounds k' c up -> k = k'.
Proof.
  assert (A : vx <> vy) by (intros E; pose proof (f_equal (fun g => g (V 1 2 3)) E) as X; cbn in X; lra).
  assert (B : vx <> vz) by (intros E; pose proof (f_equal (fun g => g (V 1 2 3)) E) as X; cbn in X; lra).
  assert (C : vy <> vz) by (intros E; pose proof (f_equal (fun g => g (V 1 2 3)) E) as X; cbn in X; lra).
  unfold bounds. intros [(-> & -> & ->)|[(-> & -> & ->)|[(-> & -> & ->)|[(-> & -> & ->)|[(-> & -> & ->)|(-> & -> & ->)]]]]] H;
  decompose [or and] H; subst; auto; try discriminate; exfalso; congruence.
Qed.
Lemma bounds_some c up : In c [vx; vy; vz] -> exists k, bounds k c up.
Proof. unfold bounds. intros [<-|[<-|[<-|[]]]]; destruct up; [exists 2%nat|exists 4%nat|exists 3%nat|exists 1%nat|exists 5%nat|exists 0%nat]; tauto. Qed.
Lemma bounds_side k c up : bounds k c up -> exists o e1 e2 L W, nth_error sides k = Some (o, e1, e2, L, W).
Proof. unfold bounds. intros [(-> & _)|[(-> & _)|[(-> & _)|[(-> & _)|[(-> & _)|(-> & _)]]]]]; cbn [nth_error BoxProofs4.sides]; eauto 6. Qed.
(** The point where the ray leaves is on the side, off its rim. *)
Lemma on_side k c up o e1 e2 L W q : bounds k c up -> nth_error sides k = Some (o, e1, e2, L, W) -> c q = (if up then c hi else c mv) ->
  (forall c', In c' [vx; vy; vz] -> c' = c \/ c' mv + 1 / 100000 <= c' q <= c' hi - 1 / 100000) ->
  exists a b, q = off o e1 e2 a b /\ 1 / 100000 <= a <= L - 1 / 100000 /\ 1 / 100000 <= b <= W - 1 / 100000.
Proof.
  assert (A : vx <> vy) by (intros E; pose proof (f_equal (fun g => g (V 1 2 3)) E) as X; cbn in X; lra).
  assert (B : vx <> vz) by (intros E; pose proof (f_equal (fun g => g (V 1 2 3)) E) as X; cbn in X; lra).
  assert (C : vy <> vz) by (intros E; pose proof (f_equal (fun g => g (V 1 2 3)) E) as X; cbn in X; lra).
  intros Bd N Q M. pose proof (M vx ltac:(cbn; tauto)) as Mx. pose proof (M vy ltac:(cbn; tauto)) as My. pose proof (M vz ltac:(cbn; tauto)) as Mz. clear M.
  unfold bounds in Bd. destruct Bd as [(-> & -> & ->)|[(-> & -> & ->)|[(-> & -> & ->)|[(-> & -> & ->)|[(-> & -> & ->)|(-> & -> & ->)]]]]]; cbn [nth_error BoxProofs4.sides] in N; injection N as <- <- <- <- <-.
  - destruct Mx as [?|Mx]; [congruence|]. destruct My as [?|My]; [congruence|]. clear Mz. exists (vy q - vy mv), (vx q - vx mv). destruct q; unfold off, box_point, ex, ey, ez; vunf; split; [f_equal; lra|lra].
  - destruct Mx as [?|Mx]; [congruence|]. destruct Mz as [?|Mz]; [congruence|]. clear My. exists (vx q - vx mv), (vz q - vz mv). destruct q; unfold off, box_point, ex, ey, ez; vunf; split; [f_equal; lra|lra].
  - destruct My as [?|My]; [congruence|]. destruct Mz as [?|Mz]; [congruence|]. clear Mx. exists (vy q - vy mv), (vz q - vz mv). destruct q; unfold off, box_point, ex, ey, ez; vunf; split; [f_equal; lra|lra].
  - destruct Mx as [?|Mx]; [congruence|]. destruct Mz as [?|Mz]; [congruence|]. clear My. exists (vz q - vz mv), (vx q - vx mv). destruct q; unfold off, box_point, ex, ey, ez; vunf; split; [f_equal; lra|lra].
  - destruct My as [?|My]; [congruence|]. destruct Mz as [?|Mz]; [congruence|]. clear Mx. exists (vz q - vz mv), (vy q - vy mv). destruct q; unfold off, box_point, ex, ey, ez; vunf; split; [f_equal; lra|lra].
  - destruct Mx as [?|Mx]; [congruence|]. destruct My as [?|My]; [congruence|]. clear Mz. exists (vx q - vx mv), (vy q - vy mv). destruct q; unfold off, box_point, ex, ey, ez; vunf; split; [f_equal; lra|lra].
Qed.
Lemma coord_time c p v t : In c [vx; vy; vz] -> c (at_time p v t) = c p + t * c v.
Proof. intros [<-|[<-|[<-|[]]]]; destruct p, v; unfold at_time; vunf; ring. Qed.
Lemma box_target p v c t : inside_box x y z mv p -> In c [vx; vy; vz] -> 0 <= t -> leaves_clearly mv hi c p v (at_time p v t) -> norm (smul t v) <= s ->
  exists k f, target sc p v = Some k /\ nth_error (faces_of ws) k = Some f /\ in_mesh f (at_time p v t).
Proof.
  intros Ins Ic T0 (Lv & Lc & Oth) Ln. set (up := if Rlt_dec 0 (c v) then true else false).
  assert (Qc : c (at_time p v t) = if up then c hi else c mv) by (unfold up; destruct (Rlt_dec 0 (c v)); destruct Lv as [(A & B)|(A & B)]; auto; lra).
  assert (Inc : forall c', In c' [vx; vy; vz] -> c' mv < c' p < c' hi) by (destruct Ins as (? & ? & ?); intros c' [<-|[<-|[<-|[]]]]; unfold vadd; cbn [vx vy vz]; lra).
  destruct (bounds_some c up Ic) as (k & Bk). destruct (bounds_side k c up Bk) as (o & e1 & e2 & L & W & N). pose proof (side_at x y z mv D name ws Hb Hv k _ N) as Nf. cbn [side_face] in Nf.
  pose proof (sides_ok x y z mv D _ (nth_error_In _ _ N)) as (A & HL & HW). pose proof (rect_wall o e1 e2 (cross e1 e2) L W A HL HW eq_refl) as S.
  destruct (side_view k o e1 e2 L W N) as (c0 & up0 & B0 & I0 & Pl & Dt & _).
  destruct (on_side k c up o e1 e2 L W (at_time p v t) Bk N Qc) as (a & b & Eq & Ha & Hb').
  { intros c' Ic'. destruct (Oth c' Ic') as [->|(M & _)]; auto. }
  assert (M : in_mesh (rface o e1 e2 L W) (at_time p v t)) by (rewrite Eq; apply rect_in_mesh; lra).
  exists k, (rface o e1 e2 L W). split; [|split; auto].
  apply (only_target _ _ _ _ _ _ _ _ _ Rm p v k _ (at_time p v t) Nf).
  - intros [].
  - rewrite (hit_ahead _ _ _ p v t S T0).
    + fold (at_time p v t). rewrite Eq. apply (rect_accepts o e1 e2 (cross e1 e2) L W A HL HW eq_refl); auto; lra.
    + fold (at_time p v t). eapply mesh_on_plane; eauto. apply (wall_flat _ _ _ S).
    + rewrite Dt. assert (X : c0 = c); [|rewrite X; auto]. clear -Bk B0. unfold bounds in *. decompose [or and] Bk; subst; decompose [or and] B0; subst; auto; try discriminate.
  - apply mesh_in_hull; auto.
  - replace (vsub (at_time p v t) p) with (smul t v) by (unfold at_time; destruct p, v; vunf; f_equal; ring). auto.
  - intros k' f' Ne N'. right. destruct (side_of x y z mv D name ws Hb Hv k' f' N') as (((((o', e1'), e2'), L'), W') & Nd & ->). cbn [side_face].
    pose proof (sides_ok x y z mv D _ (nth_error_In _ _ Nd)) as (A' & HL' & HW'). pose proof (rect_wall o' e1' e2' (cross e1' e2') L' W' A' HL' HW' eq_refl) as S'.
    apply (hit_missed _ _ _ p v S'). destruct (side_view k' o' e1' e2' L' W' Nd) as (c' & up' & B' & Ic' & Pl' & Dt' & Co). pose proof (Inc c' Ic') as Ip. unfold missed. rewrite Dt'.
    destruct (Rlt_dec (Rabs (c' v)) (1 / 1000)) as [Sm|Sm].
    + right. split; auto. destruct (Oth c' Ic') as [->|(_ & Pa & _)]; [lra|]. specialize (Pa Sm). exists c'. split; auto. destruct up'; [right|left]; intros w Iw; rewrite (proj1 (Co w Iw)); lra.
    + left. split; [lra|]. intros t' T' Pl0. apply Pl' in Pl0. rewrite (coord_time c' p v t' Ic') in Pl0.
      assert (Sg : if up' then 0 < t' * c' v else t' * c' v < 0) by (destruct up'; lra).
      assert (Sg' : if up' then 0 < c' v else c' v < 0).
      { destruct up'; [destruct (Rlt_dec 0 (c' v)) as [?|G]|destruct (Rlt_dec (c' v) 0) as [?|G]]; auto; exfalso; [pose proof (Rmult_le_pos t' (- c' v) T' ltac:(lra))|pose proof (Rmult_le_pos t' (c' v) T' ltac:(lra))]; lra. }
      destruct (Oth c' Ic') as [->|(_ & _ & Pu & Pd)].
      { exfalso. apply Ne. apply (bounds_inj k' k c up'); auto. replace up' with up; auto. unfold up. destruct up', (Rlt_dec 0 (c v)); auto; lra. }
      rewrite (coord_time c' p v t Ic') in Pu, Pd. left. exists c. split; auto.
      assert (Ov : 1 / 100 < (t' - t) * Rabs (c v)).
      { destruct up'.
        - specialize (Pu Sg'). replace (c' hi - (c' p + t * c' v)) with ((t' - t) * c' v) in Pu by lra. apply Rmult_lt_reg_l with (c' v); auto. lra.
        - specialize (Pd Sg'). replace (c' p + t * c' v - c' mv) with ((t' - t) * - c' v) in Pd by lra. apply Rmult_lt_reg_l with (- c' v); lra. }
      rewrite (coord_time c p v t Ic) in Lv. rewrite (coord_time c p v t' Ic).
      destruct Lv as [(Cv & Qv)|(Cv & Qv)]; [left|right]; intros w Iw; pose proof (proj2 (Co w Iw) c Ic); [rewrite Rabs_pos_eq in Ov by lra|rewrite Rabs_left in Ov by lra]; lra.
Qed.
End Box.
