(** Segments through closed surfaces. *)
From Coq Require Import Reals List ZArith Bool Arith Lia Lra Psatz Permutation Classical.
From Verif Require Import Prelude VecModel VecProofs GeomModel GeomSpec GeomProofs1 GeomProofs3 TriModel TriSpec TriProofs2 PolyModel PolySpec SliceModel SliceSpec SolidModel SolidSpec CrossSpec InsideSpec InsideProofs1 InsideProofs2 RoomSpec RoomProofs1 PlanProofs4
  WindSpec WindProofs1 WindProofs2 WindProofs3 WindProofs4 LoopSpec LoopProofs5 LoopProofs6 ShellSpec ShellProofs1 ShellProofs2 ShellProofs3 ShellProofs4 ShellProofs5 ShellProofs9 SimModel DoorSpec.
Import ListNotations.
Local Open Scope R_scope.

(** One triangle. *)
Lemma cross_one q q' a b c : crosses q q' (a, b, c) ->
  exists B F, pos B q' /\ (forall y, pos B y -> pos (F y) q) /\
    forall x w, pos B (vadd x w) -> pos (F (vadd x w)) x -> total [(a, b, c)] x w = sense (vsub q' q) (a, b, c) /\ total [(a, b, c)] (vadd x w) w = 0%Z.
Proof.
  intros (N & s & S & I). fold (tn a b c) in N.
  destruct (pierce_signs q (vsub q' q) a b c s N (proj1 S) I) as (S0 & S1 & S2 & S3 & S4). set (k := IZR (sense (vsub q' q) (a, b, c))) in *.
  assert (S5 : k * trip (vsub a q') (vsub b q') (vsub c q') < 0).
  { assert (E : trip (vsub a q') (vsub b q') (vsub c q') = trip (vsub a q) (vsub b q) (vsub c q) - dot (tn a b c) (vsub q' q)) by (unfold trip, tn; vunf; ring).
    rewrite E, S4. pose proof (sense_pos (vsub q' q) a b c N) as K. fold k in K. replace (k * (s * dot (tn a b c) (vsub q' q) - dot (tn a b c) (vsub q' q))) with ((s - 1) * (k * dot (tn a b c) (vsub q' q))) by ring. nra. }
  set (g := fun (y u v : vec) => (smul (- k) (cross (vsub u y) (vsub v y)), k * dot (cross (vsub u y) (vsub v y)) y)).
  assert (Eg : forall y u v x, aff (g y u v) x = k * trip (vsub y x) (vsub u x) (vsub v x)) by (intros y u v x; unfold aff, g, trip; cbn [fst snd]; vunf; ring).
  set (h := fun (u v : vec) => (smul k (cross (vsub u q) (vsub v q)), - k * dot (cross (vsub u q) (vsub v q)) q)).
  assert (Eh : forall u v y, aff (h u v) y = k * trip (vsub y q) (vsub u q) (vsub v q)) by (intros u v y; unfold aff, h, trip; cbn [fst snd]; vunf; ring).
  exists [f_det (- k) a b c; h a b; h b c; h c a], (fun y => [f_det k a b c; g y a b; g y b c; g y c a]). split; [|split].
  - apply pos_cons. split; [rewrite f_det_aff; lra|]. repeat (apply pos_cons; split; [rewrite Eh; auto|]). apply pos_nil.
  - intros y Hy. apply pos_cons in Hy. destruct Hy as (_ & Hy). apply pos_cons in Hy. destruct Hy as (H1 & Hy). apply pos_cons in Hy. destruct Hy as (H2 & Hy). apply pos_cons in Hy. destruct Hy as (H3 & Hy). rewrite Eh in H1, H2, H3.
    apply pos_cons. split; [rewrite f_det_aff; auto|]. repeat (apply pos_cons; split; [rewrite Eg; auto|]). apply pos_nil.
  - intros x w Hy Hx. apply pos_cons in Hy. destruct Hy as (H0 & _).
    apply pos_cons in Hx. destruct Hx as (K0 & Hx). apply pos_cons in Hx. destruct Hx as (K1 & Hx). apply pos_cons in Hx. destruct Hx as (K2 & Hx). apply pos_cons in Hx. destruct Hx as (K3 & _).
    rewrite f_det_aff in H0, K0. rewrite Eg in K1, K2, K3. replace (vsub (vadd x w) x) with w in K1, K2, K3 by (destruct w; vunf; f_equal; ring). split.
    + unfold total. cbn [map]. rewrite Zsum_cons. unfold chi. rewrite (sgb_is (sense (vsub q' q) (a, b, c))); auto; [cbn; lia|apply sense_pm].
    + assert (E1 : forall u v, trip w (vsub u (vadd x w)) (vsub v (vadd x w)) = trip w (vsub u x) (vsub v x)) by (intros u v; unfold trip; vunf; ring).
      unfold total. cbn [map]. rewrite Zsum_cons. unfold chi, sg4. rewrite !E1. destruct (sense_pm (vsub q' q) (a, b, c)) as [E|E]; unfold k in *; rewrite E in *.
      * rewrite (proj2 (sg_true (trip w (vsub a x) (vsub b x)))), (proj2 (sg_true (trip w (vsub b x) (vsub c x)))), (proj2 (sg_true (trip w (vsub c x) (vsub a x)))), (proj2 (sg_false (trip _ _ _))) by lra. reflexivity.
      * rewrite (proj2 (sg_false (trip w (vsub a x) (vsub b x)))), (proj2 (sg_false (trip w (vsub b x) (vsub c x)))), (proj2 (sg_false (trip w (vsub c x) (vsub a x)))), (proj2 (sg_true (trip _ _ _))) by lra. reflexivity.
Qed.
(** All triangles. *)
Lemma seg_all T bs q q' : Forall2 (fun t (b : bool) => if b then crosses q q' t else avoids q q' t) T bs ->
  exists B F, pos B q' /\ (forall y, pos B y -> pos (F y) q) /\
    forall x w, pos B (vadd x w) -> pos (F (vadd x w)) x -> gen_pt T x -> gen_pt T (vadd x w) -> gen_dir T x w -> total T (vadd x w) w = (total T x w - net T (vsub q' q) bs)%Z.
Proof.
  intros H. induction H as [|((a, b), c) bo T bs H G (B & F & B1 & F1 & E1)]; [exists [], (fun _ => []); split; [apply pos_nil|split; [intros; apply pos_nil|reflexivity]]|].
  assert (One : exists B F, pos B q' /\ (forall y, pos B y -> pos (F y) q) /\ forall x w, pos B (vadd x w) -> pos (F (vadd x w)) x -> gen_pt [(a, b, c)] x -> gen_pt [(a, b, c)] (vadd x w) -> gen_dir [(a, b, c)] x w ->
    total [(a, b, c)] (vadd x w) w = (total [(a, b, c)] x w - if bo then sense (vsub q' q) (a, b, c) else 0)%Z).
  { destruct bo.
    - destruct (cross_one q q' a b c H) as (B0 & F0 & P0 & Q0 & R0). exists B0, F0. split; auto. split; auto. intros x w Hb Hf _ _ _. destruct (R0 x w Hb Hf) as (-> & ->). lia.
    - destruct (beside_all [(a, b, c)] q q') as (A0 & B0 & P0 & Q0 & R0); [intros t [<-|[]]; auto|]. exists B0, (fun _ => A0). split; auto. split; auto. intros x w Hb Hf G1 G2 D. rewrite <- R0 by auto. lia. }
  destruct One as (B' & F' & B1' & F1' & E1'). exists (B ++ B'), (fun y => F y ++ F' y). split; [apply pos_app; auto|]. split; [intros y Hy; apply pos_app in Hy; destruct Hy; apply pos_app; auto|].
  intros x w Hb Hf Gx Gy D. apply pos_app in Hb, Hf. destruct Hb as (Hb & Hb'), Hf as (Hf & Hf'). change ((a, b, c) :: T) with ([(a, b, c)] ++ T) in *. rewrite !gen_pt_app in Gx, Gy. rewrite !gen_dir_app in D. rewrite !total_app.
  rewrite E1' by tauto. rewrite E1 by tauto. unfold net. cbn [app combine map fst snd]. rewrite Zsum_cons. lia.
Qed.
Lemma seg_worth T q q' z bs : proper_mesh T -> closed_mesh T -> worth T q z -> Forall2 (fun t (b : bool) => if b then crosses q q' t else avoids q q' t) T bs -> worth T q' (z - net T (vsub q' q) bs).
Proof. intros Pr Cl W H. destruct (seg_all T bs q q' H) as (B & F & A1 & A2 & A3). exact (transfer T Pr Cl q q' z _ B F W A1 A2 A3). Qed.

(** A face is gone through in one triangle or in none. *)
Lemma seg_plane n d p p' s t : on_plane n d (seg_point p p' s) -> on_plane n d (seg_point p p' t) -> dot n (vsub p' p) <> 0 -> s = t.
Proof. unfold on_plane, seg_point. intros A B N. apply (Rmult_eq_reg_r (dot n (vsub p' p))); auto. replace (dot n (vadd p (smul s (vsub p' p)))) with (dot n p + s * dot n (vsub p' p)) in A by (vunf; ring). replace (dot n (vadd p (smul t (vsub p' p)))) with (dot n p + t * dot n (vsub p' p)) in B by (vunf; ring). lra. Qed.
Lemma forall2_avoids q r l (F : forall t, In t l -> avoids q r t) : exists bs, Forall2 (fun t (b : bool) => if b then crosses q r t else avoids q r t) l bs /\ hits bs = 0%nat.
Proof. induction l as [|t l IH]; [exists []; split; [constructor|auto]|]. destruct IH as (bs & A & B); [intros; apply F; right; auto|]. exists (false :: bs). split; [constructor; auto; apply F; left; auto|exact B]. Qed.
Lemma face_seg (f : face) n d ts p p' (b : bool) : covers f n d -> simple_outline (fst f) -> Forall2 (tri_verts (fst f)) (snd f) ts ->
  (if b then goes_through (f, n, d) p p' else keeps_off (f, n, d) p p') ->
  exists bs, Forall2 (fun t (b : bool) => if b then crosses p p' t else avoids p p' t) ts bs /\ hits bs = if b then 1%nat else 0%nat.
Proof.
  intros C Sm F H.
  assert (Vt : forall x, In x ts -> exists t, In t (snd f) /\ tri_verts (fst f) t x). { clear -F. induction F as [|t x l l' H F IH]; intros y []; [subst; exists t; simpl; auto|]. destruct (IH y H0) as (t' & A & B). exists t'. simpl. auto. }
  assert (Pl : forall a b c m, In (a, b, c) ts -> in_triangle a b c m -> on_plane n d m).
  { intros a b0 c m I In'. destruct (Vt _ I) as (t & It & Ve). destruct (covers_tri f n d t a b0 c C It Ve) as (U & A & B & Ce & _). apply (triangle_on_plane n d a b0 c); auto. }
  destruct b.
  - destruct H as (N & t & t0 & a & b & c & Tp & It & Ve & Si). destruct (In_nth_error _ _ It) as (i & Ei).
    assert (Sp : exists ts1 ts2, ts = ts1 ++ (a, b, c) :: ts2 /\ length ts1 = i).
    { clear -F Ei Ve. revert i Ei. induction F as [|t x l l' H F IH]; intros [|i] Ei; try discriminate; cbn [nth_error] in Ei.
      - injection Ei as ->. exists [], l'. split; auto. cbn [app]. f_equal. destruct t0 as ((i, j), k), x as ((x, y), z). destruct H as (H1 & H2 & H3), Ve as (V1 & V2 & V3). congruence.
      - destruct (IH i Ei) as (t1 & t2 & -> & L). exists (x :: t1), t2. cbn [app length]. auto. }
    destruct Sp as (ts1 & ts2 & Ets & Li). set (m0 := seg_point p p' t) in *.
    assert (Pt : on_plane n d m0). { destruct (covers_tri f n d t0 a b c C It Ve) as (U & A & B & Ce & _). apply (triangle_on_plane n d a b c); auto. apply strictly_in. exact Si. }
    assert (Ms : forall j x, nth_error ts j = Some x -> j <> i -> avoids p p' x).
    { intros j ((a', b'), c') Ej Nj m (s & S0 & Em) In'. subst m. assert (I' : In (a', b', c') ts) by (apply (nth_error_In _ _ Ej)). assert (Ps := Pl a' b' c' _ I' In').
      assert (Es := seg_plane n d p p' s t Ps Pt N). subst s. fold m0 in In', Ps.
      assert (Vj : exists tj, nth_error (snd f) j = Some tj /\ tri_verts (fst f) tj (a', b', c')).
      { clear -F Ej. revert j Ej. induction F as [|t x l l' H F IH]; intros [|j] Ej; try discriminate; cbn [nth_error] in *; [injection Ej as ->; exists t; auto|]. apply IH; auto. }
      destruct Vj as (tj & Etj & Vj). pose proof (nth_error_In _ _ Etj) as Itj. clearbody m0.
      pose proof (proj1 (tri_edges_inside n d f t0 a b c m0 C It Ve Pt) Si) as Le. destruct (left_near n m0 (middle a' b' c') _ Le) as (k & K & Lk).
      assert (Pk : on_plane n d (seg_point m0 (middle a' b' c') k)). { pose proof (middle_on n d f tj a' b' c' C Itj Vj) as Pm. unfold on_plane in *. unfold seg_point. replace (dot n (vadd m0 (smul k (vsub (middle a' b' c') m0)))) with ((1 - k) * dot n m0 + k * dot n (middle a' b' c')) by (vunf; ring). assert (dot n m0 = - d) as -> by lra. assert (dot n (middle a' b' c') = - d) as -> by lra. ring. }
      pose proof (proj2 (tri_edges_inside n d f t0 a b c _ C It Ve Pk) Lk) as Sk. pose proof (towards_middle a' b' c' m0 k In' K) as Sk'.
      apply Nj. symmetry. exact (no_overlap f n d C Sm i j t0 tj a b c a' b' c' _ Ei Ve Sk Etj Vj Sk'). }
    destruct (forall2_avoids p p' ts1) as (b1 & F1 & H1).
    { intros x I. destruct (In_nth_error _ _ I) as (j & Ej). assert (j < length ts1)%nat by (apply nth_error_Some; rewrite Ej; discriminate). apply (Ms j); [rewrite Ets, nth_error_app1; auto|lia]. }
    destruct (forall2_avoids p p' ts2) as (b2 & F2 & H2).
    { intros x I. destruct (In_nth_error _ _ I) as (j & Ej). apply (Ms (i + 1 + j)%nat); [rewrite Ets, nth_error_app2 by lia; replace (i + 1 + j - length ts1)%nat with (S j) by lia; auto|lia]. }
    exists (b1 ++ true :: b2). split.
    + rewrite Ets. apply Forall2_app; auto. constructor; auto. split; [|exists t; split; auto].
      destruct (covers_tri f n d t0 a b c C It Ve) as (U & A & B & Ce & K). intros E0. unfold on_plane in A, B, Ce. fold (tn a b c) in E0.
      assert (Par : exists k, tn a b c = smul k n). { apply perp_cross; auto; unfold on_plane in *; vunf; lra. }
      destruct Par as (k & Ek). unfold side in K. fold (tn a b c) in K. rewrite Ek in K, E0. replace (dot (smul k n) (vsub p' p)) with (k * dot n (vsub p' p)) in E0 by (vunf; ring). apply Rmult_integral in E0. destruct E0 as [-> |E0]; [|contradiction]. replace (dot n (smul 0 n)) with 0 in K by (vunf; ring). lra.
    + rewrite hits_app. unfold hits in *. cbn [filter length]. lia.
  - apply forall2_avoids. intros ((a, b), c) I m Sg In'. apply (H m Sg). cbn [fst]. destruct (Vt _ I) as (t & It & Ve). exists t, a, b, c. auto.
Qed.
Lemma sides_seg fs T p p' bs : sides fs T -> passes fs p p' bs -> exists bt, Forall2 (fun t (b : bool) => if b then crosses p p' t else avoids p p' t) T bt /\ hits bt = hits bs.
Proof.
  intros (C & Ts & F & ->) Sw. revert Ts F. induction Sw as [|((f, n), d) b fs bs H Sw IH]; intros Ts F; unfold solid_of in *; cbn [map fst] in *; inversion F as [|? ts ? Ts' F1 F2]; subst; [exists []; split; [constructor|auto]|].
  destruct (IH (fun f n d I => C f n d (or_intror I)) Ts' F2) as (b2 & A2 & H2). destruct (C f n d (or_introl eq_refl)) as (Cv & Sm).
  destruct (face_seg f n d ts p p' b Cv Sm F1 H) as (b1 & A1 & H1). exists (b1 ++ b2). split; [cbn [concat]; apply Forall2_app; auto|]. rewrite hits_app, H1, H2. unfold hits. destruct b; cbn [filter length]; lia.
Qed.
Lemma turned_seg T T' p p' bt : Forall2 same3 T T' -> Forall2 (fun t (b : bool) => if b then crosses p p' t else avoids p p' t) T bt -> Forall2 (fun t (b : bool) => if b then crosses p p' t else avoids p p' t) T' bt.
Proof.
  intros F G. revert T' F. induction G as [|t b l bs H G IH]; intros T' F; inversion F as [|? t' ? l' E F']; subst; constructor; [|apply IH; auto].
  destruct E as [-> | ->]; auto. destruct b; auto using back_crosses, back_avoids.
Qed.
Lemma forall2_len {A B} (P : A -> B -> Prop) l m : Forall2 P l m -> length l = length m.
Proof. intros F. induction F; cbn; auto. Qed.

(** The answer of the code is the parity of the balance. *)
Lemma answer fs T T' p bs z : ok_faces fs -> fs <> [] -> sides fs T -> Forall2 same3 T T' -> proper_mesh T' -> closed_mesh T' -> seen_well p fs bs -> (forall f n d, In (f, n, d) fs -> off_face p f n d) ->
  (exists z, worth T' p z) /\ (worth T' p z -> solid_point_inside (solid_of fs) p = Ok (Z.odd z)).
Proof.
  intros Okf Ne Sd S Pr Cl Sw Of. destruct (sides_sees fs T p bs Okf Sd Sw) as (bt & St & Ht). apply (turned_sees _ _ S) in St. pose proof (sees_worth T' Cl p sight bt St) as W0. split; [eauto|]. intros W.
  rewrite (worth_unique T' Pr p z _ W W0), net_parity, Ht by (apply sees_length in St; auto).
  pose proof (seen_well_seen p fs bs Okf Sw) as Sn. destruct (Nat.odd (hits bs)) eqn:E.
  - apply (parity_odd fs p bs); auto. apply NNPP. intros Nx.
    destruct (outside_rays T' Pr Cl p p 0 0 sight bt (turned_outside _ _ S _ (sides_outside fs T p Sd Nx)) (way_stay T' p) St) as (_ & X). rewrite Ht, E in X. discriminate.
  - apply (parity_even fs p bs); auto.
Qed.
Lemma step_worth T T' fs p p' bs z : sides fs T -> Forall2 same3 T T' -> proper_mesh T' -> closed_mesh T' -> passes fs p p' bs -> worth T' p z ->
  exists z', worth T' p' z' /\ Z.odd z' = xorb (Z.odd z) (Nat.odd (hits bs)).
Proof.
  intros Sd S Pr Cl H W. destruct (sides_seg fs T p p' bs Sd H) as (bt & B & Hb). apply (turned_seg _ _ _ _ _ S) in B. exists (z - net T' (vsub p' p) bt)%Z. split; [apply seg_worth; auto|].
  rewrite Z.odd_sub, net_parity, Hb by (apply forall2_len in B; auto). reflexivity.
Qed.
(** One straight way. *)
Lemma way_answer fs T p p' bs bs' ps : ok_faces fs -> fs <> [] -> loose_shell fs T -> seen_well p fs bs -> seen_well p' fs bs' -> (forall f n d, In (f, n, d) fs -> off_face p f n d) -> (forall f n d, In (f, n, d) fs -> off_face p' f n d) ->
  passes fs p p' ps -> exists r, solid_point_inside (solid_of fs) p = Ok r /\ solid_point_inside (solid_of fs) p' = Ok (xorb r (Nat.odd (hits ps))).
Proof.
  intros Okf Ne Sh S1 S2 O1 O2 H. destruct (loose_mesh fs T Sh) as (T' & S & Pr & Cl). destruct Sh as (Sd & _).
  destruct (answer fs T T' p bs 0%Z Okf Ne Sd S Pr Cl S1 O1) as ((z & W) & _). destruct (step_worth T T' fs p p' ps z Sd S Pr Cl H W) as (z' & W' & E).
  exists (Z.odd z). split; [apply (answer fs T T' p bs z); auto|]. rewrite <- E. apply (answer fs T T' p' bs' z'); auto.
Qed.

(** Faces with the same outline are in the same place. *)
Lemma same_place f n d f' n' d' : covers f n d -> covers f' n' d' -> simple_outline (fst f) -> (n' = n /\ d' = d \/ n' = vopp n /\ d' = - d) -> rotation_of (fst f) (fst f') \/ reverse_loop (fst f) (fst f') -> forall q, in_mesh f q -> in_mesh f' q.
Proof.
  intros C C' Sm Hn R q I. destruct (some_dir f n d C Sm) as (u & N).
  assert (Q : on_plane n d q). { destruct I as (t & a & b & c & It & Ve & Im). destruct (covers_tri f n d t a b c C It Ve) as (U & A & B & Ce & _). apply (triangle_on_plane n d a b c); auto. }
  assert (Q' : on_plane n' d' q) by (destruct Hn as [(-> & ->)|(-> & ->)]; auto; unfold on_plane in *; revert Q; vunf; lra).
  assert (N' : cross u n' <> vzero) by (destruct Hn as [(-> & _)|(-> & _)]; auto; intros E; apply N; clear -E; dvec u; dvec n; revert E; vunf; intros E; injection E as E1 E2 E3; f_equal; lra).
  assert (S' : simple_outline (fst f')) by (destruct R as [R|R]; [eapply simple_rotation; eauto|eapply simple_rotation; [exact R|]; apply simple_rev; auto]).
  apply (region_all f n d C Sm q u Q N) in I. pose proof (winding_mesh f' n' d' u q C' Q' N') as (W0 & W1 & _).
  destruct (classic (on_outline (fst f') q)) as [Oq|Oq]; [apply (region_all f' n' d' C' S' q u Q' N'); auto|].
  assert (Wn : winding n' u q (fst f') = winding n u q (fst f') \/ winding n' u q (fst f') = (- winding n u q (fst f'))%Z).
  { destruct Hn as [(-> & _)|(-> & _)]; auto. right. destruct C as (Un & Pn & _). apply (winding_opp n d); auto. intros p Ip. destruct C' as (_ & P' & _). pose proof (P' p Ip) as X. destruct R as [(a & b & E1 & E2)|R].
    - apply Pn. rewrite E1. rewrite E2 in Ip. apply in_app_or in Ip. apply in_or_app. tauto.
    - apply Pn. apply (reverse_points _ _ p R Ip). }
  assert (Wr : winding n u q (fst f') = winding n u q (fst f) \/ winding n u q (fst f') = (- winding n u q (fst f))%Z) by (destruct R as [R|R]; [left; apply winding_rot; auto|right; apply reverse_winding; auto]).
  destruct I as [I|I]; [|apply W1; lia]. apply (region_all f' n' d' C' S' q u Q' N'). left.
  destruct R as [R|R]; (eapply outline_perm; [apply cyc_pairs_rotation, R|]); auto using outline_rev.
Qed.
