(** Closed solids: the code counts like a path from outside. *)
From Coq Require Import Reals List ZArith Bool Arith Lia Lra Psatz Permutation Classical.
From Verif Require Import Prelude VecModel VecProofs GeomModel GeomSpec GeomProofs1 TriModel TriSpec TriProofs2 PolyModel PolySpec SolidModel SolidSpec CrossSpec InsideSpec InsideProofs1 RoomSpec RoomProofs1 PlanProofs4
  WindSpec WindProofs1 LoopSpec LoopProofs5 LoopProofs6 ShellSpec ShellProofs1 ShellProofs2 ShellProofs3 ShellProofs4.
Import ListNotations.
Local Open Scope R_scope.

(** ** Triangles *)
Section Mesh.
Context (T : list (vec * vec * vec)) (Pr : proper_mesh T) (Cl : closed_mesh T).
Lemma same_rays q r bs r' bs' : sees T q r bs -> sees T q r' bs' -> net T r bs = net T r' bs' /\ Nat.odd (hits bs) = Nat.odd (hits bs').
Proof.
  intros S S'. assert (E : net T r bs = net T r' bs') by (apply (worth_unique T Pr q); apply sees_worth; auto). split; auto. rewrite <- (net_parity T r bs), <- (net_parity T r' bs') by (eapply sees_length; eauto). rewrite E. auto.
Qed.
Lemma way_rays p q n z r bs r' bs' : way T p q n z -> sees T p r bs -> sees T q r' bs' -> net T r' bs' = (net T r bs + z)%Z /\ Nat.odd (hits bs') = xorb (Nat.odd (hits bs)) (Nat.odd n).
Proof.
  intros W S S'. assert (E : net T r' bs' = (net T r bs + z)%Z) by (apply (worth_unique T Pr q); [apply sees_worth; auto|apply (way_worth T Pr Cl p q n z); auto; apply sees_worth; auto]). split; auto.
  rewrite <- (net_parity T r bs), <- (net_parity T r' bs') by (eapply sees_length; eauto). rewrite E, Z.odd_add, (way_parity T p q n z W). auto.
Qed.
Lemma outside_rays p q n z r bs : outside T p -> way T p q n z -> sees T q r bs -> net T r bs = z /\ Nat.odd (hits bs) = Nat.odd n.
Proof.
  intros O W S. destruct (outside_sees T p O) as (r0 & b0 & S0 & N0 & H0). destruct (way_rays p q n z r0 b0 r bs W S0 S) as (A & B). rewrite N0 in A. rewrite H0 in B. cbn in B. split; [lia|]. rewrite B. destruct (Nat.odd n); auto.
Qed.
Lemma outside_ways p p' q n z n' z' : outside T p -> outside T p' -> way T p q n z -> way T p' q n' z' -> z = z' /\ Nat.odd n = Nat.odd n'.
Proof.
  intros O O' W W'. destruct (outside_sees T p O) as (r0 & b0 & S0 & N0 & _). destruct (outside_sees T p' O') as (r1 & b1 & S1 & N1 & _).
  assert (E : z = z').
  { apply (worth_unique T Pr q); [replace z with (net T r0 b0 + z)%Z by lia; apply (way_worth T Pr Cl p q n); auto; apply sees_worth; auto|]. replace z' with (net T r1 b1 + z')%Z by lia. apply (way_worth T Pr Cl p' q n'); auto. apply sees_worth; auto. }
  split; auto. rewrite <- (way_parity _ _ _ _ _ W), <- (way_parity _ _ _ _ _ W'), E. auto.
Qed.
End Mesh.

(** ** Faces *)
Lemma mesh_pairs pts ts T : Forall2 (tri_verts pts) ts T -> mesh_edges T = map (pair_at pts) (tri_edges ts).
Proof.
  intros F. induction F as [|((i, j), k) ((a, b), c) ts T (H1 & H2 & H3) F IH]; auto. rewrite mesh_edges_cons, IH. unfold tri_edges. cbn [flat_map app map]. unfold pair_at, corner. cbn [fst snd]. rewrite (nth_error_nth _ _ vzero H1), (nth_error_nth _ _ vzero H2), (nth_error_nth _ _ vzero H3). auto.
Qed.
Lemma face_edges f n d ts : covers f n d -> Forall2 (tri_verts (fst f)) (snd f) ts -> exists W, Permutation (mesh_edges ts) (cyc_pairs (fst f) ++ both_ways W).
Proof.
  intros (_ & _ & _ & ds & P) F. exists (map (pair_at (fst f)) ds). rewrite (mesh_pairs _ _ _ F). apply (Permutation_map (pair_at (fst f))) in P. rewrite P, map_app, both_ways_map. unfold pair_at at 1. rewrite (cyc_pairs_map (corner (fst f))), corners. auto.
Qed.
Lemma both_ways_closed W : closed_edges (both_ways W).
Proof. unfold closed_edges. induction W as [|(a, b) W IH]; cbn; auto. rewrite perm_swap. unfold both_ways in IH. constructor. constructor. exact IH. Qed.
Lemma closed_app a b : closed_edges a -> closed_edges b -> closed_edges (a ++ b).
Proof. unfold closed_edges. intros A B. rewrite map_app. apply Permutation_app; auto. Qed.
Lemma both_ways_app {A} (a b : list (A * A)) : both_ways (a ++ b) = both_ways a ++ both_ways b.
Proof. unfold both_ways. apply flat_map_app. Qed.
Lemma shell_edges (fs : list (face * vec * R)) Ts : (forall f n d, In (f, n, d) fs -> covers f n d) -> Forall2 (fun (f : face) ts => Forall2 (tri_verts (fst f)) (snd f) ts) (solid_of fs) Ts ->
  exists W, Permutation (mesh_edges (concat Ts)) (concat (map cyc_pairs (map fst (solid_of fs))) ++ both_ways W).
Proof.
  revert Ts. induction fs as [|((f, n), d) fs IH]; intros Ts C F; unfold solid_of in *; cbn [map fst] in *; inversion F as [|? ts ? Ts' F1 F2]; subst; [exists []; cbn; auto|].
  destruct (IH Ts') as (W & P); auto; [intros; apply C; right; auto|]. destruct (face_edges f n d ts (C f n d (or_introl eq_refl)) F1) as (W1 & P1). exists (W1 ++ W). cbn [concat map]. rewrite mesh_edges_app, P, P1, both_ways_app. rewrite !app_assoc. apply Permutation_app_tail. rewrite <- !app_assoc. apply Permutation_app_head. apply Permutation_app_comm.
Qed.
Lemma sides_proper fs T : sides fs T -> proper_mesh T.
Proof.
  intros (C & Ts & F & ->).
  - intros a b c I. apply in_concat in I. destruct I as (ts & It & I). revert It. revert Ts F. induction fs as [|((f, n), d) fs IH]; intros Ts F It; unfold solid_of in *; cbn [map fst] in *; inversion F as [|? ts' ? Ts' F1 F2]; subst; [destruct It|].
    destruct It as [<-|It]; [|apply (IH (fun f n d J => C f n d (or_intror J)) Ts'); auto]. destruct (C f n d (or_introl eq_refl)) as (Cv & _). clear IH F2.
    assert (H : exists t, In t (snd f) /\ tri_verts (fst f) t (a, b, c)). { clear -F1 I. induction F1 as [|t x l l' H F IH]; [destruct I|]. destruct I as [<-|I]; [exists t; simpl; auto|]. destruct (IH I) as (t' & A & B). exists t'. simpl. auto. }
    destruct H as (t & It & Vt). destruct (covers_tri f n d t a b c Cv It Vt) as (U & _ & _ & _ & K). intros E. unfold side in K. rewrite E in K. vunf. lra.
Qed.
Lemma shell_mesh fs T : shell fs T -> proper_mesh T /\ closed_mesh T.
Proof.
  intros (Sd & Cs). split; [exact (sides_proper fs T Sd)|]. destruct Sd as (C & Ts & F & ->).
  destruct (shell_edges fs Ts (fun f n d I => proj1 (C f n d I)) F) as (W & P). apply (closed_perm _ _ (Permutation_sym P)). apply closed_app; [exact Cs|apply both_ways_closed].
Qed.

(** A face is met in one triangle or in none. *)
Lemma edge_area a b q z : q = vadd a (smul z (vsub b a)) -> true_area a b q = 0.
Proof. intros ->. unfold true_area. replace (cross (vsub b a) (vsub (vadd a (smul z (vsub b a))) a)) with vzero by (vunf; f_equal; ring). replace (norm vzero) with 0 by (symmetry; apply norm_zero; auto). lra. Qed.
Lemma off_strict a b c q : in_triangle a b c q -> off_edges a b c q -> strictly_inside a b c q.
Proof.
  intros (x & y & z & X & Y & Z & Su & E) ((_ & _ & _ & A1) & (_ & _ & _ & A2) & (_ & _ & _ & A3)).
  assert (Xp : x <> 0) by (intros ->; rewrite (edge_area b c q z) in A2; [lra|]; rewrite E; assert (y = 1 - z) as -> by lra; unfold bary; vunf; f_equal; ring).
  assert (Yp : y <> 0) by (intros ->; rewrite (edge_area c a q x) in A3; [lra|]; rewrite E; assert (z = 1 - x) as -> by lra; unfold bary; vunf; f_equal; ring).
  assert (Zp : z <> 0) by (intros ->; rewrite (edge_area a b q y) in A1; [lra|]; rewrite E; assert (x = 1 - y) as -> by lra; unfold bary; vunf; f_equal; ring).
  exists x, y, z. repeat split; auto; lra.
Qed.
Lemma beyond_triangle l a b c q : In a l -> In b l -> In c l -> beyond l q -> ~ in_triangle a b c q.
Proof.
  intros A B C (co & Ic & H) I.
  assert (M : exists m, forall v, co v = dot m v) by (destruct Ic as [<-|[<-|[<-|[]]]]; [exists (V 1 0 0)|exists (V 0 1 0)|exists (V 0 0 1)]; intros v; vunf; ring). destruct M as (m & M). destruct H as [H|H].
  - assert (L := triangle_side m (co q) a b c q I). rewrite <- !M in L. pose proof (H a A). pose proof (H b B). pose proof (H c C). lra.
  - assert (L := triangle_side (smul (-1) m) (- co q) a b c q I). assert (Ml : forall v, dot (smul (-1) m) v = - co v) by (intros v; rewrite M; vunf; ring). rewrite !Ml in L. pose proof (H a A). pose proof (H b B). pose proof (H c C). lra.
Qed.
Lemma ray_plane n d p s t : on_plane n d (ray p s) -> on_plane n d (ray p t) -> dot n sight <> 0 -> s = t.
Proof. unfold on_plane, ray. intros A B N. replace (dot n (vadd p (smul s sight))) with (dot n p + s * dot n sight) in A by (vunf; ring). replace (dot n (vadd p (smul t sight))) with (dot n p + t * dot n sight) in B by (vunf; ring). apply (Rmult_eq_reg_r (dot n sight)); auto. lra. Qed.
Lemma forall2_misses q r l (F : forall t, In t l -> misses q r t) : exists bs, Forall2 (fun t (b : bool) => if b then pierces q r t else misses q r t) l bs /\ hits bs = 0%nat.
Proof. induction l as [|t l IH]; [exists []; split; [constructor|auto]|]. destruct IH as (bs & A & B); [intros; apply F; right; auto|]. exists (false :: bs). split; [constructor; auto; apply F; left; auto|exact B]. Qed.
Lemma hits_app a b : hits (a ++ b) = (hits a + hits b)%nat.
Proof. unfold hits. rewrite filter_app, app_length. auto. Qed.
Lemma face_bits (f : face) n d ts p (b : bool) : covers f n d -> simple_outline (fst f) -> dot n sight <> 0 -> Forall2 (tri_verts (fst f)) (snd f) ts ->
  (if b then exists t, 0 < t /\ within f (ray p t) else ray_passes p f n d) ->
  exists bs, Forall2 (fun t (b : bool) => if b then pierces p sight t else misses p sight t) ts bs /\ hits bs = if b then 1%nat else 0%nat.
Proof.
  intros C Sm N F H.
  assert (Vt : forall x, In x ts -> exists t, In t (snd f) /\ tri_verts (fst f) t x). { clear -F. induction F as [|t x l l' H F IH]; intros y []; [subst; exists t; simpl; auto|]. destruct (IH y H0) as (t' & A & B). exists t'. simpl. auto. }
  assert (Pl : forall a b c s, In (a, b, c) ts -> in_triangle a b c (vadd p (smul s sight)) -> on_plane n d (ray p s)).
  { intros a b0 c s I In'. destruct (Vt _ I) as (t & It & Ve). destruct (covers_tri f n d t a b0 c C It Ve) as (U & A & B & Ce & _). apply (triangle_on_plane n d a b0 c); auto. }
  destruct b.
  - destruct H as (t & Tp & (t0 & a & b & c & It & Ve & Si & Oe)). destruct (In_nth_error _ _ It) as (i & Ei).
    assert (Sp : exists ts1 ts2, ts = ts1 ++ (a, b, c) :: ts2 /\ length ts1 = i).
    { clear -F Ei Ve. revert i Ei. induction F as [|t x l l' H F IH]; intros [|i] Ei; try discriminate; cbn [nth_error] in Ei.
      - injection Ei as ->. exists [], l'. split; auto. cbn [app]. f_equal. destruct t0 as ((i, j), k), x as ((x, y), z). destruct H as (H1 & H2 & H3), Ve as (V1 & V2 & V3). congruence.
      - destruct (IH i Ei) as (t1 & t2 & -> & L). exists (x :: t1), t2. cbn [app length]. auto. }
    destruct Sp as (ts1 & ts2 & Ets & Li).
    assert (Ms : forall j x, nth_error ts j = Some x -> j <> i -> misses p sight x).
    { intros j ((a', b'), c') Ej Nj s S0 In'. assert (I' : In (a', b', c') ts) by (apply (nth_error_In _ _ Ej)). assert (Ps := Pl a' b' c' s I' In').
      assert (Pt : on_plane n d (ray p t)). { destruct (covers_tri f n d t0 a b c C It Ve) as (U & A & B & Ce & _). apply (triangle_on_plane n d a b c); auto. apply strictly_in. exact Si. }
      assert (Es := ray_plane n d p s t Ps Pt N). subst s.
      assert (Vj : exists tj, nth_error (snd f) j = Some tj /\ tri_verts (fst f) tj (a', b', c')).
      { clear -F Ej. revert j Ej. induction F as [|t x l l' H F IH]; intros [|j] Ej; try discriminate; cbn [nth_error] in *; [injection Ej as ->; exists t; auto|]. apply IH; auto. }
      destruct Vj as (tj & Etj & Vj). pose proof (nth_error_In _ _ Etj) as Itj.
      pose proof (proj1 (tri_edges_inside n d f t0 a b c (ray p t) C It Ve Pt) Si) as Le. destruct (left_near n (ray p t) (middle a' b' c') _ Le) as (k & K & Lk).
      assert (Pk : on_plane n d (seg_point (ray p t) (middle a' b' c') k)). { pose proof (middle_on n d f tj a' b' c' C Itj Vj) as Pm. unfold on_plane in *. unfold seg_point. replace (dot n (vadd (ray p t) (smul k (vsub (middle a' b' c') (ray p t))))) with ((1 - k) * dot n (ray p t) + k * dot n (middle a' b' c')) by (vunf; ring). assert (dot n (ray p t) = - d) as -> by lra. assert (dot n (middle a' b' c') = - d) as -> by lra. ring. }
      pose proof (proj2 (tri_edges_inside n d f t0 a b c _ C It Ve Pk) Lk) as Sk. pose proof (towards_middle a' b' c' (ray p t) k In' K) as Sk'.
      apply Nj. symmetry. exact (no_overlap f n d C Sm i j t0 tj a b c a' b' c' _ Ei Ve Sk Etj Vj Sk'). }
    destruct (forall2_misses p sight ts1) as (b1 & F1 & H1).
    { intros x I. destruct (In_nth_error _ _ I) as (j & Ej). assert (j < length ts1)%nat by (apply nth_error_Some; rewrite Ej; discriminate). apply (Ms j); [rewrite Ets, nth_error_app1; auto|lia]. }
    destruct (forall2_misses p sight ts2) as (b2 & F2 & H2).
    { intros x I. destruct (In_nth_error _ _ I) as (j & Ej). apply (Ms (i + 1 + j)%nat); [rewrite Ets, nth_error_app2 by lia; replace (i + 1 + j - length ts1)%nat with (S j) by lia; auto|lia]. }
    exists (b1 ++ true :: b2). split.
    + rewrite Ets. apply Forall2_app; auto. constructor; auto. split; [|exists t; split; auto].
      destruct (covers_tri f n d t0 a b c C It Ve) as (U & A & B & Ce & K). intros E0. unfold on_plane in A, B, Ce. fold (tn a b c) in E0.
      assert (Par : exists k, tn a b c = smul k n). { apply perp_cross; auto; unfold on_plane in *; vunf; lra. }
      destruct Par as (k & Ek). unfold side in K. fold (tn a b c) in K. rewrite Ek in K, E0. replace (dot (smul k n) sight) with (k * dot n sight) in E0 by (vunf; ring). apply Rmult_integral in E0. destruct E0 as [-> |E0]; [|contradiction]. replace (dot n (smul 0 n)) with 0 in K by (vunf; ring). lra.
    + rewrite hits_app. unfold hits in *. cbn [filter length]. lia.
  - destruct H as (t & Pt & H). destruct (forall2_misses p sight ts) as (bs & Fb & Hb); [|exists bs; auto]. intros ((a, b), c) I s S0 In'. pose proof (Pl a b c s I In') as Ps. assert (Es := ray_plane n d p s t Ps Pt N). subst s. destruct H as [H|H]; [lra|].
    destruct (Vt _ I) as (t0 & It & Ve). destruct H as [H|H].
    + destruct t0 as ((i, j), k). destruct Ve as (V1 & V2 & V3). apply (beyond_triangle (fst f) a b c (ray p t)); auto; eapply nth_error_In; eauto.
    + destruct (H t0 a b c It Ve) as [Hb|(Oe & _ & _ & _ & Ns)]; [apply (beyond_triangle [a; b; c] a b c (ray p t)); simpl; auto|]. apply Ns. apply off_strict; auto.
Qed.
Lemma sides_sees fs T p bs : ok_faces fs -> sides fs T -> seen_well p fs bs -> exists bt, sees T p sight bt /\ hits bt = hits bs.
Proof.
  intros Ok (C & Ts & F & ->) Sw.
  assert (G : exists bt, Forall2 (fun t (b : bool) => if b then pierces p sight t else misses p sight t) (concat Ts) bt /\ hits bt = hits bs).
  { revert Ts F. induction Sw as [|((f, n), d) b fs bs H Sw IH]; intros Ts F; unfold solid_of in *; cbn [map fst] in *; inversion F as [|? ts ? Ts' F1 F2]; subst; [exists []; split; [constructor|auto]|].
    destruct (IH (fun f n d I => Ok f n d (or_intror I)) (fun f n d I => C f n d (or_intror I)) Ts' F2) as (b2 & A2 & H2). destruct (C f n d (or_introl eq_refl)) as (Cv & Sm). destruct (Ok f n d (or_introl eq_refl)) as (_ & _ & _ & Ns & _).
    assert (N : dot n sight <> 0) by (intros E; rewrite E, Rabs_R0 in Ns; lra). destruct (face_bits f n d ts p b Cv Sm N F1 H) as (b1 & A1 & H1). exists (b1 ++ b2). split; [cbn [concat]; apply Forall2_app; auto|]. rewrite hits_app, H1, H2. unfold hits. destruct b; cbn [filter length]; lia. }
  destruct G as (bt & A & B). exists bt. split; auto. split; auto. intros E. injection E. unfold sight. lra.
Qed.
Lemma seen_well_seen p fs bs : ok_faces fs -> seen_well p fs bs -> seen p fs bs.
Proof.
  intros Ok H. unfold seen, seen_well in *. induction H as [|((f, n), d) b fs bs H Sw IH]; constructor; [|apply IH; intros f' n' d' I; apply Ok; right; auto]. destruct b; auto. destruct H as (t & Tp & W). exists t. split; [lra|]. split; [|left; exact W].
  destruct (Ok f n d (or_introl eq_refl)) as (_ & P & _). destruct W as (t0 & a & b & c & It & Ve & Si & _). destruct t0 as ((i, j), k). destruct Ve as (V1 & V2 & V3). apply (triangle_on_plane n d a b c); [apply P; eapply nth_error_In; eauto|apply P; eapply nth_error_In; eauto|apply P; eapply nth_error_In; eauto|apply strictly_in; exact Si].
Qed.
Lemma shell_sees fs T p bs : ok_faces fs -> shell fs T -> seen_well p fs bs -> exists bt, sees T p sight bt /\ hits bt = hits bs.
Proof. intros Ok (Sd & _). apply sides_sees; auto. Qed.
Lemma sides_outside fs T p : sides fs T -> ~ in_extent (concat (map fst (solid_of fs))) p -> outside T p.
Proof.
  intros (_ & Ts & F & ->) E.
  assert (Vs : forall a b c, In (a, b, c) (concat Ts) -> In a (concat (map fst (solid_of fs))) /\ In b (concat (map fst (solid_of fs))) /\ In c (concat (map fst (solid_of fs)))).
  { intros a b c I. apply in_concat in I. destruct I as (ts & It & I). clear E. induction F as [|f ts' l Ts' H F IH]; [destruct It|]. cbn [map concat]. rewrite !in_app_iff. destruct It as [->|It]; [|destruct (IH It) as (X & Y & Z); auto].
    clear -H I. assert (exists t, tri_verts (fst f) t (a, b, c)) as (((i, j), k) & V1 & V2 & V3). { induction H as [|t x l1 l2 H F IH]; [destruct I|]. destruct I as [->|I]; eauto. } split; [|split]; left; eapply nth_error_In; eauto. }
  set (l := concat (map fst (solid_of fs))) in *.
  assert (X : exists c, In c [vx; vy; vz] /\ ((forall v, In v l -> c p < c v) \/ (forall v, In v l -> c v < c p))).
  { apply NNPP. intros Nx. apply E. intros c Ic. split; apply NNPP; intros Ny; apply Nx; exists c; (split; [auto|]).
    - left. intros v I. apply Rnot_le_lt. intros L. apply Ny. eauto.
    - right. intros v I. apply Rnot_le_lt. intros L. apply Ny. eauto. }
  destruct X as (c & Ic & H). assert (M : exists m, forall v, c v = dot m v) by (destruct Ic as [<-|[<-|[<-|[]]]]; [exists (V 1 0 0)|exists (V 0 1 0)|exists (V 0 0 1)]; intros v; vunf; ring). destruct M as (m & M). destruct H as [H|H].
  - exists (smul (-1) m). intros x y z I. destruct (Vs x y z I) as (I1 & I2 & I3). assert (Ml : forall v, dot (smul (-1) m) v = - c v) by (intros v; rewrite M; vunf; ring). rewrite !Ml. pose proof (H x I1). pose proof (H y I2). pose proof (H z I3). lra.
  - exists m. intros x y z I. destruct (Vs x y z I) as (I1 & I2 & I3). rewrite <- !M. auto.
Qed.
Lemma extent_outside fs T p : shell fs T -> ~ in_extent (concat (map fst (solid_of fs))) p -> outside T p.
Proof. intros (Sd & _). apply sides_outside; auto. Qed.
Lemma solid_path fs T p q n z bs : ok_faces fs -> fs <> [] -> shell fs T -> outside T p -> way T p q n z -> seen_well q fs bs -> (forall f n d, In (f, n, d) fs -> off_face q f n d) ->
  solid_point_inside (solid_of fs) q = Ok (Nat.odd n).
Proof.
  intros Ok Ne Sh O W Sw Of. destruct (shell_mesh fs T Sh) as (Pr & Cl). destruct (shell_sees fs T q bs Ok Sh Sw) as (bt & St & Ht). destruct (outside_rays T Pr Cl p q n z sight bt O W St) as (_ & Od). rewrite Ht in Od.
  pose proof (seen_well_seen q fs bs Ok Sw) as Sn. destruct (Nat.odd n) eqn:E.
  - apply (parity_odd fs q bs); auto. apply NNPP. intros Nx. pose proof (extent_outside fs T q Sh Nx) as Oq. destruct (outside_rays T Pr Cl q q 0 0 sight bt Oq (way_stay T q) St) as (_ & X). rewrite Ht, Od in X. discriminate.
  - apply (parity_even fs q bs); auto.
Qed.
