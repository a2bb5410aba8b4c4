(** Solids over a floor plan: what lies between floor and ceiling. *)
From Coq Require Import Ascii String Reals List ZArith Bool Arith Lia Lra Psatz Permutation Classical.
From Verif Require Import Prelude TreeModel VecModel VecProofs GeomModel GeomSpec GeomProofs1 TriModel TriSpec TriProofs2 PolyModel PolySpec SolidModel SolidSpec CrossSpec InsideSpec InsideProofs1 RoomSpec RoomProofs1 PlanSpec
  WindSpec WindProofs1 WindProofs2 LoopSpec LoopProofs5 LoopProofs6 ShellSpec ShellProofs3 ShellProofs5 ShellProofs7 HallSpec.
Import ListNotations.
Local Open Scope R_scope.

Definition up_by (h : R) (p : vec) : vec := vadd p (V 0 0 h).
Lemma winding_up n u h q l : winding n u (up_by h q) (map (up_by h) l) = winding n u q l.
Proof.
  unfold winding. rewrite <- cyc_pairs_map, map_map. f_equal. apply map_ext. intros (a, b). unfold edge_turn. cbn [fst snd].
  assert (D : forall p, dot u (up_by h p) = dot u p + dot u (V 0 0 h)) by (intros p; unfold up_by; vunf; ring). rewrite !D.
  replace (left_of n (up_by h a) (up_by h b) (up_by h q)) with (left_of n a b q) by (unfold left_of, up_by; vunf; ring).
  repeat match goal with |- context [Rle_dec ?x ?y] => destruct (Rle_dec x y) | |- context [Rlt_dec ?x ?y] => destruct (Rlt_dec x y) end; auto; exfalso; lra.
Qed.
Lemma outline_up h l q : on_outline l q -> on_outline (map (up_by h) l) (up_by h q).
Proof.
  intros ((a, b) & I & t & T & E). exists (up_by h a, up_by h b). split; [rewrite <- cyc_pairs_map; apply in_map_iff; exists (a, b); auto|]. exists t. split; auto. cbn [fst snd] in *. rewrite E. unfold up_by, seg_point. vunf. f_equal; ring.
Qed.
Lemma foot_up z h q : up_by h (foot z q) = foot (z + h) q.
Proof. unfold up_by, foot. vunf. f_equal; ring. Qed.
Lemma foot_foot z z' q : foot z (foot z' q) = foot z q.
Proof. reflexivity. Qed.

Section Prism.
Context (fl : list vec) (z0 h : R) (H0 : 0 < h) (Pz : forall p, In p fl -> vz p = z0).
Context (wl : list (face * vec * R)) (F C : face) (nF : vec) (dF dC vC : R) (HvC : vC = 1 \/ vC = -1).
Context (HF : fst F = fl \/ fst F = rev fl) (HC : fst C = map (up_by h) fl \/ fst C = rev (map (up_by h) fl)).
Context (HW : forall f n d, In (f, n, d) wl -> exists e, In e (cyc_pairs fl) /\ forall v, In v (fst f) -> In v (wall_over (V 0 0 h) e)).
Notation nC := (V 0 0 vC).
Notation fs := (wl ++ [(F, nF, dF); (C, nC, dC)]).
Context (T : list (vec * vec * vec)) (Sh : sides fs T).
Notation ez := (V 0 0 1).
Lemma tri_foot a b c m (e : vec * vec) : In e (cyc_pairs fl) -> (forall v, In v [a; b; c] -> In v (wall_over (V 0 0 h) e)) -> in_triangle a b c m -> on_outline fl (foot z0 m) /\ z0 <= vz m <= z0 + h.
Proof.
  intros I Hv (x & y & z & X & Y & Z & Su & ->). destruct e as (e1, e2). destruct (cyc_members _ _ _ I) as (I1 & I2). pose proof (Pz _ I1) as Z1. pose proof (Pz _ I2) as Z2.
  assert (G : forall v, In v (wall_over (V 0 0 h) (e1, e2)) -> exists s, 0 <= s <= 1 /\ foot z0 v = seg_point e1 e2 s /\ z0 <= vz v <= z0 + h).
  { intros v [<-|[<-|[<-|[<-|[]]]]]; cbn [fst snd]; [exists 0|exists 1|exists 1|exists 0]; (split; [lra|]); (split; [unfold foot, seg_point; dvec e1; dvec e2; cbn [vx vy vz] in *; subst; vunf; f_equal; ring|vunf; lra]). }
  destruct (G a (Hv a ltac:(simpl; auto))) as (s1 & S1 & E1 & B1). destruct (G b (Hv b ltac:(simpl; auto))) as (s2 & S2 & E2 & B2). destruct (G c (Hv c ltac:(simpl; auto))) as (s3 & S3 & E3 & B3).
  assert (x = 1 - y - z) by lra. subst x. split; [|unfold bary; vunf; nra]. exists (e1, e2). split; auto. exists ((1 - y - z) * s1 + y * s2 + z * s3). split; [nra|]. cbn [fst snd].
  injection E1 as A1 A2 A3. injection E2 as A4 A5 A6. injection E3 as A7 A8 A9. unfold bary, foot, seg_point. vunf. rewrite A1, A2, A4, A5, A7, A8. unfold vadd, smul, vsub; cbn [vx vy vz]. f_equal; [ring|ring|]. rewrite Z1, Z2. ring.
Qed.
Lemma level_tri (g : face) z a b c t m : (forall v, In v (fst g) -> vz v = z) -> tri_verts (fst g) t (a, b, c) -> in_triangle a b c m -> vz m = z.
Proof.
  intros Hv Vt (x & y & w & _ & _ & _ & Su & ->). destruct t as ((i, j), k). destruct Vt as (V1 & V2 & V3). apply nth_error_In in V1, V2, V3. unfold bary. vunf. rewrite (Hv a), (Hv b), (Hv c) by auto. replace x with (1 - y - w) by lra. ring.
Qed.
Lemma floor_z v : In v (fst F) -> vz v = z0.
Proof. intros I. apply Pz. destruct HF as [E|E]; rewrite E in I; auto. apply in_rev; auto. Qed.
Lemma ceil_z v : In v (fst C) -> vz v = z0 + h.
Proof. intros I. assert (I' : In v (map (up_by h) fl)) by (destruct HC as [E|E]; rewrite E in I; auto; apply in_rev; auto). apply in_map_iff in I'. destruct I' as (w & <- & Iw). unfold up_by. vunf. rewrite (Pz w Iw). ring. Qed.
(** The triangles: those of walls and floor, and those of the ceiling. *)
Lemma mesh_split : exists Tw Tc, T = Tw ++ Tc /\ Forall2 (tri_verts (fst C)) (snd C) Tc /\ (forall a b c m, In (a, b, c) Tw -> in_triangle a b c m -> vz m = z0 \/ on_outline fl (foot z0 m)) /\
  (forall a b c m, In (a, b, c) T -> in_triangle a b c m -> z0 <= vz m <= z0 + h).
Proof.
  destruct Sh as (_ & Ts & Fo & ->). unfold solid_of in Fo. rewrite map_app in Fo. apply Forall2_app_inv_l in Fo. destruct Fo as (T1 & T2 & F1 & F2 & ->). cbn [map fst] in F2. inversion F2 as [|? tf ? T3 Ff F3]; subst. inversion F3 as [|? tc ? T4 Fc F4]; subst. inversion F4; subst.
  exists (concat T1 ++ tf), tc. split; [rewrite concat_app; cbn [concat]; rewrite app_nil_r, app_assoc; auto|]. split; [exact Fc|].
  assert (Gw : forall a b c m, In (a, b, c) (concat T1) -> in_triangle a b c m -> on_outline fl (foot z0 m) /\ z0 <= vz m <= z0 + h).
  { intros a b c m I Im. destruct (mesh_of wl T1 a b c F1 I) as (f & n & d & t & If & It & Vt). destruct (HW f n d If) as (e & Ie & Hv). apply (tri_foot a b c m e); auto. intros v Iv. apply Hv. destruct t as ((i, j), k). destruct Vt as (V1 & V2 & V3). apply nth_error_In in V1, V2, V3. destruct Iv as [<-|[<-|[<-|[]]]]; auto. }
  assert (Gf : forall (g : face) ts z a b c m, Forall2 (tri_verts (fst g)) (snd g) ts -> (forall v, In v (fst g) -> vz v = z) -> In (a, b, c) ts -> in_triangle a b c m -> vz m = z).
  { intros g ts z a b c m Fg Hv I Im. assert (exists t, tri_verts (fst g) t (a, b, c)) as (t & Vt). { clear -Fg I. induction Fg as [|t x l l' H1 H2 IH]; [destruct I|]. destruct I as [->|I]; eauto. } exact (level_tri g z a b c t m Hv Vt Im). }
  split.
  - intros a b c m I Im. apply in_app_iff in I. destruct I as [I|I]; [right; apply (Gw a b c m I Im)|left; apply (Gf F tf z0 a b c m Ff floor_z I Im)].
  - intros a b c m I Im. rewrite concat_app in I. cbn [concat] in I. rewrite app_nil_r in I. apply in_app_iff in I. destruct I as [I|I]; [apply (Gw a b c m I Im)|]. apply in_app_iff in I. destruct I as [I|I]; [pose proof (Gf F tf z0 a b c m Ff floor_z I Im); lra|pose proof (Gf C tc (z0 + h) a b c m Fc ceil_z I Im); lra].
Qed.
Lemma ceil_covers : covers C nC dC /\ simple_outline (fst C) /\ dC = - (vC * (z0 + h)).
Proof.
  destruct Sh as (Cv & _). destruct (Cv C nC dC) as (A & B); [apply in_app_iff; simpl; auto|]. split; auto. split; auto. destruct A as (_ & P & _). destruct B as (_ & L & _). assert (Ex : exists v, In v (fst C)) by (clear -L; destruct (fst C) as [|v r]; [cbn in L; lia|exists v; left; auto]). destruct Ex as (v & Iv). pose proof (P v Iv) as Q. pose proof (ceil_z v Iv) as Z. unfold on_plane in Q. revert Q. vunf. rewrite Z. lra.
Qed.
(** Being above the plan. *)
Lemma plan_mesh u q : cross u ez <> vzero -> ~ on_outline fl (foot z0 q) -> (in_mesh C (foot (z0 + h) q) <-> winding ez u (foot z0 q) fl <> 0%Z).
Proof.
  intros Nu No. destruct ceil_covers as (Cv & Sm & Ed). assert (Oc : ~ on_outline (fst C) (foot (z0 + h) q)).
  { intros O. assert (O' : on_outline (map (up_by h) fl) (foot (z0 + h) q)) by (destruct HC as [E|E]; rewrite E in O; auto; rewrite <- (rev_involutive (map _ _)); apply outline_rev; auto).
    apply No. apply (outline_up (- h)) in O'. rewrite map_map in O'. assert (Em : map (fun x => up_by (- h) (up_by h x)) fl = fl) by (rewrite <- (map_id fl) at 2; apply map_ext; intros v; unfold up_by; dvec v; vunf; f_equal; ring). rewrite Em, foot_up in O'. replace (z0 + h + - h) with z0 in O' by ring. exact O'. }
  assert (Q : on_plane nC dC (foot (z0 + h) q)) by (unfold on_plane, foot; rewrite Ed; vunf; ring).
  assert (Nv : cross u nC <> vzero) by (intros E; apply Nu; revert E; clear -HvC; dvec u; destruct HvC as [-> | ->]; vunf; intros E; injection E as E1 E2; f_equal; lra).
  pose proof (region_all C nC dC Cv Sm (foot (z0 + h) q) u Q Nv) as R. pose proof (winding_mesh C nC dC u (foot (z0 + h) q) Cv Q Nv) as (W0 & W1 & _).
  assert (Wz : winding nC u (foot (z0 + h) q) (fst C) = winding ez u (foot (z0 + h) q) (fst C) \/ winding nC u (foot (z0 + h) q) (fst C) = (- winding ez u (foot (z0 + h) q) (fst C))%Z).
  { destruct HvC as [Ev|Ev]; [left; rewrite Ev; auto|right]. replace nC with (vopp ez) by (rewrite Ev; vunf; f_equal; lra). apply (winding_opp ez (- (z0 + h))); auto; [unfold unit; vunf; ring| |unfold on_plane, foot; vunf; ring]. intros v Iv. unfold on_plane. pose proof (ceil_z v Iv). vunf. lra. }
  assert (W : winding ez u (foot (z0 + h) q) (fst C) = winding ez u (foot z0 q) fl \/ winding ez u (foot (z0 + h) q) (fst C) = (- winding ez u (foot z0 q) fl)%Z) by (rewrite <- foot_up; destruct HC as [-> | ->]; rewrite ?winding_rev, winding_up; auto).
  split.
  - intros I. apply R in I. destruct I as [I|I]; [contradiction|]. lia.
  - intros N. apply W1. lia.
Qed.
Lemma above_way u q : cross u ez <> vzero -> z0 < vz q < z0 + h -> ~ on_outline fl (foot z0 q) ->
  exists p n z, outside T p /\ way T p q n z /\ Nat.odd n = negb (winding ez u (foot z0 q) fl =? 0)%Z.
Proof.
  intros Nu Zq No. destruct mesh_split as (Tw & Tc & ET & Fc & Hw & Hz). destruct ceil_covers as (Cv & Sm & Ed).
  assert (Out : forall p, z0 + h < vz p -> outside T p).
  { intros p L. exists ez. intros a b c I. assert (G : forall v, in_triangle a b c v -> dot ez v < dot ez p) by (intros v Iv; pose proof (Hz a b c v I Iv); vunf; lra).
    split; [|split]; apply G; [exists 1, 0, 0|exists 0, 1, 0|exists 0, 0, 1]; (split; [lra|split; [lra|split; [lra|split; [lra|unfold bary; dvec a; dvec b; dvec c; vunf; f_equal; ring]]]]). }
  assert (Vt : forall j x, nth_error Tc j = Some x -> exists t, nth_error (snd C) j = Some t /\ tri_verts (fst C) t x).
  { clear -Fc. induction Fc as [|t x l l' H1 H2 IH]; intros [|j] y Ej; try discriminate; cbn [nth_error] in *; [injection Ej as <-; exists t; auto|]. apply IH; auto. }
  assert (Zc : forall a b c m, In (a, b, c) Tc -> in_triangle a b c m -> vz m = z0 + h).
  { intros a b c m I Im. destruct (In_nth_error _ _ I) as (j & Ej). destruct (Vt j _ Ej) as (t & _ & V1). exact (level_tri C _ a b c t m ceil_z V1 Im). }
  destruct (classic (in_mesh C (foot (z0 + h) q))) as [I|I].
  - pose proof (proj1 (plan_mesh u q Nu No) I) as W. destruct I as (t & a & b & c & It & Ve & Im). set (M := middle a b c). pose proof (middle_on nC dC C t a b c Cv It Ve) as PM. assert (ZM : vz M = z0 + h) by (unfold on_plane in PM; rewrite Ed in PM; fold M in PM; revert PM; clear -HvC; vunf; destruct HvC as [-> | ->]; lra).
    set (P0 := foot (z0 + h + 1) M). set (q1 := foot (vz q) M).
    destruct (In_nth_error _ _ It) as (i & Ei). assert (Ex : exists x, nth_error Tc i = Some x /\ tri_verts (fst C) t x).
    { clear -Fc Ei. revert i Ei. induction Fc as [|t0 x l l' H1 H2 IH]; intros [|j] Ej; try discriminate; cbn [nth_error] in *; [injection Ej as <-; exists x; auto|]. apply IH; auto. }
    destruct Ex as (x & Ex & Vx). assert (x = (a, b, c)) as ->. { destruct x as ((x1, x2), x3), t as ((t1, t2), t3). destruct Ve as (A1 & A2 & A3), Vx as (B1 & B2 & B3). congruence. }
    destruct (nth_error_split _ _ Ex) as (A & B & EA & LA).
    destruct (covers_tri C nC dC t a b c Cv It Ve) as (_ & Pa & Pb & Pc & K).
    assert (Sin : forall s, 0 < s <= 1 -> ~ on_outline fl (foot z0 (seg_point (foot (z0 + h) q) M s))).
    { intros s S0 O. pose proof (towards_middle a b c _ s Im S0) as Si. apply (outline_not_inside C nC dC Cv Sm t a b c _ It Ve Si). fold M. apply (outline_up h) in O. rewrite foot_up in O.
      assert (Ef : foot (z0 + h) (seg_point (foot (z0 + h) q) M s) = seg_point (foot (z0 + h) q) M s) by (unfold foot, seg_point; dvec M; cbn [vz] in ZM; vunf; f_equal; rewrite ZM; ring). rewrite Ef in O. destruct HC as [-> | ->]; auto. apply outline_rev; auto. }
    assert (SiM : strictly_inside a b c M) by (exists (1 / 3), (1 / 3), (1 / 3); repeat split; auto; lra).
    assert (NoM : ~ on_outline fl (foot z0 M)). { pose proof (Sin 1 ltac:(lra)) as X. replace (seg_point (foot (z0 + h) q) M 1) with M in X by (unfold seg_point; dvec M; vunf; f_equal; ring). exact X. }
    assert (Way1 : way T P0 q1 1 (0 - sense (vsub q1 P0) (a, b, c))).
    { apply (way_cross T P0 P0 q1 0 0 (Tw ++ A) (a, b, c) B); [apply way_stay|rewrite ET, EA, <- app_assoc; reflexivity| |].
      - split.
        + replace (dot (cross (vsub b a) (vsub c a)) (vsub q1 P0)) with (vC * (vz q - (z0 + h + 1)) * dot nC (cross (vsub b a) (vsub c a))) by (unfold q1, P0, foot; clear -HvC; vunf; destruct HvC as [-> | ->]; ring). unfold side in K. apply Rmult_integral_contrapositive. split; [|unfold left_of in K; lra]. apply Rmult_integral_contrapositive. split; [destruct HvC; lra|lra].
        + exists (1 / (z0 + h + 1 - vz q)). assert (Dp : 1 < z0 + h + 1 - vz q) by lra. split; [split; [apply Rdiv_lt_0_compat; lra|apply (Rmult_lt_reg_r (z0 + h + 1 - vz q)); [lra|]; unfold Rdiv; rewrite Rmult_assoc, Rinv_l by lra; lra]|].
          replace (seg_point P0 q1 (1 / (z0 + h + 1 - vz q))) with M; auto. unfold seg_point, P0, q1, foot. dvec M. cbn [vz] in ZM. vunf. f_equal; [ring|ring|]. rewrite ZM. field. lra.
      - intros ((a', b'), c') I' m (s & Hs & Em) Im'. assert (Zm : vz q <= vz m). { rewrite Em. unfold seg_point, P0, q1, foot. vunf. nra. } assert (Fm : foot z0 m = foot z0 M) by (rewrite Em; unfold foot, seg_point, P0, q1, foot; vunf; f_equal; ring).
        assert (I2 : In (a', b', c') Tw \/ In (a', b', c') (A ++ B)) by (rewrite <- app_assoc in I'; apply in_app_iff in I'; auto). destruct I2 as [I2|I2].
        + destruct (Hw _ _ _ m I2 Im') as [Z|O]; [lra|]. rewrite Fm in O. contradiction.
        + assert (Hj : exists j, nth_error Tc j = Some (a', b', c') /\ j <> i).
          { apply in_app_iff in I2. destruct I2 as [I2|I2]; destruct (In_nth_error _ _ I2) as (j & Ej).
            - assert (j < length A)%nat by (apply nth_error_Some; congruence). exists j. split; [rewrite EA, nth_error_app1; auto|lia].
            - exists (length A + S j)%nat. split; [rewrite EA, nth_error_app2 by lia; replace (length A + S j - length A)%nat with (S j) by lia; exact Ej|lia]. }
          destruct Hj as (j & Ej & Nj). destruct (Vt j _ Ej) as (tj & Etj & Vj). assert (Zm' : vz m = z0 + h) by (apply (Zc a' b' c'); auto; eapply nth_error_In; eauto). assert (m = M). { dvec m; dvec M. unfold foot in Fm. cbn [vx vy vz] in *. injection Fm as -> ->. congruence. } subst m.
          apply Nj. symmetry. rewrite H in Im'. exact (only_one C nC dC i j t tj a b c a' b' c' M Cv Sm Ei Ve SiM Etj Vj Im'). }
    exists P0, 1%nat, (0 - sense (vsub q1 P0) (a, b, c))%Z. split; [apply Out; unfold P0, foot; cbn [vz]; lra|]. split; [|apply Z.eqb_neq in W; rewrite W; reflexivity].
    apply (way_free T P0 q1 q); auto. intros ((a', b'), c') I' m (s & Hs & Em) Im'. assert (Zm : vz m = vz q) by (rewrite Em; unfold seg_point, q1, foot; vunf; ring).
    rewrite ET in I'. apply in_app_iff in I'. destruct I' as [I'|I']; [|pose proof (Zc _ _ _ m I' Im'); lra]. destruct (Hw _ _ _ m I' Im') as [Z|O]; [lra|].
    assert (Fm : foot z0 m = foot z0 (seg_point (foot (z0 + h) q) M (1 - s))) by (rewrite Em; unfold foot, seg_point, q1, foot; vunf; f_equal; ring). rewrite Fm in O. destruct (Req_dec s 1) as [-> |Ns].
    + apply No. replace (foot z0 q) with (foot z0 (seg_point (foot (z0 + h) q) M (1 - 1))) by (unfold foot, seg_point; vunf; f_equal; ring). exact O.
    + apply (Sin (1 - s)); [lra|exact O].
  - exists (foot (z0 + h + 1) q), 0%nat, 0%Z. split; [apply Out; unfold foot; cbn [vz]; lra|]. split.
    + apply (way_free T _ (foot (z0 + h + 1) q)); [apply way_stay|]. intros ((a', b'), c') I' m (s & Hs & Em) Im'. assert (Zm : vz q <= vz m) by (rewrite Em; unfold seg_point, foot; vunf; nra). assert (Fm : forall z, foot z m = foot z q) by (intros z; rewrite Em; unfold foot, seg_point, foot; vunf; f_equal; ring).
      rewrite ET in I'. apply in_app_iff in I'. destruct I' as [I'|I'].
      * destruct (Hw _ _ _ m I' Im') as [Z|O]; [lra|]. rewrite Fm in O. contradiction.
      * apply I. rewrite <- Fm. pose proof (Zc _ _ _ m I' Im') as Zm'. replace (foot (z0 + h) m) with m by (unfold foot; rewrite <- Zm'; dvec m; reflexivity). destruct (In_nth_error _ _ I') as (j & Ej). destruct (Vt j _ Ej) as (tj & Etj & Vj). exists tj, a', b', c'. split; [eapply nth_error_In; eauto|auto].
    + assert (E : winding ez u (foot z0 q) fl = 0%Z) by (apply NNPP; intros N; apply I, (plan_mesh u q Nu No); exact N). rewrite E. reflexivity.
Qed.
End Prism.
