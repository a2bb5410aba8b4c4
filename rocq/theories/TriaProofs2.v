(** Triangulation of a polygon: one round and the loop, continued. *)
From Coq Require Import ZArith Reals List Bool Arith Lia Lra.
From Verif Require Import Prelude UtilModel TreeModel MeshModel VecModel VecProofs VoxModel GeomModel GeomSpec GeomProofs1 GeomProofs2 GeomProofs5 TriModel PolyModel MshProofs6 StatModel TriaModel TriaSpec TriaProofs.
Import ListNotations.
Local Open Scope R_scope.

Lemma mapM_in {A B} (f : A -> result (list B)) l ys : mapM f l = Ok ys -> forall y, In y (concat ys) <-> exists x r, In x l /\ f x = Ok r /\ In y r.
Proof.
  revert ys. induction l as [|x l IH]; intros ys M y; cbn [mapM] in M.
  - injection M as <-. cbn. split; [tauto|intros (x & r & [] & _)].
  - destruct (f x) as [r|] eqn:E; [|discriminate]. cbn [rbind] in M. destruct (mapM f l) as [rs|] eqn:M'; [|discriminate]. cbn [rbind] in M. injection M as <-.
    cbn [concat]. rewrite in_app_iff, (IH rs eq_refl). split.
    + intros [I|(x' & r' & I & K)]; [exists x, r; cbn; auto|exists x', r'; cbn; auto].
    + intros (x' & r' & [<-|I] & K); [left; destruct K as (K1 & K2); congruence|right; eauto].
Qed.
Lemma le_both (a b : nat) : (a <= b)%nat -> (b <= a)%nat -> a = b.
Proof. lia. Qed.
Lemma Forall2_in_l {A B} (R : A -> B -> Prop) l r x : Forall2 R l r -> In x l -> exists y, In y r /\ R x y.
Proof. induction 1 as [|a b l r H F IH]; intros I; [destruct I|]. destruct I as [<-|I]; [exists b; cbn; auto|]. destruct (IH I) as (y & I' & K). exists y. cbn; auto. Qed.
Lemma mapM_total {A B} (f : A -> result B) l : (forall x, In x l -> exists y, f x = Ok y) -> exists ys, mapM f l = Ok ys.
Proof.
  induction l as [|x l IH]; intros Hf; cbn [mapM]; [eauto|]. destruct (Hf x (or_introl eq_refl)) as (y & ->). destruct IH as (ys & ->); [intros; apply Hf; right; auto|]. cbn [rbind]. eauto.
Qed.

Section Rounds.
  Context (same : vec -> vec -> bool) (in_set : list vec -> list vec -> bool).
  Context (between : list vec -> R -> list vec -> result (list vec)).
  Context (delaunay : nat -> list (R * R) -> result (list itri)) (jog : nat -> nat -> nat -> R * R).
  Notation pass_ := (mesh_pass same in_set between delaunay jog).
  Notation round_ := (round same in_set between delaunay jog).

  Lemma pt_in_among p l : pt_in same p l = true <-> among same p l.
  Proof. unfold pt_in, among. rewrite existsb_exists. tauto. Qed.
  Lemma is_far_spec delta fixed p : is_far delta fixed p = true <-> forall f, In f fixed -> delta / 2 <= dist f p.
  Proof.
    unfold is_far, MESH_REL_DIST_TO_POINTS. rewrite forallb_forall. split; intros H f I; specialize (H f I).
    - apply negb_true_iff, Rltb_false in H. unfold dist. lra.
    - apply negb_true_iff, Rltb_false. unfold dist in H. lra.
  Qed.
  Lemma grid_points_in pass delta z fixed poly2 x0 x1 y0 y1 pts inner : 0 < delta -> spans vx pts x0 x1 -> spans vy pts y0 y1 ->
    grid_points jog pass delta z fixed poly2 (arange (x0 + delta) x1 delta) (arange (y0 + delta) y1 delta) = Ok inner ->
    forall p, In p inner <-> on_grid jog pass poly2 fixed delta z pts p.
  Proof.
    intros D Sx Sy G p. unfold grid_points in G. destruct (mapM _ (enumerate (arange (x0 + delta) x1 delta))) as [cols|] eqn:M; [|discriminate]. cbn [rbind] in G. injection G as <-.
    rewrite (mapM_in _ _ _ M). unfold on_grid. split.
    - intros ((i, x) & r & Ix & E & Ip). apply in_enumerate in Ix. apply arange_nth in Ix; auto. destruct Ix as (Lx & ->).
      destruct (mapM _ (enumerate (arange (y0 + delta) y1 delta))) as [col|] eqn:M'; [|discriminate]. cbn [rbind] in E. injection E as <-.
      apply (mapM_in _ _ _ M') in Ip. destruct Ip as ((j, y) & r & Iy & E & Ip). apply in_enumerate in Iy. apply arange_nth in Iy; auto. destruct Iy as (Ly & ->).
      destruct (is_far delta fixed _) eqn:F; [|injection E as <-; destruct Ip].
      destruct (is_point_inside_margin _ _ _ _) as [b|] eqn:Mg; [|discriminate]. cbn [rbind] in E. injection E as <-. destruct b; [|destruct Ip]. destruct Ip as [<-|[]].
      exists x0, x1, y0, y1, i, j. split; auto. split; auto. split; auto. split; auto.
      split; [unfold grid_point; cbn [fst snd]; rewrite !random_within_tenth by lra; reflexivity|]. split; [apply is_far_spec; auto|auto].
    - intros (x0' & x1' & y0' & y1' & i & j & Sx' & Sy' & Lx & Ly & -> & F & Mg). destruct (spans_unique _ _ _ _ _ _ Sx Sx') as (<- & <-). destruct (spans_unique _ _ _ _ _ _ Sy Sy') as (<- & <-).
      assert (Ix : In (i, x0 + (INR i + 1) * delta) (enumerate (arange (x0 + delta) x1 delta))) by (apply in_enumerate, arange_nth; auto).
      assert (Iy : In (j, y0 + (INR j + 1) * delta) (enumerate (arange (y0 + delta) y1 delta))) by (apply in_enumerate, arange_nth; auto).
      apply mapM_Forall2 in M. destruct (Forall2_in_l _ _ _ _ M Ix) as (r & Ir & E). exists (i, x0 + (INR i + 1) * delta), r. split; auto. split; auto.
      destruct (mapM _ (enumerate (arange (y0 + delta) y1 delta))) as [col|] eqn:M'; [|discriminate]. cbn [rbind] in E. injection E as <-.
      apply (mapM_in _ _ _ M'). exists (j, y0 + (INR j + 1) * delta). eexists. split; [auto|]. cbv beta zeta.
      assert (Ep : grid_point jog pass delta z (i, x0 + (INR i + 1) * delta) (j, y0 + (INR j + 1) * delta) = V (x0 + (INR i + 1) * delta + delta / 10 * (2 * fst (jog pass i j) - 1)) (y0 + (INR j + 1) * delta + delta / 10 * (2 * snd (jog pass i j) - 1)) z).
      { unfold grid_point; cbn [fst snd]; rewrite !random_within_tenth by lra; reflexivity. }
      rewrite Ep. rewrite (proj2 (is_far_spec _ _ _) F), Mg. cbn [rbind]. split; [reflexivity|left; auto].
  Qed.
  Lemma keep_selects m d all ts fixed edge corners kept : vertex_areas all ts = Ok d -> mapM (keep_vertex same m d ts fixed edge corners) (enumerate all) = Ok kept ->
    exists sel, selected (fun x => used ts (fst x) /\ (large_at all ts m (fst x) \/ among same (snd x) fixed \/ among same (snd x) edge \/ among same (snd x) corners)) (numbered all) sel /\
      concat kept = map snd sel.
  Proof.
    intros D M. apply (mapM_select _ snd _ _ _) with (2 := M). intros (i, p) r _ E. unfold keep_vertex in E. cbn [fst snd].
    destruct (memb i (indices ts)) eqn:Mb.
    - apply memb_true, in_indices in Mb. destruct (dget d i) as [a|] eqn:G; [|discriminate]. injection E as <-.
      pose proof (areas_large _ _ _ _ _ m D G) as Al. destruct (Rltb m a || pt_in same p fixed || pt_in same p edge || pt_in same p corners) eqn:B.
      + left. split; auto. split; auto. rewrite !orb_true_iff in B. rewrite !pt_in_among, Rltb_true, Al in B. tauto.
      + right. split; auto. intros (_ & H). rewrite !orb_false_iff in B. destruct B as (((B1 & B2) & B3) & B4). rewrite <- Al, <- !pt_in_among in H. apply Rltb_false in B1.
        destruct H as [H|[H|[H|H]]]; [lra| | |]; congruence.
    - right. injection E as <-. split; auto. intros (U & _). apply in_indices, memb_true in U. congruence.
  Qed.
  Lemma keep_total m d all ts fixed edge corners : vertex_areas all ts = Ok d -> exists kept, mapM (keep_vertex same m d ts fixed edge corners) (enumerate all) = Ok kept.
  Proof.
    intros D. apply mapM_total. intros (i, p) _. unfold keep_vertex. destruct (memb i (indices ts)) eqn:Mb; [|eauto].
    apply memb_true, in_indices in Mb. destruct (areas_used _ _ _ _ D Mb) as (a & ->). eauto.
  Qed.
  Lemma ok_flag fixed edge final : forallb (fun f => pt_in same f final) fixed && in_set edge final = true <-> (forall f, In f fixed -> among same f final) /\ in_set edge final = true.
  Proof. rewrite andb_true_iff, forallb_forall. split; intros (A & B); (split; [|auto]); intros f I; apply pt_in_among; auto. Qed.
  Lemma pass_round pass poly2 corners fixed delta z pts final ts ok : 0 < delta ->
    pass_ pass poly2 corners fixed delta z pts = Ok (final, ts, ok) -> round_ pass poly2 corners fixed delta z pts final ts ok.
  Proof.
    intros D H. unfold mesh_pass in H. destruct (between pts delta fixed) as [edge|] eqn:Be; [|discriminate]. cbn [rbind] in H.
    destruct (lmin (map vx (pts ++ edge))) as [x0|] eqn:X0; [|discriminate]. cbn [rbind] in H. destruct (lmax (map vx (pts ++ edge))) as [x1|] eqn:X1; [|discriminate]. cbn [rbind] in H.
    destruct (lmin (map vy (pts ++ edge))) as [y0|] eqn:Y0; [|discriminate]. cbn [rbind] in H. destruct (lmax (map vy (pts ++ edge))) as [y1|] eqn:Y1; [|discriminate]. cbn [rbind] in H.
    destruct (Reqb delta 0); [discriminate|].
    destruct (grid_points jog pass delta z fixed poly2 _ _) as [inner|] eqn:G; [|discriminate]. cbn [rbind] in H.
    destruct (delaunay (2 * pass) _) as [first|] eqn:D1; [|discriminate]. cbn [rbind] in H.
    destruct (vertex_areas _ first) as [d|] eqn:Va; [|discriminate]. cbn [rbind] in H.
    destruct (mapM _ _) as [kept|] eqn:K; [|discriminate]. cbn [rbind] in H.
    destruct (delaunay (2 * pass + 1) _) as [ts'|] eqn:D2; [|discriminate]. cbn [rbind] in H.
    destruct (length _ =? length (concat kept))%nat eqn:L; [|discriminate]. injection H as <- <- <-.
    destruct (keep_selects _ _ _ _ _ _ _ _ Va K) as (sel & Ss & Es). rewrite <- app_assoc in *.
    exists edge, inner, first, sel. split; auto.
    split; [apply (grid_points_in _ _ _ _ _ _ _ _ _ _ _ D (spans_min _ _ _ _ X0 X1) (spans_min _ _ _ _ Y0 Y1) G)|].
    cbv zeta. split; auto. split; [apply (vertex_areas_spec _ _ _ Va)|].
    split; [unfold minimum_triangle_area in Ss; replace (delta * delta / 8) with (delta ^ 2 / 8) by (field); auto|].
    split; auto. split; auto. apply Nat.eqb_eq in L. split; [|apply ok_flag].
    exists (nodup Nat.eq_dec (indices ts')). split; [apply NoDup_nodup|]. split; auto. intros i. rewrite nodup_In. apply in_indices.
  Qed.
  Lemma loop_rounds fuel pass poly2 corners fixed delta z pts final ts : 0 < delta ->
    mesh_loop same in_set between delaunay jog fuel pass poly2 corners fixed delta z pts = Ok (final, ts) ->
    exists n, (n <= fuel)%nat /\ rounds same in_set between delaunay jog poly2 corners fixed delta z pass n pts final ts.
  Proof.
    intros D. revert pass pts. induction fuel as [|fuel IH]; intros pass pts H; cbn [mesh_loop] in H; [discriminate|].
    destruct (pass_ pass poly2 corners fixed delta z pts) as [((mid, ts'), ok)|] eqn:P; [|discriminate]. cbn [rbind] in H. apply pass_round in P; auto. destruct ok.
    - injection H as <- <-. exists 1%nat. split; [lia|]. constructor. auto.
    - destruct (IH _ _ H) as (n & N & Rs). exists (S n). split; [lia|]. econstructor; eauto.
  Qed.
  (** A round that runs, and a first round that is good. *)
  Lemma grid_total pass delta z fixed poly2 xs ys : (forall p, exists b, is_point_inside_margin p (delta / 2) (p_pts poly2) (p_tri poly2) = Ok b) ->
    exists inner, grid_points jog pass delta z fixed poly2 xs ys = Ok inner.
  Proof.
    intros Mg. unfold grid_points. match goal with |- context [mapM ?f (enumerate xs)] => destruct (mapM_total f (enumerate xs)) as (cols & ->) end; [|cbn [rbind]; eauto].
    intros (i, x) _. match goal with |- context [mapM ?f (enumerate ys)] => destruct (mapM_total f (enumerate ys)) as (col & ->) end; [|cbn [rbind]; eauto].
    intros (j, y) _. destruct (is_far _ _ _); [|eauto]. destruct (Mg (grid_point jog pass delta z (i, x) (j, y))) as (b & ->). cbn [rbind]. eauto.
  Qed.
  Lemma pass_total pass poly2 corners fixed delta z pts edge : 0 < delta -> pts <> [] -> between pts delta fixed = Ok edge ->
    (forall p, exists b, is_point_inside_margin p (delta / 2) (p_pts poly2) (p_tri poly2) = Ok b) ->
    (forall l, exists ts, delaunay (2 * pass) (coords l) = Ok ts /\ forall t, In t ts -> exists q, tri_verts l t q) ->
    (forall l, exists ts, delaunay (2 * pass + 1) (coords l) = Ok ts /\ forall i, used ts i <-> (i < length l)%nat) ->
    exists final ts ok, pass_ pass poly2 corners fixed delta z pts = Ok (final, ts, ok).
  Proof.
    intros D Np Be Mg D1 D2. unfold mesh_pass. rewrite Be. cbn [rbind]. assert (N' : pts ++ edge <> []) by (destruct pts; [congruence|discriminate]).
    destruct (lmin_ok _ (map_nil vx _ N')) as (x0 & ->), (lmax_ok _ (map_nil vx _ N')) as (x1 & ->), (lmin_ok _ (map_nil vy _ N')) as (y0 & ->), (lmax_ok _ (map_nil vy _ N')) as (y1 & ->). cbn [rbind].
    rewrite (proj2 (Reqb_false delta 0)) by lra. destruct (grid_total pass delta z fixed poly2 (arange (x0 + delta) x1 delta) (arange (y0 + delta) y1 delta) Mg) as (inner & ->). cbn [rbind].
    change plan_of with coords. destruct (D1 ((pts ++ edge) ++ inner ++ fixed)) as (first & -> & Vf). cbn [rbind]. destruct (vertex_areas_ok _ _ Vf) as (d & Ed). rewrite Ed. cbn [rbind].
    destruct (keep_total (minimum_triangle_area delta) d _ first fixed edge corners Ed) as (kept & ->). cbn [rbind]. destruct (D2 (concat kept)) as (ts & -> & U). cbn [rbind].
    assert (L : length (nodup Nat.eq_dec (indices ts)) = length (concat kept)).
    { rewrite <- (seq_length (length (concat kept)) 0). apply le_both; apply NoDup_incl_length; try apply NoDup_nodup; try apply seq_NoDup; intros i I.
      - rewrite nodup_In in I. apply in_indices, U in I. apply in_seq. lia.
      - rewrite nodup_In. apply in_indices, U. apply in_seq in I. lia. }
    rewrite (proj2 (Nat.eqb_eq _ _) L). eauto.
  Qed.
  (** A point of the two lists is kept if scipy uses one that equals it. *)
  Lemma round_keeps pass poly2 corners fixed delta z pts final ts ok edge : round_ pass poly2 corners fixed delta z pts final ts ok -> between pts delta fixed = Ok edge ->
    exists inner first, delaunay (2 * pass) (coords (pts ++ edge ++ inner ++ fixed)) = Ok first /\
      forall i p, nth_error (pts ++ edge ++ inner ++ fixed) i = Some p -> used first i -> among same p fixed \/ among same p edge \/ among same p corners -> In p final.
  Proof.
    intros (edge' & inner & first & sel & Be & _ & D1 & _ & Ss & -> & _) Be'. rewrite Be in Be'. injection Be' as ->. exists inner, first. split; auto.
    intros i p N U K. apply in_map_iff. exists (i, p). split; auto. apply (selected_in _ _ _ Ss). split; [apply in_numbered; auto|]. cbn [fst snd]. tauto.
  Qed.
End Rounds.
