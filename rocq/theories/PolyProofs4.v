(** Tests with a margin, at the boundary and for polygons without a normal. *)
From Coq Require Import Reals List Bool Arith Lia Lra ZArith.
From Verif Require Import Prelude VecModel VecProofs GeomModel GeomSpec GeomProofs1 GeomProofs2 GeomProofs3 GeomProofs4 GeomProofs5 TriModel TriSpec TriProofs TriProofs2 PolyModel PolySpec PolyProofs1.
Import ListNotations.
Local Open Scope R_scope.

Lemma plane_start pts n d : plane_coefficients pts = Ok (Some (n, d)) ->
  unit n /\ exists p0 p1 r, pts = p0 :: p1 :: r /\ on_plane n d (last pts p0) /\ on_plane n d p0 /\ on_plane n d p1 /\ 0 < dot n (cross (vsub p0 (last pts p0)) (vsub p1 (last pts p0))).
Proof.
  intros H. destruct (plane_spec pts n d H) as (U & pl & p0 & p1 & F & A). split; auto. unfold first_three in F. destruct pts as [|q0 [|q1 r]]; try discriminate. apply Ok_inj in F. injection F as F1 <- <-. rewrite <- F1 in A. exists q0, q1, r. auto.
Qed.
Lemma plane_missing pts : plane_coefficients pts = Ok None <-> exists p0 p1 r, pts = p0 :: p1 :: r /\ 2 * true_area (last pts p0) p0 p1 <= 1 / 100000000.
Proof.
  rewrite plane_none. split.
  - intros (pl & p0 & p1 & F & L). unfold first_three in F. destruct pts as [|q0 [|q1 r]]; try discriminate. apply Ok_inj in F. injection F as F1 <- <-. rewrite <- F1 in L. exists q0, q1, r. auto.
  - intros (p0 & p1 & r & -> & L). exists (last (p0 :: p1 :: r) p0), p0, p1. auto.
Qed.
Lemma margin_inside pt m pts ts : is_point_inside_margin pt m pts ts = Ok true ->
  is_point_inside pt pts ts true GEOM_ATOL = Ok true /\ forall q, on_outline pts q -> m <= dist pt q.
Proof.
  unfold is_point_inside_margin. destruct (is_point_inside pt pts ts true GEOM_ATOL) as [[|]|]; cbn [rbind negb]; try discriminate. intros H. split; auto. intros q (e & I & S). assert (Np : pts <> []) by (intros ->; destruct I).
  rewrite polygon_edges_eq in H by auto. cbn [rbind] in H. rewrite allM_true in H. specialize (H e I). cbn beta in H. destruct (Req_EM_T (vx (fst e)) (vx (snd e))) as [Ex|Ex], (Req_EM_T (vy (fst e)) (vy (snd e))) as [Ey|Ey], (Req_EM_T (vz (fst e)) (vz (snd e))) as [Ez|Ez];
    try (destruct (dist_edge_min pt (fst e) (snd e)) as (d & E & _ & M); [intros E; rewrite E in *; congruence|]; rewrite E in H; cbn [rbind] in H; apply Ok_inj in H; apply negb_true_iff, Rltb_false in H; specialize (M q S); lra).
  exfalso. assert (E : fst e = snd e) by (destruct (fst e), (snd e); cbn in *; congruence). apply (dist_edge_err pt) in E. rewrite E in H. discriminate.
Qed.
Lemma margin_accepts pt m pts ts : pts <> [] -> (forall e, In e (cyc_pairs pts) -> fst e <> snd e) -> is_point_inside pt pts ts true GEOM_ATOL = Ok true -> (forall q, on_outline pts q -> m <= dist pt q) -> is_point_inside_margin pt m pts ts = Ok true.
Proof.
  intros Np Re H D. unfold is_point_inside_margin. rewrite H. cbn [rbind negb]. rewrite polygon_edges_eq by auto. cbn [rbind]. apply allM_true. intros e I. destruct (dist_edge_min pt (fst e) (snd e) (Re e I)) as (d & E & (q & S & Ed) & _). rewrite E. cbn [rbind]. f_equal. apply negb_true_iff, Rltb_false. rewrite Ed. apply D. exists e. auto.
Qed.
Lemma margin_outside pt m pts ts : is_point_inside pt pts ts true GEOM_ATOL = Ok false -> is_point_inside_margin pt m pts ts = Ok false.
Proof. intros H. unfold is_point_inside_margin. rewrite H. reflexivity. Qed.
Lemma boundary_test pt pts atol : pts <> [] -> exists b, is_point_at_boundary pt pts atol = Ok b /\ (b = true <-> exists e, In e (cyc_pairs pts) /\ is_point_on_segment pt (fst e) (snd e) atol = true).
Proof. intros Np. unfold is_point_at_boundary. rewrite polygon_edges_eq by auto. cbn [rbind]. eexists. split; [reflexivity|]. apply existsb_exists. Qed.
Definition short_edge (a b c : vec) : Prop := dist a b <= 1 / 1000000000000 \/ dist b c <= 1 / 1000000000000 \/ dist c a <= 1 / 1000000000000.
Lemma short_test a b c : existsb (fun e => negb (Rltb EPSILON (norm (vsub (snd e) (fst e))))) [(a, b); (b, c); (c, a)] = true <-> short_edge a b c.
Proof.
  unfold short_edge, dist, EPSILON. cbn [existsb fst snd]. rewrite !orb_true_iff, !negb_true_iff, !Rltb_false. intuition congruence.
Qed.
Lemma no_normal pts ts : (~ thin_triples pts -> nan_inside pts ts = Ok false) /\ (nan_inside pts ts = Ok true -> thin_triples pts /\ exists t a b c, In t ts /\ tri_verts pts t (a, b, c) /\ short_edge a b c) /\
  (forall t ts' a b c, thin_triples pts -> ts = t :: ts' -> tri_verts pts t (a, b, c) -> short_edge a b c -> nan_inside pts ts = Ok true).
Proof.
  unfold nan_inside. split; [|split].
  - intros N. destruct (first_normal pts) eqn:E; auto. apply first_normal_none in E. contradiction.
  - destruct (first_normal pts) eqn:E; [discriminate|]. apply first_normal_none in E. intros H. split; auto. clear E. induction ts as [|t ts IH]; [discriminate|]. cbn [nan_triangles] in H. destruct (tri_pts pts t) as [((a, b), c)|] eqn:T; [|discriminate]. cbn [rbind] in H. apply tri_pts_spec in T.
    destruct (existsb (fun e => negb (Rltb EPSILON (norm (vsub (snd e) (fst e))))) [(a, b); (b, c); (c, a)]) eqn:X. { apply short_test in X. exists t, a, b, c. simpl. auto. }
    destruct (existsb _ _) in H; [discriminate|]. destruct (IH H) as (t' & a' & b' & c' & I & V' & S'). exists t', a', b', c'. simpl. auto.
  - intros t ts' a b c Th -> Tv Sh. apply first_normal_none in Th. rewrite Th. cbn [nan_triangles]. apply tri_pts_spec in Tv. rewrite Tv. cbn [rbind]. apply short_test in Sh. rewrite Sh. reflexivity.
Qed.
