(** Proofs about the interior point of a polygon. *)
From Coq Require Import Reals ZArith List Bool Arith Lia Lra.
From Verif Require Import Prelude VecModel VecProofs GeomModel GeomSpec GeomProofs1 GeomProofs2 GeomProofs3 GeomProofs4 GeomProofs5 TriModel TriSpec TriProofs TriProofs2 PolyModel PolySpec PolyProofs1 PolyProofs2 PlanSpec PlanProofs1 CrossSpec CrossProofs1 InsideSpec InsideProofs1 InsideProofs3 AdjProofs1 RoomSpec RoomProofs1 RoomProofs2 RoomProofs3 RoomProofs4.
Import ListNotations.
Local Open Scope R_scope.

Ltac unroll H := repeat (match type of H with rbind ?e _ = _ => destruct e eqn:?; cbn [rbind] in H; [|discriminate] end).
Lemma given_triangles pts ts vn0 p : make_polygon pts (Some ts) vn0 = Ok p -> p_pts p = pts /\ p_tri p = ts /\ ts <> [].
Proof.
  unfold make_polygon, build_polygon. intros H. unroll H. destruct ts as [|t ts]; [discriminate|]. match type of Heqr1 with Ok _ = Ok _ => apply Ok_inj in Heqr1; subst end. cbv iota beta in H. unroll H. apply Ok_inj in H. subst p. cbn [p_pts p_tri]. split; auto. split; auto. discriminate.
Qed.
Lemma no_triangles pts ts vn0 p : make_polygon pts (Some ts) vn0 = Ok p -> make_polygon pts (Some []) vn0 = Err AssertionError.
Proof. unfold make_polygon, build_polygon. intros H. unroll H. reflexivity. Qed.
Lemma centroid_inside a b c : strictly_inside a b c (triangle_centroid a b c).
Proof. exists (1 / 3), (1 / 3), (1 / 3). repeat (split; [lra|]). unfold triangle_centroid, bary, vdiv. dvec a; dvec b; dvec c. vunf. f_equal; field. Qed.
Lemma interior_point pts p : make_polygon pts None None = Ok p -> exists t r a b c q, p_tri p = t :: r /\ tri_verts (p_pts p) t (a, b, c) /\ 1 / 10000000000000 <= 2 * true_area a b c /\
  some_interior_point p = Ok q /\ strictly_inside a b c q.
Proof.
  intros M. destruct (made_triangles pts p M) as (L & T). destruct (made_proper pts p M) as (_ & G & _). pose proof (tri_nonempty _ _ _ _ T L) as Ne. unfold some_interior_point.
  destruct (p_tri p) as [|t r] eqn:E; [exfalso; apply Ne; auto|]. destruct (G t (or_introl eq_refl)) as (a & b & c & Tv & Ar). exists t, r, a, b, c, (triangle_centroid a b c). split; auto. split; auto. split; auto.
  rewrite (proj2 (tri_pts_spec _ _ (a, b, c)) Tv). split; [reflexivity|apply centroid_inside].
Qed.
Lemma interior_accepted pts p n c0 t r a b c q : make_polygon pts None None = Ok p -> unit n -> in_plane n c0 pts -> p_tri p = t :: r -> tri_verts (p_pts p) t (a, b, c) -> some_interior_point p = Ok q ->
  off_edges a b c q -> is_point_inside q (p_pts p) (p_tri p) true GEOM_ATOL = Ok true.
Proof.
  intros M U P E Tv Sq Oe. destruct (made_orient n c0 pts p U P M) as (Hn & _). destruct (made_triangles pts p M) as (L & T). destruct (made_proper pts p M) as (L3 & G & _).
  pose proof (tri_structure _ _ _ _ L T) as (Rv & _). assert (P' : in_plane n c0 (p_pts p)) by (intros x I; apply P; destruct Rv as [Er|Er]; rewrite Er in I; auto; apply in_rev; auto).
  assert (Eq : q = triangle_centroid a b c) by (unfold some_interior_point in Sq; rewrite E in Sq; rewrite (proj2 (tri_pts_spec _ _ (a, b, c)) Tv) in Sq; apply Ok_inj in Sq; auto).
  assert (Si : strictly_inside a b c q) by (rewrite Eq; apply centroid_inside).
  assert (Fl : flat (p_pts p, p_tri p) n (- c0)). { split; auto. split; [intros x I; unfold on_plane; rewrite (P' x I); ring|]. split; auto. cbn [fst]. intros X. rewrite X in L3. cbn in L3. lia. }
  apply (flat_accepted (p_pts p, p_tri p) n (- c0)); [exact Fl|unfold GEOM_ATOL; lra| |].
  - apply (mesh_on_plane (p_pts p, p_tri p)); [apply Fl|]. exists t, a, b, c. cbn [fst snd]. split; [rewrite E; left; auto|]. split; auto. destruct Si as (x & y & z & X & Y & Z & S & ->). exists x, y, z. repeat (split; [lra|]). auto.
  - left. exists t, a, b, c. cbn [fst snd]. rewrite E. split; [left; auto|auto].
Qed.

(** A triangle that does not contain its interior point. *)
Definition nA : vec := V 0 0 0.
Definition nB : vec := V 1000 1000 0.
Definition nC : vec := V 5000 (5000 + 3 / 100) 0.
Definition nQ : vec := V 2000 (2000 + 1 / 100) 0.
Lemma needle_centroid : triangle_centroid nA nB nC = nQ.
Proof. unfold triangle_centroid, nA, nB, nC, nQ, vdiv. vunf. f_equal; field. Qed.
Lemma needle_rejected : is_point_inside_triangle nQ nA nB nC GEOM_ATOL = Ok false.
Proof.
  unfold is_point_inside_triangle. rewrite (inside_bbox_of nA nB nC nQ) by (rewrite <- needle_centroid; apply centroid_inside). cbn [rbind negb].
  rewrite (not_close_at vx nQ nA) by (simpl; auto; unfold nQ, nA, GEOM_ATOL, RTOL; cbn [vx]; rewrite !Rabs_pos_eq; lra).
  rewrite (not_close_at vx nQ nB) by (simpl; auto; unfold nQ, nB, GEOM_ATOL, RTOL; cbn [vx]; rewrite !Rabs_pos_eq; lra).
  rewrite (not_close_at vx nQ nC) by (simpl; auto; unfold nQ, nC, GEOM_ATOL, RTOL; cbn [vx]; rewrite (Rabs_pos_eq 5000), Rabs_left; lra).
  cbn [orb edge_verdict].
  assert (C : are_points_collinear [nA; nB; nQ] GEOM_ATOL = Ok true).
  { unfold nA, nB, nQ. set (u := vsub (V 1000 1000 0) (V 0 0 0)). set (v := vsub (V 2000 (2000 + 1 / 100) 0) (V 0 0 0)).
    assert (U : 1000 <= norm u). { pose proof (norm_ge (V 1 0 0) u 1000 ltac:(lra) ltac:(unfold u, dot, vsub; cbn [vx vy vz]; lra)) as G. replace (norm (V 1 0 0)) with 1 in G; [lra|]. symmetry. apply unit_norm. unfold unit, dot; cbn [vx vy vz]; lra. }
    pose proof (norm_ge u v 2 ltac:(lra) ltac:(unfold u, v, dot, vsub; cbn [vx vy vz]; lra)) as L. pose proof (norm_le u v (2 + 1 / 100000) ltac:(lra) ltac:(unfold u, v, dot, vsub; cbn [vx vy vz]; lra)) as L'.
    assert (E : u = V 1000 1000 0) by (unfold u; rewrite vsub_ex; f_equal; lra). assert (E' : v = V 2000 (2000 + 1 / 100) 0) by (unfold v; rewrite vsub_ex; f_equal; lra).
    apply dirs_close; fold u v; unfold EPSILON; try lra. intros c I. set (nu := norm u) in *. set (nv := norm v) in *. clearbody nu nv. rewrite E, E'. unfold RTOL.
    destruct I as [<-|[<-|[<-|[]]]]; cbn [vx vy vz]; rewrite ?(Rabs_pos_eq 1000), ?Rabs_R0 by lra; apply Rabs_le; lra. }
  rewrite C. cbn [rbind]. f_equal. unfold within_edge_box. apply negb_false_iff. apply orb_true_iff. left. apply orb_true_iff. left. apply orb_true_iff. left.
  unfold nA, nB, nQ. cbn [vx vy vz]. rewrite (round8_int 200000000000 2000) by lra. rewrite (round8_int 100000000000 1000) by lra. rewrite (round8_int 0 0) by lra. apply Rltb_true. rewrite (Rmax_right 0 1000) by lra. unfold GEOM_ATOL. lra.
Qed.
Lemma needle_refuted : exists pts p q, make_polygon pts None None = Ok p /\ some_interior_point p = Ok q /\ is_point_inside q (p_pts p) (p_tri p) true GEOM_ATOL = Ok false.
Proof.
  destruct (tri_make nB nC nA (V 0 0 1) 30) as (p & E & P & T); [unfold unit; vunf; ring|unfold nA, nB, nC; vunf; f_equal; lra|lra|]. exists [nB; nC; nA], p, nQ. split; [exact E|].
  split; [unfold some_interior_point; rewrite P, T; unfold tri_pts; cbn [nth_error rbind]; rewrite needle_centroid; reflexivity|]. rewrite P, T.
  assert (S : sound_wall ([nB; nC; nA], [(2, 0, 1)]%nat) (V 0 0 1) 0) by (apply (tri_wall _ _ _ _ _ 30); [unfold unit; vunf; ring|unfold nA, nB, nC; vunf; f_equal; lra|lra|unfold nB; vunf; ring]).
  unfold is_point_inside. destruct (inside_bbox_spec nQ [nB; nC; nA] (1 / 100)) as (bb & -> & _); [discriminate|]. destruct bb; [|reflexivity]. cbn [rbind negb].
  pose proof (flat_coplanar _ (V 0 0 1) 0 nQ GEOM_ATOL (wall_flat _ _ _ S) ltac:(unfold GEOM_ATOL; lra) ltac:(unfold on_plane, nQ; vunf; ring)) as C. cbn [fst] in C. rewrite C. cbn [rbind negb inside_loop]. unfold tri_pts. cbn [nth_error rbind]. rewrite needle_rejected. reflexivity.
Qed.
