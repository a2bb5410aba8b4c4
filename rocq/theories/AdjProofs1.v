(** Proofs: adjacent solids. *)
From Coq Require Import Ascii String Reals List Bool Arith Lia Lra ZArith Permutation.
From Verif Require Import Prelude TreeModel VecModel VecProofs GeomModel GeomSpec GeomProofs1 GeomProofs2 GeomProofs3 GeomProofs4 GeomProofs5 TriModel TriSpec TriProofs TriProofs2 PolyModel PolySpec PolyProofs1 PolyProofs2 PolyProofs3 SolidModel SolidSpec SolidProofs1 SolidProofs3 SliceProofs4 SliceProofs8 SliceProofs10 StitchProofs3 StitchProofs4 CrossSpec CrossProofs1 CrossProofs2 AdjSpec.
Import ListNotations.
Local Open Scope R_scope.

(** What the code makes is proper. *)
Lemma made_triangles pts p : make_polygon pts None None = Ok p -> (3 <= length pts)%nat /\ triangulate_pts pts (p_vn p) = Ok (p_pts p, p_tri p).
Proof.
  unfold make_polygon, check_polygon, build_polygon. intros H. repeat (match type of H with rbind ?e _ = _ => destruct e eqn:?; cbn [rbind] in H; [|discriminate] end).
  match type of H with (let '(_, _) := ?e in _) = _ => destruct e as (pts', ts) end. repeat (match type of H with rbind ?e _ = _ => destruct e eqn:?; cbn [rbind] in H; [|discriminate] end).
  apply Ok_inj in H. subst p. cbn [p_vn p_pts p_tri]. split; auto.
  match goal with H : rbind (are_points_coplanar _ _) _ = Ok _ |- _ => destruct (are_points_coplanar pts GEOM_ATOL) as [[|]|]; cbn [rbind negb] in H; try discriminate; destruct (length pts <? 3)%nat eqn:L; [discriminate|]; apply Nat.ltb_ge in L; exact L end.
Qed.
Lemma cyc_nth {A} (l : list A) a b : In (a, b) (cyc_pairs l) -> exists i j, In (i, j) (cyc_pairs (seq 0 (length l))) /\ nth_error l i = Some a /\ nth_error l j = Some b.
Proof.
  intros I. unfold cyc_pairs in *. destruct l as [|x r]; [destruct I|].
  apply (In_nth _ _ (x, x)) in I. destruct I as (i & Li & Ei). rewrite combine_length, app_length in Li. cbn [length] in Li. rewrite combine_nth in Ei by (rewrite app_length; cbn [length]; lia). injection Ei as Ea Eb.
  cbn [length seq]. set (n := length r) in *. exists i, (nth i (seq 1 n ++ [0]%nat) 0%nat). split.
  - replace (i, nth i (seq 1 n ++ [0%nat]) 0%nat) with (nth i (combine (0 :: seq 1 n)%nat (seq 1 n ++ [0]%nat)) (0, 0)%nat).
    + apply nth_In. rewrite combine_length, app_length. cbn [length]. rewrite seq_length. lia.
    + rewrite combine_nth by (rewrite app_length; cbn [length]; rewrite seq_length; lia). f_equal. change (0 :: seq 1 n)%nat with (seq 0 (S n)). rewrite seq_nth by lia. lia.
  - change (nth i (x :: r) x = a) in Ea. split; [rewrite <- Ea; apply nth_error_nth'; cbn [length]; fold n; lia|]. rewrite <- Eb. destruct (Nat.eq_dec i n) as [->|Ni].
    + rewrite !app_nth2 by (rewrite ?seq_length; fold n; lia). rewrite seq_length. fold n. rewrite Nat.sub_diag. reflexivity.
    + rewrite !app_nth1 by (rewrite ?seq_length; fold n; lia). rewrite seq_nth by lia. replace (1 + i)%nat with (S i) by lia. cbn [nth_error]. apply nth_error_nth'. fold n. lia.
Qed.
Lemma tri_edge_of (ts : list tri) (a b : nat) : In (a, b) (tri_edges ts) -> exists t, In t ts /\ (let '(i, j, k) := t in (a, b) = (i, j) \/ (a, b) = (j, k) \/ (a, b) = (k, i)).
Proof.
  unfold tri_edges. rewrite in_flat_map. intros (((i, j), k) & It & I). exists (i, j, k). split; auto. cbn in I. intuition.
Qed.
Lemma made_proper pts p : make_polygon pts None None = Ok p -> proper p.
Proof.
  intros M. apply made_triangles in M. destruct M as (L & T). pose proof (tri_structure _ _ _ _ L T) as (R & _ & Rg & _). assert (Ln : length (p_pts p) = length pts) by (destruct R as [->| ->]; rewrite ?rev_length; auto).
  assert (G : good_mesh (p_pts p) (p_tri p)).
  { intros t It. destruct (tri_positive _ _ _ _ T L t It) as (_ & _ & A). destruct (tri_in_range _ _ _ _ T L t It) as (((a, b), c) & Tv). exists a, b, c. split; auto. destruct t as ((i, j), k). destruct Tv as (T1 & T2 & T3).
    unfold tri_vec, corner in A. rewrite (nth_error_nth _ _ vzero T1), (nth_error_nth _ _ vzero T2), (nth_error_nth _ _ vzero T3) in A. unfold true_area. lra. }
  split; [lia|]. split; auto. intros (a, b) I E. cbn [fst snd] in E. subst b. apply cyc_nth in I. destruct I as (i & j & I & Ei & Ej). rewrite Ln in I.
  destruct (tri_boundary _ _ _ _ L T) as (_ & d & _ & Pm). assert (It : In (i, j) (tri_edges (p_tri p))) by (apply (Permutation_in _ (Permutation_sym Pm)), in_app_iff; auto).
  apply tri_edge_of in It. destruct It as (((u, v), w) & It & Eq). destruct (G _ It) as (x & y & z & (T1 & T2 & T3) & A). 
  assert (Z : x = y \/ y = z \/ z = x) by (destruct Eq as [Eq|[Eq|Eq]]; injection Eq as -> ->; rewrite ?Ei, ?Ej in *; [left|right; left|right; right]; congruence).
  assert (N : cross (vsub y x) (vsub z x) = vzero) by (destruct Z as [->|[->| ->]]; [dvec y; dvec z|dvec z; dvec x|dvec y; dvec x]; vunf; f_equal; ring).
  unfold true_area in A. rewrite N, (proj2 (norm_zero vzero) eq_refl) in A. lra.
Qed.

(** Facing. *)
Lemma facing_total pts1 vn1 pts2 vn2 : pts1 <> [] -> pts2 <> [] -> exists b, are_polygons_facing pts1 vn1 pts2 vn2 = Ok b.
Proof.
  intros N1 N2. unfold are_polygons_facing. destruct (allclose _ _ _ _); cbn [negb]; [|eauto]. destruct (bbox_total pts1 N1) as (b1 & ->). destruct (bbox_total pts2 N2) as (b2 & ->). cbn [rbind]. destruct (are_bboxes_overlapping b1 b2); cbn [negb]; eauto.
Qed.
Lemma facing_exact p q : p_pts p <> [] -> p_pts q <> [] -> told_apart (p_pts p ++ p_pts q) -> NoDup (p_pts p) ->
  (are_polygons_facing (p_pts p) (p_vn p) (p_pts q) (p_vn q) = Ok true <-> faces p q).
Proof.
  intros N1 N2 T D. split.
  - unfold are_polygons_facing. destruct (allclose _ _ _ _) eqn:A; cbn [negb]; [|discriminate]. destruct (bbox_total _ N1) as (b1 & ->). destruct (bbox_total _ N2) as (b2 & ->). cbn [rbind]. destruct (are_bboxes_overlapping b1 b2); cbn [negb]; [|discriminate].
    intros H. apply Ok_inj in H. apply andb_true_iff in H. destruct H as (H1 & H2). split; auto. split; auto. apply all_same_incl; auto.
  - intros (A & I & C). destruct (p_pts p) as [|v r] eqn:E; [congruence|]. rewrite <- E in *. assert (Iv : In v (p_pts p)) by (rewrite E; left; auto). rewrite (facing_shared v) by auto. rewrite A, C.
    pose proof (proj2 (all_same_incl _ _ T D) I) as S. unfold are_all_points_same in S. rewrite S. auto.
Qed.
Lemma not_nil p : proper p -> p_pts p <> [].
Proof. intros (L & _) E. rewrite E in L. simpl in L. lia. Qed.

(** Interfaces and adjacency. *)
Lemma anyM_iff {A} (f : A -> result bool) l : (forall x, In x l -> exists b, f x = Ok b) -> exists b, anyM f l = Ok b /\ (b = true <-> exists x, In x l /\ f x = Ok true).
Proof.
  intros T. destruct (anyM_total f l T) as (b & E). exists b. split; auto. split.
  - intros ->. clear T. induction l as [|x l IH]; [discriminate|]. cbn [anyM] in E. destruct (f x) as [[|]|] eqn:F; cbn [rbind] in E; try discriminate; [exists x; split; [left; auto|auto]|]. destruct (IH E) as (y & I & Y). exists y. split; [right; auto|auto].
  - intros H. pose proof (anyM_found f l T H) as F. congruence.
Qed.
Lemma interface_iff s1 s2 : (forall p, In p (s1 ++ s2) -> proper p) -> exists b, has_correct_interface s1 s2 = Ok b /\
  (b = true <-> exists p q, In p s1 /\ In q s2 /\ are_polygons_facing (p_pts p) (p_vn p) (p_pts q) (p_vn q) = Ok true).
Proof.
  intros P. assert (P1 : forall p, In p s1 -> p_pts p <> []) by (intros p I; apply not_nil, P, in_app_iff; auto). assert (P2 : forall p, In p s2 -> p_pts p <> []) by (intros p I; apply not_nil, P, in_app_iff; auto).
  assert (T : forall p, In p s1 -> exists b, anyM (fun q => are_polygons_facing (p_pts p) (p_vn p) (p_pts q) (p_vn q)) s2 = Ok b /\ (b = true <-> exists q, In q s2 /\ are_polygons_facing (p_pts p) (p_vn p) (p_pts q) (p_vn q) = Ok true)).
  { intros p Ip. apply anyM_iff. intros q Iq. apply facing_total; auto. }
  unfold has_correct_interface. destruct (anyM_iff (fun p => anyM (fun q => are_polygons_facing (p_pts p) (p_vn p) (p_pts q) (p_vn q)) s2) s1) as (b & E & B); [intros p Ip; destruct (T p Ip) as (b & E & _); eauto|].
  exists b. split; auto. rewrite B. split.
  - intros (p & Ip & Ep). destruct (T p Ip) as (b' & E' & B'). rewrite E' in Ep. apply Ok_inj in Ep. destruct (proj1 B' Ep) as (q & Iq & F). eauto.
  - intros (p & q & Ip & Iq & F). exists p. split; auto. destruct (T p Ip) as (b' & E' & B'). rewrite E'. f_equal. apply B'. eauto.
Qed.
Lemma adjacent_iff s1 s2 : (forall p, In p (s1 ++ s2) -> proper p) -> exists b, is_adjacent_to_solid s1 s2 = Ok b /\
  (b = true <-> exists p q, In p s1 /\ In q s2 /\ (crosses p q \/ are_polygons_facing (p_pts p) (p_vn p) (p_pts q) (p_vn q) = Ok true)).
Proof.
  intros P. assert (P1 : forall p, In p s1 -> proper p) by (intros p I; apply P, in_app_iff; auto). assert (P2 : forall p, In p s2 -> proper p) by (intros p I; apply P, in_app_iff; auto).
  set (f := fun p q => do c <- are_polygons_crossing (p_pts p) (p_tri p) (p_pts q) (p_tri q); if c then Ok true else are_polygons_facing (p_pts p) (p_vn p) (p_pts q) (p_vn q)).
  assert (F : forall p q, In p s1 -> In q s2 -> exists b, f p q = Ok b /\ (b = true <-> crosses p q \/ are_polygons_facing (p_pts p) (p_vn p) (p_pts q) (p_vn q) = Ok true)).
  { intros p q Ip Iq. specialize (P1 p Ip). specialize (P2 q Iq). unfold f, crosses. destruct (crossing_total (p_pts p) (p_tri p) (p_pts q) (p_tri q)) as (c & ->); try (apply not_nil; auto); try apply P1; try apply P2. cbn [rbind].
    destruct c; [exists true; split; auto; split; auto|]. destruct (facing_total (p_pts p) (p_vn p) (p_pts q) (p_vn q)) as (b & ->); try (apply not_nil; auto). exists b. split; auto. split; [intros ->; auto|intros [H|H]; [discriminate|apply Ok_inj in H; auto]]. }
  assert (T : forall p, In p s1 -> exists b, anyM (f p) s2 = Ok b /\ (b = true <-> exists q, In q s2 /\ f p q = Ok true)).
  { intros p Ip. apply anyM_iff. intros q Iq. destruct (F p q Ip Iq) as (b & E & _). eauto. }
  change (is_adjacent_to_solid s1 s2) with (anyM (fun p => anyM (f p) s2) s1). destruct (anyM_iff (fun p => anyM (f p) s2) s1) as (b & E & B); [intros p Ip; destruct (T p Ip) as (b & E & _); eauto|].
  exists b. split; auto. rewrite B. split.
  - intros (p & Ip & Ep). destruct (T p Ip) as (b' & E' & B'). rewrite E' in Ep. apply Ok_inj in Ep. destruct (proj1 B' Ep) as (q & Iq & Fq). exists p, q. split; auto. split; auto. destruct (F p q Ip Iq) as (b0 & E0 & B0). rewrite E0 in Fq. apply Ok_inj in Fq. apply B0; auto.
  - intros (p & q & Ip & Iq & H). exists p. split; auto. destruct (T p Ip) as (b' & E' & B'). rewrite E'. f_equal. apply B'. exists q. split; auto. destruct (F p q Ip Iq) as (b0 & E0 & B0). rewrite E0. f_equal. apply B0; auto.
Qed.
Lemma interface_adjacent s1 s2 : (forall p, In p (s1 ++ s2) -> proper p) -> has_correct_interface s1 s2 = Ok true -> is_adjacent_to_solid s1 s2 = Ok true.
Proof.
  intros P H. destruct (interface_iff s1 s2 P) as (b & E & B). destruct (adjacent_iff s1 s2 P) as (b' & E' & B'). rewrite E'. f_equal. apply B'. rewrite H in E. apply Ok_inj in E. destruct (proj1 B (eq_sym E)) as (p & q & Ip & Iq & F). eauto 6.
Qed.
