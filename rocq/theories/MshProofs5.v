(** Neighbours of tetrahedra: the compiled function. *)
From Coq Require Import Ascii String Reals List Bool Arith Lia Lra Sorted.
From Verif Require Import Prelude TreeModel MeshModel VecModel GeomModel TriModel PolyModel VecProofs MshModel MshSpec MshProofs MshProofs2 MshProofs3 MshProofs4.
Import ListNotations.

(** ** Slots *)
Lemma fill_all js : forall a k, fold_left fill_slot js (map Some a ++ repeat None k) = map Some (a ++ firstn k js) ++ repeat None (k - length js).
Proof.
  induction js as [|j js IH]; intros a k.
  - cbn [fold_left length]. rewrite firstn_nil, app_nil_r, Nat.sub_0_r. reflexivity.
  - cbn [fold_left]. destruct k as [|k].
    + assert (E : fill_slot (map Some a ++ repeat None 0) j = map Some a ++ repeat None 0).
      { cbn [repeat]. rewrite app_nil_r. clear. induction a as [|x a IH]; auto. cbn. rewrite IH. reflexivity. }
      rewrite E, IH. reflexivity.
    + assert (E : fill_slot (map Some a ++ repeat None (S k)) j = map Some (a ++ [j]) ++ repeat None k).
      { clear. induction a as [|x a IH]; auto. cbn. cbn in IH. rewrite IH. reflexivity. }
      rewrite E, IH. cbn [firstn length Nat.sub]. rewrite <- app_assoc. reflexivity.
Qed.
Lemma slots_fill js : slots (fold_left fill_slot js (repeat None 4)) = firstn 4 js.
Proof.
  pose proof (fill_all js [] 4) as F. cbn [map app] in F. rewrite F. clear F. unfold slots. rewrite map_app, concat_app.
  assert (E : forall l, concat (map (fun x => match x with Some j => [j] | None => [] end) (map Some l)) = (l : list nat)).
  { induction l as [|x l IH]; auto. cbn. rewrite IH. reflexivity. }
  rewrite E. set (k := 4 - length js). clearbody k. induction k as [|k IH]; [rewrite app_nil_r; reflexivity|]. exact IH.
Qed.

(** ** Points that are apart *)
Section Numba.
  Context (same : vec -> vec -> bool) (EQ : equivalence same).

  Lemma set_of_apart l : apart same l -> point_set same l = l.
  Proof. intros D. induction D as [|p l N D IH]; auto. cbn [point_set]. rewrite N, IH. reflexivity. Qed.
  Lemma one_near p l : apart same l -> length (filter (same p) l) = if existsb (same p) l then 1 else 0.
  Proof.
    intros D. induction D as [|q l N D IH]; auto. cbn [filter existsb]. destruct (same p q) eqn:E; cbn [orb]; auto.
    cbn [length]. rewrite IH. replace (existsb (same p) l) with (existsb (same q) l); [rewrite N; reflexivity|].
    symmetry. apply (MshProofs3.isin_same same EQ). auto.
  Qed.
  Lemma apart_pairs l : ForallOrdPairs (fun p q => same p q = false) l -> apart same l.
  Proof.
    intros D. induction D as [|p l F D IH]; constructor; auto. destruct (existsb (same p) l) eqn:E; auto.
    apply existsb_exists in E. destruct E as (q & Q & S). rewrite Forall_forall in F. rewrite F in S by auto. discriminate.
  Qed.
  Lemma count_shared eps l1 l2 : apart same l1 -> apart same l2 -> (forall p q, In p l1 -> In q l2 -> near eps p q = same p q) ->
    count_near eps l1 l2 = num_shared same l1 l2.
  Proof.
    intros D1 D2 H. unfold num_shared, count_near. rewrite (set_of_apart l2) by auto. rewrite (set_of_apart l1) by auto. clear D1.
    induction l1 as [|p l1 IH]; auto. cbn [list_prod filter]. rewrite filter_app, app_length, IH by (intros; apply H; auto; right; auto).
    assert (E : length (filter (fun pq => near eps (fst pq) (snd pq)) (map (fun y => (p, y)) l2)) = length (filter (same p) l2)).
    { assert (G : forall l, (forall q, In q l -> near eps p q = same p q) ->
        length (filter (fun pq => near eps (fst pq) (snd pq)) (map (fun y => (p, y)) l)) = length (filter (same p) l)).
      { induction l as [|q l IHl]; intros K; auto. cbn [map filter fst snd]. rewrite K by (left; auto).
        destruct (same p q); cbn [length]; rewrite IHl by (intros; apply K; right; auto); reflexivity. }
      apply G. intros q Q. apply H; auto. left. auto. }
    rewrite E, one_near by auto. destruct (existsb (same p) l2); reflexivity.
  Qed.

  Lemma near_same eps p q : (0 < eps)%R -> (same p q = true -> close_points eps p q) -> (same p q = false -> far_points eps p q) -> near eps p q = same p q.
  Proof.
    intros _ H1 H2. unfold near. destruct (same p q).
    - destruct (H1 eq_refl) as (Hx & Hy & Hz). apply Rltb_true in Hx, Hy, Hz. rewrite Hx, Hy, Hz. reflexivity.
    - destruct (H2 eq_refl) as [H|[H|H]].
      + apply Rltb_false in H. rewrite H. reflexivity.
      + apply Rltb_false in H. rewrite H. rewrite andb_false_r; reflexivity.
      + apply Rltb_false in H. rewrite H. rewrite andb_false_r. reflexivity.
  Qed.

  Lemma wrap_spec vs els : all_corners vs els -> els <> [] -> (forall e1 e2, In e1 els -> In e2 els -> length e1 = length e2) ->
    separated same GEOM_ATOL vs -> proper_elements same vs els ->
    exists nb, find_neighbors same vs els = Ok nb /\ find_neighbors_wrap vs els = Ok (map (firstn 4) nb).
  Proof.
    intros C NE RC Sep Prp. exists (map (facing_row same vs els) (seq 0 (length els))). split; [apply neighbors_eq; auto|].
    unfold find_neighbors_wrap. destruct els as [|e0 er] eqn:El; [contradiction|]. rewrite <- El in *.
    rewrite (proj2 (rectangular_spec els) RC).
    set (test := fun l1 l2 => count_near GEOM_ATOL l1 l2 =? 3).
    assert (F : find_neighbors_numba GEOM_ATOL vs els = Ok (map (fun k => fold_left fill_slot (filter (adj' (tested test vs els) k) (seq 0 (length els))) (repeat None 4)) (seq 0 (length els)))).
    { exact (common_ok fill_slot test vs els (repeat None 4) C). }
    rewrite F. cbn [rbind]. rewrite !map_map. f_equal. apply map_ext. intros k. rewrite slots_fill. f_equal. unfold facing_row.
    apply filter_ext. intros j.
    assert (T : forall a b, tested test vs els a b = tested (fun l1 l2 => num_shared same l1 l2 =? 3) vs els a b).
    { intros a b. unfold tested. destruct (nth_error els a) as [e1|] eqn:E1; auto. destruct (nth_error els b) as [e2|] eqn:E2; auto.
      destruct (four_points vs e1) as [l1|] eqn:F1; auto. destruct (four_points vs e2) as [l2|] eqn:F2; auto. unfold test. f_equal.
      apply four_spec in F1, F2.
      assert (I : forall e l, corners4 vs e l -> forall p, In p l -> In p vs).
      { intros e l (a' & b' & c & d & r & p & q & s & t & _ & -> & Ha & Hb & Hc & Hd) x X. cbn [In] in X.
        destruct X as [<-|[<-|[<-|[<-|[]]]]]; eapply nth_error_In; eauto. }
      apply count_shared.
      - apply apart_pairs. apply (Prp e1); auto. eapply nth_error_In; eauto.
      - apply apart_pairs. apply (Prp e2); auto. eapply nth_error_In; eauto.
      - intros p q P Q. apply near_same.
        + unfold GEOM_ATOL. lra.
        + intros S. apply (Sep p q); eauto.
        + intros S. apply (Sep p q); eauto. }
    unfold adj'. rewrite !T. reflexivity.
  Qed.
End Numba.

(** ** Renaming points *)
Section Rename.
  Context {A B : Type} (f : A -> B) (sa : A -> A -> bool) (sb : B -> B -> bool) (H : forall a b, sb (f a) (f b) = sa a b).
  Lemma any_map p l : existsb (sb (f p)) (map f l) = existsb (sa p) l.
  Proof. induction l as [|q l IH]; auto. cbn. rewrite IH, H. reflexivity. Qed.
  Lemma set_map l : point_set sb (map f l) = map f (point_set sa l).
  Proof. induction l as [|q l IH]; auto. cbn [map point_set]. rewrite any_map, IH. destruct (existsb (sa q) l); reflexivity. Qed.
  Lemma shared_map l1 l2 : num_shared sb (map f l1) (map f l2) = num_shared sa l1 l2.
  Proof.
    unfold num_shared. rewrite !set_map. generalize (point_set sa l1) as l. induction l as [|p l IH]; auto. cbn [map filter].
    rewrite any_map. destruct (existsb (sa p) (point_set sa l2)); cbn [length]; rewrite IH; reflexivity.
  Qed.
  Lemma four_map vs el : four_points (map f vs) el = match four_points vs el with Ok l => Ok (map f l) | Err e => Err e end.
  Proof.
    unfold four_points, at_index. destruct el as [|a [|b [|c [|d r]]]]; cbn [seq mapM nth_error rbind]; rewrite ?nth_error_map; auto;
    repeat match goal with |- context [nth_error vs ?i] => destruct (nth_error vs i) eqn:?; cbn [option_map rbind]; auto end.
  Qed.
  Lemma corners_map vs els : all_corners vs els -> all_corners (map f vs) els.
  Proof.
    intros C e I. destruct (C e I) as (l & L). exists (map f l). apply four_spec. apply four_spec in L. rewrite four_map, L. reflexivity.
  Qed.
  Lemma neighbors_map vs els : all_corners vs els -> find_neighbors sb (map f vs) els = find_neighbors sa vs els.
  Proof.
    intros C. rewrite !neighbors_eq by auto using corners_map. f_equal. apply map_ext. intros k. unfold facing_row. apply filter_ext. intros j.
    assert (T : forall a b, tested (fun l1 l2 => num_shared sb l1 l2 =? 3) (map f vs) els a b = tested (fun l1 l2 => num_shared sa l1 l2 =? 3) vs els a b).
    { intros a b. unfold tested. destruct (nth_error els a); auto. destruct (nth_error els b); auto. rewrite !four_map.
      destruct (four_points vs e); auto. destruct (four_points vs e0); auto. rewrite shared_map. reflexivity. }
    unfold adj'. rewrite !T. reflexivity.
  Qed.
End Rename.

(** ** Six elements on one face *)
Definition exactly (p q : vec) : bool := Reqb (vx p) (vx q) && Reqb (vy p) (vy q) && Reqb (vz p) (vz q).
Lemma exactly_eq p q : exactly p q = true <-> p = q.
Proof.
  unfold exactly. rewrite !andb_true_iff, !Reqb_true. destruct p, q; cbn. split; [intros ((-> & ->) & ->); auto|intros E; injection E as -> -> ->; auto].
Qed.
Lemma exactly_equivalence : equivalence exactly.
Proof.
  split; [|split].
  - intros p. apply exactly_eq. reflexivity.
  - intros p q E. apply exactly_eq in E. subst. apply exactly_eq. reflexivity.
  - intros p q r E F. apply exactly_eq in E, F. subst. apply exactly_eq. reflexivity.
Qed.
Definition fan_point (n : nat) : vec :=
  match n with 0 => V 0 0 0 | 1 => V 1 0 0 | 2 => V 0 1 0 | S (S (S k)) => V 0 0 (INR (S k)) end.
Definition fan : list vec := map fan_point (seq 0 9).
Definition fan_elements : list element := map (fun k => [0; 1; 2; k]) (seq 3 6).
Lemma fan_far a b : a <> b -> far_points 1 (fan_point a) (fan_point b).
Proof.
  intros N. assert (G : forall k, (1 <= INR (S k))%R) by (intros k; rewrite S_INR; pose proof (pos_INR k); lra).
  assert (P : forall k l, k <> l -> (1 <= Rabs (INR k - INR l))%R).
  { intros k l M. destruct (Nat.lt_gt_cases k l) as [Q _]. destruct (Q M) as [L|L].
    - apply le_INR in L. rewrite S_INR in L. rewrite Rabs_left1 by lra. lra.
    - apply le_INR in L. rewrite S_INR in L. rewrite Rabs_pos_eq by lra. lra. }
  unfold far_points. destruct a as [|[|[|a]]], b as [|[|[|b]]]; try lia; cbn [fan_point vx vy vz];
    try (left; rewrite ?Rminus_0_r, ?Rminus_0_l, ?Rabs_Ropp, ?Rabs_R1; lra);
    try (right; left; rewrite ?Rminus_0_r, ?Rminus_0_l, ?Rabs_Ropp, ?Rabs_R1; lra).
  - right. right. rewrite Rminus_0_l, Rabs_Ropp, Rabs_pos_eq; auto. pose proof (G b). lra.
  - right. right. rewrite Rminus_0_r, Rabs_pos_eq; auto. pose proof (G a). lra.
  - right. right. apply P. lia.
Qed.
Lemma fan_same a b : exactly (fan_point a) (fan_point b) = (a =? b).
Proof.
  apply eq_true_iff_eq. rewrite exactly_eq, Nat.eqb_eq. split; [|intros ->; auto]. intros E. destruct (Nat.eq_dec a b) as [|N]; auto.
  exfalso. pose proof (fan_far a b N) as F. rewrite E in F. unfold far_points in F. rewrite !Rminus_diag_eq, Rabs_R0 in F by reflexivity. lra.
Qed.
Lemma fan_corners : all_corners fan fan_elements.
Proof.
  apply corners_map. intros e I. apply in_map_iff in I. destruct I as (k & <- & K). apply in_seq in K. exists [0; 1; 2; k].
  apply four_spec. do 3 (destruct k; [lia|]). do 6 (destruct k as [|k]; [reflexivity|]). lia.
Qed.
Lemma fan_separated : separated exactly GEOM_ATOL fan.
Proof.
  intros p q P Q. apply in_map_iff in P, Q. destruct P as (a & <- & _), Q as (b & <- & _). rewrite fan_same. split; intros E.
  - apply Nat.eqb_eq in E. subst. unfold close_points. rewrite !Rminus_diag_eq, Rabs_R0 by reflexivity. unfold GEOM_ATOL. lra.
  - apply Nat.eqb_neq in E. pose proof (fan_far a b E) as F. unfold far_points, GEOM_ATOL in *. lra.
Qed.
Lemma fan_proper : proper_elements exactly fan fan_elements.
Proof.
  intros e l I L. apply in_map_iff in I. destruct I as (k & <- & K). apply in_seq in K. apply four_spec in L. unfold fan in L. rewrite four_map in L.
  assert (F : four_points (seq 0 9) [0; 1; 2; k] = Ok [0; 1; 2; k]).
  { do 3 (destruct k; [lia|]). do 6 (destruct k as [|k]; [reflexivity|]). lia. }
  rewrite F in L. assert (l = map fan_point [0; 1; 2; k]) as -> by congruence. cbn [map].
  repeat (constructor; [repeat (constructor; [rewrite fan_same; apply Nat.eqb_neq; lia|]); constructor|]). constructor.
Qed.
Lemma fan_rows : find_neighbors_wrap fan fan_elements = Ok [[1; 2; 3; 4]; [0; 2; 3; 4]; [0; 1; 3; 4]; [0; 1; 2; 4]; [0; 1; 2; 3]; [0; 1; 2; 3]].
Proof.
  destruct (wrap_spec exactly exactly_equivalence fan fan_elements) as (nb & N & W).
  - apply fan_corners.
  - discriminate.
  - intros e1 e2 I1 I2. apply in_map_iff in I1, I2. destruct I1 as (a & <- & _), I2 as (b & <- & _). reflexivity.
  - apply fan_separated.
  - apply fan_proper.
  - rewrite W. unfold fan in N. rewrite (neighbors_map fan_point Nat.eqb exactly fan_same) in N.
    + vm_compute in N. injection N as <-. reflexivity.
    + intros e I. apply in_map_iff in I. destruct I as (k & <- & K). apply in_seq in K. exists [0; 1; 2; k].
      apply four_spec. do 3 (destruct k; [lia|]). do 6 (destruct k as [|k]; [reflexivity|]). lia.
Qed.
