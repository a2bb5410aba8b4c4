(** Edges, polygon areas, distances, segments. *)
From Coq Require Import Reals List Bool Arith Lia Lra Psatz Permutation.
From Verif Require Import Prelude VecModel VecProofs GeomModel GeomSpec GeomProofs1.
Import ListNotations.
Local Open Scope R_scope.

(** Edges. *)
Lemma skipn_nth {A} (l : list A) : forall i p, nth_error l i = Some p -> skipn i l = p :: skipn (i + 1) l.
Proof. induction l as [|a l IH]; intros [|i] p E; try discriminate; simpl in *; [inversion E; auto|apply IH; auto]. Qed.
Lemma edge_loop_eq {P} (pts : list P) fuel : forall e i, (i <= length pts)%nat -> (2 * (length pts - i) <= fuel)%nat ->
  edge_loop fuel pts e i 0 = combine (skipn i pts) (skipn (i + 1) pts).
Proof.
  induction fuel as [fuel IH] using lt_wf_ind. intros e i Li Lf.
  destruct fuel as [|[|fuel]].
  - assert (i = length pts) by lia. subst. rewrite skipn_all. reflexivity.
  - assert (i = length pts) by lia. subst. rewrite skipn_all. cbn [edge_loop combine]. rewrite (proj2 (nth_error_None pts (length pts))); auto.
  - cbn [edge_loop Nat.eqb]. destruct (nth_error pts i) as [p|] eqn:Ei.
    + pose proof (skipn_nth _ _ _ Ei) as Sk.
      rewrite Sk. destruct (nth_error pts (i + 1)) as [q|] eqn:Ej.
      * pose proof (skipn_nth _ _ _ Ej) as Sk2.
        rewrite Sk2 at 2. cbn [combine]. f_equal. replace (i + 1 + 1 - 1)%nat with (i + 1)%nat by lia. assert (i + 1 < length pts)%nat by (apply nth_error_Some; congruence).
        rewrite (IH fuel) by lia. reflexivity.
      * apply nth_error_None in Ej. rewrite (skipn_all2 pts Ej). auto.
    + apply nth_error_None in Ei. rewrite skipn_all2 by auto. auto.
Qed.
Lemma last_dflt {A} (l : list A) a b : l <> [] -> last l a = last l b.
Proof. induction l as [|x l IH]; [congruence|]. intros _. destruct l as [|y l]; auto. apply IH. discriminate. Qed.
Lemma cyc_pairs_split {A} (x : A) r : cyc_pairs (x :: r) = combine (x :: r) r ++ [(last (x :: r) x, x)].
Proof.
  unfold cyc_pairs. revert x. assert (G : forall r (y x : A), combine (x :: r) (r ++ [y]) = combine (x :: r) r ++ [(last (x :: r) x, y)]).
  { clear. induction r as [|b r IH]; intros y x; [reflexivity|]. cbn [app]. change (combine (x :: b :: r) (b :: r ++ [y])) with ((x, b) :: combine (b :: r) (r ++ [y])). rewrite IH.
    change (combine (x :: b :: r) (b :: r)) with ((x, b) :: combine (b :: r) r). cbn [app]. f_equal. f_equal. f_equal. f_equal.
    change (last (x :: b :: r) x) with (last (b :: r) x). apply last_dflt. discriminate. }
  intros x. apply G.
Qed.
Lemma polygon_edges_eq {P} (pts : list P) : pts <> [] -> polygon_edges pts = Ok (cyc_pairs pts).
Proof.
  destruct pts as [|p r]; [congruence|]. intros _. unfold polygon_edges. rewrite edge_loop_eq by lia. cbn [Nat.add skipn]. rewrite cyc_pairs_split. auto.
Qed.
Lemma cyc_pairs_length {A} (l : list A) : length (cyc_pairs l) = length l.
Proof. destruct l; [reflexivity|]. unfold cyc_pairs. rewrite combine_length, app_length. cbn [length]. lia. Qed.
Lemma cyc_pairs_nth {A} (l : list A) i p q : nth_error l i = Some p -> nth_error l ((i + 1) mod length l) = Some q -> nth_error (cyc_pairs l) i = Some (p, q).
Proof.
  intros Ei Ej. assert (L : (i < length l)%nat) by (apply nth_error_Some; congruence). destruct l as [|x r]; [destruct i; discriminate|]. unfold cyc_pairs.
  assert (C : forall (a b : list A) k u v, nth_error a k = Some u -> nth_error b k = Some v -> nth_error (combine a b) k = Some (u, v)).
  { induction a as [|s a IH]; intros [|t b] [|k] u v A1 B1; try discriminate; simpl in *; [congruence|apply IH; auto]. }
  apply C; auto. cbn [length] in *. destruct (Nat.eq_dec (i + 1) (S (length r))) as [E|E].
  - rewrite E, Nat.mod_same in Ej by lia. simpl in Ej. rewrite nth_error_app2 by lia. replace (i - length r)%nat with 0%nat by lia. auto.
  - rewrite Nat.mod_small in Ej by lia. rewrite Nat.add_1_r in Ej. simpl in Ej. rewrite nth_error_app1 by lia. auto.
Qed.

(** Polygon area. *)
Lemma vadd_assoc a b c : vadd (vadd a b) c = vadd a (vadd b c).
Proof. dvec a; dvec b; dvec c; vunf; f_equal; ring. Qed.
Lemma vadd_comm a b : vadd a b = vadd b a.
Proof. dvec a; dvec b; vunf; f_equal; ring. Qed.
Lemma vadd_0_l a : vadd vzero a = a.
Proof. dvec a; vunf; f_equal; ring. Qed.
Lemma vadd_0_r a : vadd a vzero = a.
Proof. dvec a; vunf; f_equal; ring. Qed.
Definition vtotal (l : list vec) : vec := fold_right vadd vzero l.
Lemma vtotal_app a b : vtotal (a ++ b) = vadd (vtotal a) (vtotal b).
Proof. induction a as [|x a IH]; simpl; [rewrite vadd_0_l; auto|]. unfold vtotal in *. simpl. rewrite IH, vadd_assoc. auto. Qed.
Lemma fold_vadd {A} (f : A -> vec) l : forall acc, fold_left (fun t x => vadd t (f x)) l acc = vadd acc (vtotal (map f l)).
Proof. induction l as [|x l IH]; intros acc; simpl; [rewrite vadd_0_r; auto|]. rewrite IH. unfold vtotal. simpl. rewrite vadd_assoc. auto. Qed.
Lemma area_total pts : (3 <= length pts)%nat ->
  fold_left (fun tot i =>
        let p1 := nth i pts vzero in
        let p2 := if (i =? length pts - 1)%nat then nth 0 pts vzero else nth (i + 1) pts vzero in
        vadd tot (cross p1 p2)) (seq 0 (length pts)) vzero = vector_area2 pts.
Proof.
  intros L. rewrite (fold_vadd (fun i => cross (nth i pts vzero) (if (i =? length pts - 1)%nat then nth 0 pts vzero else nth (i + 1) pts vzero))), vadd_0_l.
  unfold vector_area2, vtotal. f_equal.
  assert (E : map (fun i => (nth i pts vzero, if (i =? length pts - 1)%nat then nth 0 pts vzero else nth (i + 1) pts vzero)) (seq 0 (length pts)) = cyc_pairs pts).
  { apply nth_error_ext. intros i. rewrite nth_error_map. destruct (le_lt_dec (length pts) i) as [H|H].
    - rewrite (proj2 (nth_error_None _ _)) by (rewrite seq_length; auto). symmetry. apply nth_error_None. rewrite cyc_pairs_length. auto.
    - rewrite (nth_error_nth' (seq 0 (length pts)) 0%nat) by (rewrite seq_length; auto). rewrite seq_nth by auto. cbn [option_map Nat.add]. symmetry. apply cyc_pairs_nth; [apply nth_error_nth'; auto|].
      destruct (i =? length pts - 1)%nat eqn:Q; [apply Nat.eqb_eq in Q|apply Nat.eqb_neq in Q].
      + replace (i + 1)%nat with (length pts) by lia. rewrite Nat.mod_same by lia. apply nth_error_nth'. lia.
      + rewrite Nat.mod_small by lia. apply nth_error_nth'. lia. }
  rewrite <- E, map_map. apply map_ext. intros i. reflexivity.
Qed.
Lemma polygon_area_eq pts vn : (3 <= length pts)%nat -> polygon_area pts vn = Rabs (dot (vector_area2 pts) vn) / 2.
Proof.
  intros L. unfold polygon_area. rewrite (proj2 (Nat.ltb_ge _ _) L). rewrite area_total by auto. unfold Rdiv. rewrite Rabs_mult. f_equal. apply Rabs_pos_eq. lra.
Qed.
Lemma polygon_area_small pts vn : (length pts < 3)%nat -> polygon_area pts vn = 0.
Proof. intros L. unfold polygon_area. rewrite (proj2 (Nat.ltb_lt _ _) L). auto. Qed.

(** Sums over the edges of a closed polygon. *)
Definition open_pairs {A} (l : list A) : list (A * A) := match l with [] => [] | _ :: r => combine l r end.
Lemma open_pairs_app {A} (a b : list A) x y : open_pairs ((a ++ [x]) ++ (y :: b)) = open_pairs (a ++ [x]) ++ (x, y) :: open_pairs (y :: b).
Proof.
  induction a as [|u a IH]; [destruct b; reflexivity|]. cbn [app] in *. destruct a as [|v a]; [reflexivity|]. cbn [app] in *.
  change (open_pairs (u :: v :: (a ++ [x]) ++ y :: b)) with ((u, v) :: open_pairs (v :: (a ++ [x]) ++ y :: b)). rewrite IH. reflexivity.
Qed.
Lemma cyc_open {A} (x : A) r : cyc_pairs (x :: r) = open_pairs ((x :: r) ++ [x]).
Proof.
  unfold cyc_pairs, open_pairs. cbn [app]. 
  assert (G : forall r (x y : A), combine (x :: r) (r ++ [y]) = combine (x :: r ++ [y]) (r ++ [y])).
  { induction r0 as [|b r0 IH]; intros a c; [reflexivity|]. cbn [app combine]. f_equal. apply IH. }
  apply G.
Qed.
Lemma cyc_pairs_rot1 {A} (x : A) r : Permutation (cyc_pairs (x :: r)) (cyc_pairs (r ++ [x])).
Proof.
  destruct r as [|y r]; [apply Permutation_refl|]. rewrite cyc_open. cbn [app].
  change (open_pairs (x :: y :: r ++ [x])) with ((x, y) :: open_pairs ((y :: r) ++ [x])).
  rewrite cyc_open. change ((y :: r ++ [x]) ++ [y]) with (((y :: r) ++ [x]) ++ [y]). rewrite open_pairs_app. cbn [open_pairs combine].
  apply Permutation_cons_append.
Qed.
Lemma cyc_pairs_rotation {A} (l l' : list A) : rotation_of l l' -> Permutation (cyc_pairs l) (cyc_pairs l').
Proof.
  intros (a & b & -> & ->). revert b. induction a as [|x a IH]; intros b; [rewrite app_nil_r; apply Permutation_refl|].
  cbn [app]. eapply Permutation_trans; [apply cyc_pairs_rot1|]. rewrite <- app_assoc. eapply Permutation_trans; [apply IH|]. rewrite <- app_assoc. apply Permutation_refl.
Qed.
Lemma vtotal_perm l l' : Permutation l l' -> vtotal l = vtotal l'.
Proof.
  induction 1; auto; unfold vtotal in *; simpl; [congruence| |congruence]. rewrite <- !vadd_assoc, (vadd_comm y x). auto.
Qed.
Lemma vector_area2_rot l l' : rotation_of l l' -> vector_area2 l = vector_area2 l'.
Proof. intros H. apply (vtotal_perm (map _ _) (map _ _)). apply Permutation_map. apply cyc_pairs_rotation. auto. Qed.
(** Reversal. *)
Definition swap {A} (e : A * A) : A * A := (snd e, fst e).
Lemma open_pairs_rev {A} (l : list A) : open_pairs (rev l) = rev (map swap (open_pairs l)).
Proof.
  induction l as [|x l IH]; [reflexivity|]. destruct l as [|y l]; [reflexivity|].
  change (open_pairs (x :: y :: l)) with ((x, y) :: open_pairs (y :: l)). cbn [map rev]. rewrite <- IH.
  cbn [rev]. rewrite open_pairs_app. reflexivity.
Qed.
Lemma cyc_pairs_rev {A} (l : list A) : Permutation (cyc_pairs (rev l)) (map swap (cyc_pairs l)).
Proof.
  destruct l as [|x r]; [apply Permutation_refl|]. rewrite (cyc_open x r).
  assert (E : rev ((x :: r) ++ [x]) = (x :: rev r) ++ [x]) by (rewrite rev_app_distr; reflexivity).
  pose proof (open_pairs_rev ((x :: r) ++ [x])) as H. rewrite E in H. rewrite <- (cyc_open x (rev r)) in H.
  eapply Permutation_trans; [apply Permutation_sym; exact (cyc_pairs_rot1 x (rev r))|]. rewrite H. apply Permutation_sym, Permutation_rev.
Qed.
Lemma vtotal_neg l : vtotal (map vopp l) = vopp (vtotal l).
Proof. induction l as [|x l IH]; unfold vtotal in *; simpl; [vunf; f_equal; ring|]. rewrite IH. generalize (fold_right vadd vzero l) as w. intros w. dvec x; dvec w. vunf. f_equal; ring. Qed.
Lemma vector_area2_rev l : vector_area2 (rev l) = vopp (vector_area2 l).
Proof.
  unfold vector_area2. fold (vtotal (map (fun e => cross (fst e) (snd e)) (cyc_pairs (rev l)))). fold (vtotal (map (fun e => cross (fst e) (snd e)) (cyc_pairs l))).
  rewrite (vtotal_perm _ _ (Permutation_map _ (cyc_pairs_rev l))), map_map, <- vtotal_neg, map_map. f_equal. apply map_ext. intros (a, b). unfold swap. cbn [fst snd]. dvec a; dvec b; vunf; f_equal; ring.
Qed.
(** Maps over edges. *)
Lemma cyc_pairs_map {A B} (f : A -> B) l : cyc_pairs (map f l) = map (fun e => (f (fst e), f (snd e))) (cyc_pairs l).
Proof.
  destruct l as [|x r]; [reflexivity|]. unfold cyc_pairs. cbn [map]. change [f x] with (map f [x]). rewrite <- map_app.
  assert (G : forall (a b : list A), combine (map f a) (map f b) = map (fun e => (f (fst e), f (snd e))) (combine a b)).
  { induction a as [|u a IH]; intros [|v b]; auto. cbn [map combine fst snd]. f_equal. auto. }
  apply (G (x :: r) (r ++ [x])).
Qed.
(** Telescoping: the sum of g(end) - g(start) over a closed polygon vanishes. *)
Lemma cyc_fst_snd {A} (l : list A) : Permutation (map fst (cyc_pairs l)) (map snd (cyc_pairs l)).
Proof.
  destruct l as [|x r]; [apply Permutation_refl|]. unfold cyc_pairs.
  assert (G : forall (a b : list A), length a = length b -> map fst (combine a b) = a /\ map snd (combine a b) = b).
  { induction a as [|u a IH]; intros [|v b] L; try discriminate; auto. simpl in L. destruct (IH b) as (E1 & E2); [lia|]. cbn [combine map fst snd]. split; f_equal; auto. }
  destruct (G (x :: r) (r ++ [x])) as (-> & ->); [rewrite app_length; simpl; lia|]. apply Permutation_cons_append.
Qed.
Lemma vtotal_add {A} (f g : A -> vec) l : vtotal (map (fun x => vadd (f x) (g x)) l) = vadd (vtotal (map f l)) (vtotal (map g l)).
Proof. induction l as [|x l IH]; unfold vtotal in *; simpl; [rewrite vadd_0_l; auto|]. rewrite IH. generalize (fold_right vadd vzero (map f l)) as p. generalize (fold_right vadd vzero (map g l)) as q. intros q p. generalize (f x) as u. generalize (g x) as v. intros v u. dvec u; dvec v; dvec p; dvec q. vunf. f_equal; ring. Qed.
Lemma telescope {A} (g : A -> vec) (l : list A) : vtotal (map (fun e => vsub (g (snd e)) (g (fst e))) (cyc_pairs l)) = vzero.
Proof.
  rewrite (map_ext _ (fun e => vadd (g (snd e)) (vopp (g (fst e))))) by (intros (a, b); cbn [fst snd]; generalize (g a) as u; generalize (g b) as v; intros v u; dvec u; dvec v; vunf; f_equal; ring).
  rewrite (vtotal_add (fun e => g (snd e)) (fun e => vopp (g (fst e)))).
  rewrite <- (map_map snd g), <- (map_map (fun e => g (fst e)) vopp), <- (map_map fst g), vtotal_neg.
  rewrite (vtotal_perm _ _ (Permutation_map g (cyc_fst_snd l))). generalize (vtotal (map g (map snd (cyc_pairs l)))) as w. intros w. dvec w. vunf. f_equal; ring.
Qed.
Lemma vector_area2_shift l t : vector_area2 (map (fun p => vadd p t) l) = vector_area2 l.
Proof.
  unfold vector_area2. rewrite cyc_pairs_map, map_map. cbn [fst snd].
  fold (vtotal (map (fun e => cross (vadd (fst e) t) (vadd (snd e) t)) (cyc_pairs l))). fold (vtotal (map (fun e => cross (fst e) (snd e)) (cyc_pairs l))).
  rewrite (map_ext (fun e => cross (vadd (fst e) t) (vadd (snd e) t)) (fun e => vadd (cross (fst e) (snd e)) (vsub (cross t (snd e)) (cross t (fst e))))).
  2:{ intros (a, b). cbn [fst snd]. dvec a; dvec b; dvec t. vunf. f_equal; ring. }
  rewrite vtotal_add, (telescope (cross t)), vadd_0_r. auto.
Qed.
Lemma vtotal_smul {A} k (f : A -> vec) l : vtotal (map (fun x => smul k (f x)) l) = smul k (vtotal (map f l)).
Proof. induction l as [|x l IH]; unfold vtotal in *; simpl; [vunf; f_equal; ring|]. rewrite IH. generalize (fold_right vadd vzero (map f l)) as w. generalize (f x) as u. intros u w. dvec u; dvec w. vunf. f_equal; ring. Qed.
Lemma vector_area2_scale l k : vector_area2 (map (smul k) l) = smul (k * k) (vector_area2 l).
Proof.
  unfold vector_area2. rewrite cyc_pairs_map, map_map. cbn [fst snd]. fold (vtotal (map (fun e => cross (smul k (fst e)) (smul k (snd e))) (cyc_pairs l))).
  rewrite (map_ext _ (fun e => smul (k * k) (cross (fst e) (snd e)))) by (intros (a, b); cbn [fst snd]; dvec a; dvec b; vunf; f_equal; ring). apply vtotal_smul.
Qed.
Lemma vector_area2_tri a b c : vector_area2 [a; b; c] = cross (vsub b a) (vsub c a).
Proof. unfold vector_area2, cyc_pairs. cbn [app combine map fold_right fst snd]. dvec a; dvec b; dvec c. vunf. f_equal; ring. Qed.
Lemma area_rot l l' vn : rotation_of l l' -> polygon_area l vn = polygon_area l' vn.
Proof.
  intros H. assert (L : length l = length l') by (destruct H as (a & b & -> & ->); rewrite !app_length; lia).
  destruct (le_lt_dec 3 (length l)); [|rewrite !polygon_area_small by lia; auto]. rewrite !polygon_area_eq by lia. rewrite (vector_area2_rot l l' H). auto.
Qed.
Lemma dot_vopp_l a b : dot (vopp a) b = - dot a b.
Proof. dvec a; dvec b; vunf; ring. Qed.
Lemma area_rev l vn : polygon_area (rev l) vn = polygon_area l vn.
Proof.
  destruct (le_lt_dec 3 (length l)); [|rewrite !polygon_area_small by (rewrite ?rev_length; lia); auto]. rewrite !polygon_area_eq by (rewrite ?rev_length; lia).
  rewrite vector_area2_rev, dot_vopp_l, Rabs_Ropp. auto.
Qed.
Lemma area_shift l t vn : polygon_area (map (fun p => vadd p t) l) vn = polygon_area l vn.
Proof.
  destruct (le_lt_dec 3 (length l)); [|rewrite !polygon_area_small by (rewrite ?map_length; lia); auto]. rewrite !polygon_area_eq by (rewrite ?map_length; lia). rewrite vector_area2_shift. auto.
Qed.
Lemma area_scale l k vn : polygon_area (map (smul k) l) vn = k * k * polygon_area l vn.
Proof.
  destruct (le_lt_dec 3 (length l)); [|rewrite !polygon_area_small by (rewrite ?map_length; lia); ring]. rewrite !polygon_area_eq by (rewrite ?map_length; lia).
  rewrite vector_area2_scale, dot_smul_l, Rabs_mult, (Rabs_pos_eq (k * k)) by nra. field.
Qed.
Lemma area_pos l vn : 0 <= polygon_area l vn.
Proof.
  destruct (le_lt_dec 3 (length l)); [|rewrite polygon_area_small by auto; lra]. rewrite polygon_area_eq by auto. pose proof (Rabs_pos (dot (vector_area2 l) vn)). lra.
Qed.
Lemma area_norm l : (3 <= length l)%nat -> vector_area2 l <> vzero ->
  polygon_area l (vdiv (vector_area2 l) (norm (vector_area2 l))) = norm (vector_area2 l) / 2.
Proof.
  intros L N. rewrite polygon_area_eq by auto. set (w := vector_area2 l) in *. rewrite <- norm_zero in N. rewrite vdiv_smul, dot_smul_r, <- norm_sq.
  replace (/ norm w * (norm w * norm w)) with (norm w) by (field; auto). rewrite Rabs_pos_eq; auto. apply norm_pos.
Qed.
Lemma area_triangle a b c n : normal a b c = Some n -> polygon_area [a; b; c] n = true_area a b c.
Proof.
  intros H. apply normal_some in H. destruct H as (L & ->). rewrite <- (vector_area2_tri a b c). rewrite area_norm; [rewrite vector_area2_tri; reflexivity|simpl; lia|].
  rewrite vector_area2_tri, <- norm_zero. lra.
Qed.

(** Distance to a segment. *)
Lemma dist_edge_err p p1 p2 : distance_point_to_edge p p1 p2 = Err ZeroDivisionError <-> p1 = p2.
Proof.
  unfold distance_point_to_edge. destruct (Reqb (dot (vsub p2 p1) (vsub p2 p1)) 0) eqn:E; rbool.
  - split; auto. intros _. apply dot_zero in E. dvec p1; dvec p2. unfold vsub, vzero in E. cbn [vx vy vz] in E. inversion E. f_equal; lra.
  - split; [repeat (destruct (Rltb _ _)); discriminate|]. intros ->. exfalso. apply E. dvec p2. vunf. ring.
Qed.
Lemma norm_le_dot a b : dot a a <= dot b b -> norm a <= norm b.
Proof. intros. unfold norm. apply sqrt_le_1_alt. auto. Qed.
Lemma dist_edge_min p p1 p2 : p1 <> p2 -> exists d, distance_point_to_edge p p1 p2 = Ok d /\
  (exists q, on_segment p1 p2 q /\ d = dist p q) /\ (forall q, on_segment p1 p2 q -> d <= dist p q).
Proof.
  intros N. unfold distance_point_to_edge. set (v := vsub p2 p1). set (w := vsub p p1).
  assert (Lv : 0 < dot v v).
  { destruct (Rle_lt_or_eq_dec 0 (dot v v) (dot_pos v)) as [|E]; auto. exfalso. apply N. symmetry in E. apply dot_zero in E. unfold v in E. dvec p1; dvec p2. unfold vsub, vzero in E. cbn [vx vy vz] in E. inversion E. f_equal; lra. }
  rewrite (proj2 (Reqb_false _ _)) by lra. set (t := dot w v / dot v v). assert (T : t * dot v v = dot w v) by (unfold t; field; lra).
  assert (Q : forall s, dot (vsub (seg_point p1 p2 s) p) (vsub (seg_point p1 p2 s) p) = dot w w - 2 * s * dot w v + s * s * dot v v).
  { intros s. unfold seg_point, w, v. dvec p; dvec p1; dvec p2. vunf. ring. }
  assert (G : forall s0, 0 <= s0 <= 1 -> (forall s, 0 <= s <= 1 -> (s0 - t) * (s0 - t) <= (s - t) * (s - t)) ->
     (exists q, on_segment p1 p2 q /\ norm (vsub (seg_point p1 p2 s0) p) = dist p q) /\ (forall q, on_segment p1 p2 q -> norm (vsub (seg_point p1 p2 s0) p) <= dist p q)).
  { intros s0 S0 Hm. split; [exists (seg_point p1 p2 s0); split; [exists s0; auto|reflexivity]|].
    intros q (s & S & ->). unfold dist. apply norm_le_dot. rewrite !Q. specialize (Hm s S). rewrite <- T. nra. }
  assert (P0 : seg_point p1 p2 0 = p1) by (unfold seg_point; dvec p1; dvec p2; vunf; f_equal; ring).
  assert (P1 : seg_point p1 p2 1 = p2) by (unfold seg_point; dvec p1; dvec p2; vunf; f_equal; ring).
  destruct (Rltb t 0) eqn:E1; rbool.
  - exists (norm (vsub (seg_point p1 p2 0) p)). split; [rewrite P0; reflexivity|]. apply G; [lra|]. intros s S. nra.
  - destruct (Rltb 1 t) eqn:E2; rbool.
    + exists (norm (vsub (seg_point p1 p2 1) p)). split; [rewrite P1; reflexivity|]. apply G; [lra|]. intros s S. nra.
    + eexists. split; [reflexivity|]. change (vadd p1 (smul t v)) with (seg_point p1 p2 t). apply G; [lra|]. intros s S. replace ((t - t) * (t - t)) with 0 by ring. pose proof (Rle_0_sqr (s - t)) as Z. unfold Rsqr in Z. exact Z.
Qed.

(** Points between two points. *)
Lemma new_point_seg p1 p2 t : new_point_between p1 p2 t = seg_point p1 p2 t.
Proof. unfold new_point_between, seg_point. dvec p1; dvec p2. vunf. f_equal; ring. Qed.
Lemma many_points_nth p1 p2 num i : (i <= num + 1)%nat -> nth_error (many_new_points p1 p2 num) i = Some (seg_point p1 p2 (INR i / INR (num + 1))).
Proof.
  intros L. assert (N : 0 < INR (num + 1)) by (apply lt_0_INR; lia). unfold many_new_points. destruct i as [|i].
  - simpl. f_equal. unfold seg_point. dvec p1; dvec p2. vunf. f_equal; unfold Rdiv; ring.
  - cbn [nth_error]. destruct (Nat.eq_dec i num) as [->|D].
    + rewrite nth_error_app2 by (rewrite map_length, seq_length; lia). rewrite map_length, seq_length, Nat.sub_diag. cbn [nth_error].
      replace (S num) with (num + 1)%nat by lia. f_equal. replace (INR (num + 1) / INR (num + 1)) with 1 by (field; lra). unfold seg_point. dvec p1; dvec p2. vunf. f_equal; ring.
    + rewrite nth_error_app1 by (rewrite map_length, seq_length; lia). rewrite nth_error_map, (nth_error_nth' _ 0%nat) by (rewrite seq_length; lia).
      rewrite seq_nth by lia. cbn [option_map]. rewrite new_point_seg. replace (1 + i)%nat with (S i) by lia. auto.
Qed.
Lemma many_points_length p1 p2 num : length (many_new_points p1 p2 num) = (num + 2)%nat.
Proof. unfold many_new_points. cbn [length]. rewrite app_length, map_length, seq_length. simpl. lia. Qed.
Lemma many_points_spec p1 p2 num : length (many_new_points p1 p2 num) = (num + 2)%nat /\
  nth_error (many_new_points p1 p2 num) 0 = Some p1 /\ nth_error (many_new_points p1 p2 num) (num + 1) = Some p2 /\
  (forall q, In q (many_new_points p1 p2 num) -> on_segment p1 p2 q) /\
  (forall i a b, nth_error (many_new_points p1 p2 num) i = Some a -> nth_error (many_new_points p1 p2 num) (i + 1) = Some b ->
     vsub b a = smul (/ INR (num + 1)) (vsub p2 p1)).
Proof.
  assert (N : 0 < INR (num + 1)) by (apply lt_0_INR; lia).
  split; [apply many_points_length|]. split; [reflexivity|]. split; [|split].
  - rewrite many_points_nth by lia. f_equal. replace (INR (num + 1) / INR (num + 1)) with 1 by (field; lra). unfold seg_point. dvec p1; dvec p2. vunf. f_equal; ring.
  - intros q I. apply In_nth_error in I. destruct I as (i & E). assert (L : (i < num + 2)%nat) by (rewrite <- (many_points_length p1 p2 num); apply nth_error_Some; congruence).
    rewrite many_points_nth in E by lia. inversion E. exists (INR i / INR (num + 1)). split; auto. pose proof (pos_INR i). assert (INR i <= INR (num + 1)) by (apply le_INR; lia). split.
    + apply Rmult_le_pos; [lra|]. left. apply Rinv_0_lt_compat. auto.
    + apply Rmult_le_reg_r with (INR (num + 1)); auto. unfold Rdiv. rewrite Rmult_assoc, Rinv_l by lra. lra.
  - intros i a b Ea Eb. assert (L : (i + 1 < num + 2)%nat) by (rewrite <- (many_points_length p1 p2 num); apply nth_error_Some; congruence).
    rewrite many_points_nth in Ea by lia. rewrite many_points_nth in Eb by lia. inversion Ea; inversion Eb.
    rewrite (plus_INR i 1). simpl (INR 1). unfold seg_point. dvec p1; dvec p2. vunf. f_equal; field; lra.
Qed.

(** Point on segment. *)
Lemma isclose_refl a rt at_ : 0 <= rt -> 0 <= at_ -> isclose a a rt at_ = true.
Proof. intros R A. apply Rleb_true. rewrite Rminus_diag_eq, Rabs_R0 by auto. pose proof (Rabs_pos a). nra. Qed.
Lemma allclose_zero v rt at_ : allclose v vzero rt at_ = true <-> Rabs (vx v) <= at_ /\ Rabs (vy v) <= at_ /\ Rabs (vz v) <= at_.
Proof.
  unfold allclose, isclose, vzero. cbn [vx vy vz]. rewrite !andb_true_iff, !Rleb_true, !Rminus_0_r, Rabs_R0, Rmult_0_r, Rplus_0_r. tauto.
Qed.
Lemma on_segment_accepted p1 p2 q atol : 0 <= atol -> on_segment p1 p2 q -> is_point_on_segment q p1 p2 atol = true.
Proof.
  intros A (t & T & ->). unfold is_point_on_segment. destruct (_ || _); auto.
  assert (C : cross (vsub (seg_point p1 p2 t) p1) (vsub p2 p1) = vzero) by (unfold seg_point; dvec p1; dvec p2; vunf; f_equal; ring).
  rewrite C. rewrite (proj2 (allclose_zero vzero RTOL atol)) by (unfold vzero; cbn [vx vy vz]; rewrite Rabs_R0; auto). cbn [negb].
  assert (D : dot (vsub (seg_point p1 p2 t) p1) (vsub p2 p1) = t * dot (vsub p2 p1) (vsub p2 p1)) by (unfold seg_point; dvec p1; dvec p2; vunf; ring).
  rewrite D. pose proof (dot_pos (vsub p2 p1)). rewrite (proj2 (Rltb_false _ _)) by nra. rewrite (proj2 (Rltb_false _ _)) by nra. reflexivity.
Qed.
Lemma on_segment_sound p1 p2 q atol : 0 <= atol -> p1 <> p2 -> is_point_on_segment q p1 p2 atol = true ->
  allclose q p1 RTOL atol = true \/ allclose q p2 RTOL atol = true \/
  exists t, dist (seg_point p1 p2 t) q * dist p1 p2 <= atol * sqrt 3 /\ - (atol / (dist p1 p2 * dist p1 p2)) <= t <= 1 + atol / (dist p1 p2 * dist p1 p2).
Proof.
  intros A N. unfold is_point_on_segment. destruct (allclose q p1 RTOL atol) eqn:E1; [auto|]. destruct (allclose q p2 RTOL atol) eqn:E2; [auto|]. cbn [orb].
  destruct (allclose (cross (vsub q p1) (vsub p2 p1)) vzero RTOL atol) eqn:E3; cbn [negb]; [|discriminate]. intros H. right. right.
  apply allclose_zero in E3. apply negb_true_iff, orb_false_iff in H. rewrite !Rltb_false in H. destruct H as (H1 & H2).
  set (v := vsub p2 p1) in *. set (w := vsub q p1) in *.
  assert (Lv : 0 < dot v v).
  { destruct (Rle_lt_or_eq_dec 0 (dot v v) (dot_pos v)) as [|E]; auto. exfalso. apply N. symmetry in E. apply dot_zero in E. unfold v in E. dvec p1; dvec p2. unfold vsub, vzero in E. cbn [vx vy vz] in E. inversion E. f_equal; lra. }
  exists (dot w v / dot v v). unfold dist. fold v. rewrite norm_sq. split.
  - (* |q - foot| * |v| = |w x v| *)
    set (t := dot w v / dot v v). assert (T : t * dot v v = dot w v) by (unfold t; field; lra).
    unfold norm at 1 2. rewrite <- sqrt_mult by apply dot_pos.
    replace (dot (vsub q (seg_point p1 p2 t)) (vsub q (seg_point p1 p2 t)) * dot v v) with (dot (cross w v) (cross w v)).
    + assert (S : dot (cross w v) (cross w v) <= atol * atol * 3).
      { destruct E3 as (X & Y & Z). set (c := cross w v) in *. dvec c. unfold dot. cbn [vx vy vz] in *.
        assert (K : forall r, Rabs r <= atol -> r * r <= atol * atol). { intros r Hr. unfold Rabs in Hr. destruct (Rcase_abs r); nra. }
        pose proof (K _ X). pose proof (K _ Y). pose proof (K _ Z). lra. }
      apply Rle_trans with (sqrt (atol * atol * 3)); [apply sqrt_le_1_alt; auto|]. rewrite sqrt_mult by nra. rewrite sqrt_square by auto. lra.
    + assert (Q : dot (vsub q (seg_point p1 p2 t)) (vsub q (seg_point p1 p2 t)) = dot w w - 2 * t * dot w v + t * t * dot v v) by (unfold seg_point, w, v; dvec q; dvec p1; dvec p2; vunf; ring).
      assert (L : dot (cross w v) (cross w v) = dot w w * dot v v - dot w v * dot w v) by (clear; dvec w; dvec v; vunf; ring).
      rewrite Q, L, <- T. ring.
  - split.
    + apply Rmult_le_reg_r with (dot v v); auto. replace (- (atol / dot v v) * dot v v) with (- atol) by (field; lra). replace (dot w v / dot v v * dot v v) with (dot w v) by (field; lra). lra.
    + apply Rmult_le_reg_r with (dot v v); auto. replace ((1 + atol / dot v v) * dot v v) with (dot v v + atol) by (field; lra). replace (dot w v / dot v v * dot v v) with (dot w v) by (field; lra). lra.
Qed.
