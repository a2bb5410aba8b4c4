(** Floor plans: walls, closedness and volume. *)
From Coq Require Import Ascii String Reals List Bool Arith Lia Lra Permutation.
From Verif Require Import Prelude TreeModel IoModel VecModel VecProofs GeomModel GeomSpec GeomProofs1 GeomProofs2 GeomProofs3 GeomProofs4 GeomProofs5 TriModel TriSpec TriProofs TriProofs2 TriProofs3 PolyModel PolySpec PolyProofs1 PolyProofs2 SolidModel SolidSpec SolidProofs2 PlanSpec PlanProofs1 PlanProofs2.
Import ListNotations.
Local Open Scope R_scope.

(** Parallelograms keep the order of their points. *)
Lemma para_made a b c d p : make_polygon [a; b; c; d] None None = Ok p -> vsub c b = vsub d a ->
  p_pts p = [a; b; c; d] /\ unit (p_vn p) /\ exists k, 0 < k /\ cross (vsub b a) (vsub d a) = smul k (p_vn p).
Proof.
  intros H E. destruct (made_triangulated _ _ H) as (T & _ & L). destruct (made_normal _ _ H) as (p0 & p1 & r & Eq & N). injection Eq as <- <- <-. cbn [last] in N.
  destruct (normal_spec _ _ _ _ N) as (U & _). apply normal_some in N. destruct N as (Nn & Ev). set (w := cross (vsub a d) (vsub b d)) in *.
  assert (W : w = cross (vsub b a) (vsub d a)) by (unfold w; clear; dvec a; dvec b; dvec d; vunf; f_equal; ring).
  assert (Kw : w = smul (norm w) (p_vn p)) by (rewrite Ev; generalize w Nn; clear; intros w Nn; set (k := norm w) in *; clearbody k; dvec w; vunf; f_equal; field; lra).
  assert (A : vector_area2 [a; b; c; d] = smul 2 w).
  { rewrite W. assert (c = vadd b (vsub d a)) as -> by (rewrite <- E; clear; dvec b; dvec c; vunf; f_equal; ring). clear. unfold vector_area2, cyc_pairs. cbn [app combine map fold_right fst snd]. dvec a; dvec b; dvec d; vunf; f_equal; ring. }
  split; [|split; auto; exists (norm w); split; [lra|rewrite <- W; auto]].
  apply (proj1 (tri_order _ _ _ _ T L)). rewrite A, Kw. rewrite dot_smul_l, dot_smul_l. unfold unit in U. rewrite U. lra.
Qed.
Lemma wall_over_para up e : vsub (vadd (snd e) up) (snd e) = vsub (vadd (fst e) up) (fst e).
Proof. destruct e as (a, b). cbn [fst snd]. dvec a; dvec b; dvec up; vunf; f_equal; ring. Qed.
Lemma wall_made up e p : make_polygon (wall_over up e) None None = Ok p -> p_pts p = wall_over up e.
Proof. intros H. apply (para_made _ _ _ _ _ H). apply wall_over_para. Qed.
Lemma wall_made_rev up e p : make_polygon (rev (wall_over up e)) None None = Ok p -> p_pts p = rev (wall_over up e).
Proof. intros H. apply (para_made _ _ _ _ _ H). destruct e as (a, b). cbn [fst snd]. dvec a; dvec b; dvec up; vunf; f_equal; ring. Qed.

(** Corner points of the walls. *)
Lemma walls_over fl up : map (wall_points fl (map (fun p => vadd p up) fl)) (seq 0 (length fl)) = map (wall_over up) (cyc_pairs fl).
Proof.
  apply nth_error_ext. intros i. rewrite !nth_error_map. destruct (le_lt_dec (length fl) i) as [L|L].
  - rewrite !(proj2 (nth_error_None _ _)); auto; [rewrite cyc_pairs_length|rewrite seq_length]; auto.
  - assert (S : nth_error (seq 0 (length fl)) i = Some i). { rewrite (nth_error_nth' _ 0%nat) by (rewrite seq_length; auto). rewrite seq_nth; auto. }
    rewrite S. cbn [option_map]. set (nx := if (length fl <=? i + 1)%nat then 0%nat else (i + 1)%nat). assert (Nx : (nx < length fl)%nat) by (unfold nx; destruct (length fl <=? i + 1)%nat eqn:E; [lia|apply Nat.leb_gt in E; lia]).
    assert (M : ((i + 1) mod length fl = nx)%nat). { unfold nx. destruct (length fl <=? i + 1)%nat eqn:E; [apply Nat.leb_le in E; replace (i + 1)%nat with (length fl) by lia; apply Nat.mod_same; lia|apply Nat.leb_gt in E; apply Nat.mod_small; lia]. }
    pose proof (nth_error_nth' fl vzero L) as E1. pose proof (nth_error_nth' fl vzero Nx) as E2. rewrite <- M in E2. rewrite (cyc_pairs_nth fl i _ _ E1 E2). cbn [option_map]. f_equal. unfold wall_points, wall_over. fold nx. rewrite M. cbn [fst snd].
    set (g := fun p => vadd p up). assert (G : forall j, (j < length fl)%nat -> nth j (map g fl) vzero = g (nth j fl vzero)) by (intros j J; rewrite (nth_indep _ vzero (g vzero)) by (rewrite map_length; auto); apply map_nth). rewrite !G by auto. auto.
Qed.

(** Adjacent floor points. *)
Lemma cyc_in {A} (x y : A) l : In (x, y) (cyc_pairs l) -> (exists a b, l = a ++ x :: y :: b) \/ (exists m, l = y :: m ++ [x]) \/ (l = [x] /\ x = y).
Proof.
  destruct l as [|z r]; [intros []|]. rewrite cyc_pairs_split. intros I. apply in_app_or in I. destruct I as [I|[I|[]]].
  - left. revert z I. induction r as [|u r IH]; intros z I; [destruct I|]. cbn [combine] in I. destruct I as [I|I]; [injection I as <- <-; exists [], r; auto|]. apply IH in I. destruct I as (a & b & E). exists (z :: a), b. cbn [app]. congruence.
  - injection I as E ->. right. destruct r as [|v r]; [right; split; auto; f_equal; auto|]. left. destruct (@exists_last _ (v :: r) ltac:(discriminate)) as (m & u & Em). rewrite Em in *. exists m. change (y :: m ++ [u]) with ((y :: m) ++ [u]) in E. rewrite last_last in E. subst. auto.
Qed.
Lemma adj_skip arr l1 l2 : (forall p, In p l1 -> is_point_in_array p arr = false) -> forall i acc prev, length acc <> 2%nat -> adjacent_points arr (l1 ++ l2) i acc prev = adjacent_points arr l2 (i + length l1) acc prev.
Proof.
  intros H. induction l1 as [|p l1 IH]; intros i acc prev L; [cbn [app length]; rewrite Nat.add_0_r; auto|]. cbn [app adjacent_points]. rewrite (H p) by (simpl; auto). rewrite (proj2 (Nat.eqb_neq _ _) L). rewrite IH by (auto; intros; apply H; simpl; auto). f_equal. cbn [length]. lia.
Qed.
Lemma adjacent_spec F x y arr : told_apart F -> NoDup F -> (3 <= length F)%nat -> In (x, y) (cyc_pairs F) -> arr = [x; y] \/ arr = [y; x] -> adjacent_points arr F 0 [] None = [x; y].
Proof.
  intros T ND L I Ar. pose proof (cyc_members F _ I) as (Ix & Iy). cbn [fst snd] in Ix, Iy.
  assert (In_ : forall p, In p F -> p <> x -> p <> y -> is_point_in_array p arr = false).
  { intros p Ip X Y. unfold is_point_in_array. assert (points_equal p x = false) by (destruct (points_equal p x) eqn:E; auto; apply T in E; tauto). assert (points_equal p y = false) by (destruct (points_equal p y) eqn:E; auto; apply T in E; tauto). destruct Ar as [-> | ->]; cbn [existsb]; rewrite H, H0; auto. }
  assert (Tx : is_point_in_array x arr = true) by (unfold is_point_in_array; destruct Ar as [-> | ->]; cbn [existsb]; rewrite points_equal_refl, ?orb_true_r; auto).
  assert (Ty : is_point_in_array y arr = true) by (unfold is_point_in_array; destruct Ar as [-> | ->]; cbn [existsb]; rewrite points_equal_refl, ?orb_true_r; auto).
  destruct (cyc_in _ _ _ I) as [(a & b & E)|[(m & E)|(E & _)]]; subst F.
  - rewrite adj_skip; [|intros p Ip; apply In_; [apply in_or_app; auto| |]; intros ->|simpl; lia].
    + cbn [adjacent_points]. rewrite Tx. cbn [app length Nat.eqb]. cbn [adjacent_points]. rewrite Ty. rewrite Nat.eqb_refl. reflexivity.
    + apply NoDup_remove in ND. destruct ND as (_ & ND). apply ND. apply in_or_app. auto.
    + replace (a ++ x :: y :: b) with ((a ++ [x]) ++ y :: b) in ND by (rewrite <- app_assoc; auto). apply NoDup_remove in ND. destruct ND as (_ & ND). apply ND. apply in_or_app. left. apply in_or_app. auto.
  - cbn [adjacent_points]. rewrite Ty. cbn [app length Nat.eqb]. rewrite adj_skip; [|intros p Ip; apply In_; [right; apply in_or_app; auto| |]|simpl; lia].
    + cbn [adjacent_points]. rewrite Tx. assert (0 + 1 =? 0 + 1 + length m = false)%nat as -> by (apply Nat.eqb_neq; cbn [length] in L; rewrite app_length in L; cbn [length] in L; lia). reflexivity.
    + intros ->. inversion ND as [|? ? ? ND']; subst. apply NoDup_remove in ND'. destruct ND' as (_ & ND'). apply ND'. rewrite app_nil_r. auto.
    + intros ->. inversion ND as [|? ? N]; subst. apply N. apply in_or_app. auto.
  - simpl in L. lia.
Qed.

(** The orientation fix. *)
Lemma orient_spec z0 h F wn pn wp w f g : make_polygon (wall_over (V 0 0 h) (f, g)) None None = Ok wp -> vz f = z0 -> vz g = z0 -> orient_wall z0 F (wn, (pn, wp)) = Ok w ->
  fst w = wn /\ fst (snd w) = pn /\ make_polygon (p_pts (snd (snd w))) None None = Ok (snd (snd w)) /\
  (p_pts (snd (snd w)) = wall_over (V 0 0 h) (f, g) \/ p_pts (snd (snd w)) = rev (wall_over (V 0 0 h) (f, g))) /\
  (told_apart F -> NoDup F -> (3 <= length F)%nat -> (In (f, g) (cyc_pairs F) -> p_pts (snd (snd w)) = rev (wall_over (V 0 0 h) (f, g))) /\ (In (g, f) (cyc_pairs F) -> p_pts (snd (snd w)) = wall_over (V 0 0 h) (f, g))).
Proof.
  intros M Zf Zg H. pose proof (wall_made _ _ _ M) as Ep. set (up := V 0 0 h) in *.
  assert (Hh : h <> 0). { intros ->. destruct (made_normal _ _ M) as (p0 & p1 & r & E & N). injection E as <- <- <-. unfold wall_over in N. cbn [last fst snd] in N. apply normal_some in N. destruct N as (N & _). match type of N with _ < norm ?x => assert (Z : x = vzero) by (unfold up; clear; dvec f; dvec g; vunf; f_equal; ring) end. rewrite Z, (proj2 (norm_zero vzero) eq_refl) in N. lra. }
  unfold orient_wall in H. rewrite Ep in H. unfold wall_over in H. cbn [fst snd filter] in H. unfold up in H. cbn [vadd vz] in H. rewrite Zf, Zg in H.
  rewrite (proj2 (Reqb_true z0 z0) eq_refl) in H. replace (Reqb (z0 + h) z0) with false in H by (symmetry; apply Reqb_false; lra).
  assert (Fl : forall q, flip_named pn wp = Ok q -> fst q = pn /\ make_polygon (p_pts (snd q)) None None = Ok (snd q) /\ p_pts (snd q) = rev (wall_over up (f, g))).
  { intros q Q. unfold flip_named in Q. split; [eapply named_name; eauto|]. apply named_made in Q. rewrite Ep in Q. pose proof (wall_made_rev _ _ _ Q) as E. rewrite E. auto. }
  assert (Br : w = (wn, (pn, wp)) \/ exists q, flip_named pn wp = Ok q /\ w = (wn, q)).
  { destruct (adjacent_points [f; g] F 0 [] None) as [|a0 [|a1 l]]; try discriminate. destruct (points_equal f a1 && points_equal g a0); [apply Ok_inj in H; auto|]. destruct (flip_named pn wp) as [q|]; [|discriminate]. cbn [rbind] in H. apply Ok_inj in H. right. exists q. auto. }
  assert (G : fst w = wn /\ fst (snd w) = pn /\ make_polygon (p_pts (snd (snd w))) None None = Ok (snd (snd w)) /\ (p_pts (snd (snd w)) = wall_over up (f, g) \/ p_pts (snd (snd w)) = rev (wall_over up (f, g)))).
  { destruct Br as [->|(q & Q & ->)]; cbn [fst snd]; [rewrite Ep; auto|]. destruct (Fl q Q) as (E1 & E2 & E3). auto. }
  destruct G as (G1 & G2 & G3 & G4). split; auto. split; auto. split; auto. split; auto. intros T ND L.
  split; intros I.
  - rewrite (adjacent_spec F f g [f; g] T ND L I (or_introl eq_refl)) in H. destruct (points_equal f g) eqn:E.
    + exfalso. pose proof (cyc_members F _ I) as (A & B). apply T in E; auto. subst g. destruct (cyc_in _ _ _ I) as [(a & b & X)|[(m & X)|(X & _)]]; subst F; [apply NoDup_remove_2 in ND; apply ND, in_or_app; simpl; auto|inversion ND as [|? ? N]; subst; apply N, in_or_app; simpl; auto|simpl in L; lia].
    + cbn [andb] in H. destruct (flip_named pn wp) as [q|] eqn:Q; [|discriminate]. cbn [rbind] in H. apply Ok_inj in H. subst w. apply Fl; auto.
  - rewrite (adjacent_spec F g f [f; g] T ND L I (or_intror eq_refl)) in H. rewrite !points_equal_refl in H. cbn [andb] in H. apply Ok_inj in H. subst w. auto.
Qed.

(** Inversion of floor_plan. *)
Lemma NoDup_snoc {A} (l : list A) x : NoDup l -> ~ In x l -> NoDup (l ++ [x]).
Proof. intros N I. apply NoDup_rev in N. rewrite <- (rev_involutive (l ++ [x])). apply NoDup_rev. rewrite rev_app_distr. cbn [rev app]. constructor; auto. intros J. apply I. apply in_rev. auto. Qed.
Lemma add_walls_spec ws : forall acc r, NoDup (map fst acc) -> add_walls acc ws = Ok r -> r = acc ++ ws /\ NoDup (map fst r).
Proof.
  induction ws as [|w ws IH]; intros acc r N H; cbn [add_walls] in H; [apply Ok_inj in H; subst; rewrite app_nil_r; auto|].
  destruct (memb (fst w) (map fst acc)) eqn:M; [discriminate|]. apply memb_false in M. apply IH in H; [rewrite <- app_assoc in H; auto|]. rewrite map_app. cbn [map]. apply NoDup_snoc; auto.
Qed.
Lemma add_walls_ok ws : forall acc, NoDup (map fst (acc ++ ws)) -> add_walls acc ws = Ok (acc ++ ws).
Proof.
  induction ws as [|w ws IH]; intros acc N; cbn [add_walls]; [rewrite app_nil_r; auto|]. replace (memb (fst w) (map fst acc)) with false.
  - rewrite IH; rewrite <- app_assoc; auto.
  - symmetry. apply memb_false. intros I. rewrite map_app in N. cbn [map] in N. apply NoDup_remove_2 in N. apply N, in_or_app. auto.
Qed.
Lemma names_length n names wn : plan_wall_names n names = Ok wn -> length wn = n.
Proof.
  unfold plan_wall_names. destruct names as [l|]; [destruct (length l =? n)%nat eqn:E; [|discriminate]; cbn [negb]; apply Nat.eqb_eq in E; destruct (negb _); [discriminate|]; intros H; apply Ok_inj in H; subst; auto|].
  intros H. apply Ok_inj in H. subst. rewrite map_length, seq_length. auto.
Qed.
Lemma Forall2_map_l {A B C} (f : A -> B) (Q : B -> C -> Prop) l r : Forall2 Q (map f l) r <-> Forall2 (fun a => Q (f a)) l r.
Proof. revert r. induction l as [|a l IH]; intros [|c r]; cbn [map]; split; intros H; inversion H; subst; constructor; auto; apply IH; auto. Qed.
Lemma Forall2_comp {A B C} (P : A -> B -> Prop) (Q : B -> C -> Prop) l m r : Forall2 P l m -> Forall2 Q m r -> Forall2 (fun a c => exists b, P a b /\ Q b c) l r.
Proof. intros H. revert r. induction H; intros r' K; inversion K; subst; constructor; eauto. Qed.
Lemma Forall2_weaken {A B} (P Q : A -> B -> Prop) l r : Forall2 P l r -> (forall a b, In a l -> P a b -> Q a b) -> Forall2 Q l r.
Proof. intros H. induction H; intros K; constructor; [apply K; simpl; auto|apply IHForall2; intros; apply K; simpl; auto]. Qed.
Lemma Forall2_map_eq {A B C} (f : A -> C) (g : B -> C) l r : Forall2 (fun a b => g b = f a) l r -> map g r = map f l.
Proof. intros H. induction H; cbn [map]; congruence. Qed.
Lemma map_nth_seq {A} (l : list A) d : map (fun i => nth i l d) (seq 0 (length l)) = l.
Proof.
  apply nth_error_ext. intros i. rewrite nth_error_map. destruct (le_lt_dec (length l) i) as [L|L].
  - rewrite !(proj2 (nth_error_None _ _)) by (rewrite ?seq_length; auto). auto.
  - rewrite (nth_error_nth' (seq 0 (length l)) 0%nat), seq_nth by (rewrite ?seq_length; auto). cbn [option_map]. rewrite (nth_error_nth' l d) by auto. auto.
Qed.
Section Inv.
Context (plan : list (R * R)) (h : R) (tr : vec) (phi : R) (name : str) (names : option (list str)) (fn cn rf rc : str).
Notation FP := (floor_plan plan h tr phi name names fn cn rf rc).
Lemma plan_inv ws : FP = Ok ws -> exists wn t fp cp walls, plan_wall_names (length plan) names = Ok wn /\ move_used tr t /\
  level_polygon fn rf (corners plan 0 t phi) (V 0 0 (-1)) = Ok fp /\ level_polygon cn rc (corners plan h t phi) (V 0 0 1) = Ok cp /\
  ws = walls ++ [(fn, fp); (cn, cp)] /\ NoDup (map fst ws) /\ map fst walls = wn /\ map (fun w => fst (snd w)) walls = wn /\
  Forall2 (fun e w => exists a b wp, make_polygon (wall_over (V 0 0 h) e) None None = Ok wp /\ orient_wall (vz t) (p_pts (snd fp)) (a, (b, wp)) = Ok w) (cyc_pairs (corners plan 0 t phi)) walls.
Proof.
  unfold floor_plan. destruct (plan_wall_names (length plan) names) as [wn|] eqn:W; [|discriminate]. cbn [rbind]. destruct (plan_points plan h tr phi) as [((fl, ce), z0)|] eqn:P; [|discriminate]. cbn [rbind].
  destruct (plan_points_spec _ _ _ _ _ _ _ P) as (t & Mv & Efl & Ece & Ez). destruct (mapM _ (seq 0 (length plan))) as [walls0|] eqn:M1; [|discriminate]. cbn [rbind].
  destruct (level_polygon fn rf fl (V 0 0 (-1))) as [fp|] eqn:Lf; [|discriminate]. cbn [rbind]. destruct (level_polygon cn rc ce (V 0 0 1)) as [cp|] eqn:Lc; [|discriminate]. cbn [rbind].
  unfold make_wall at 1. destruct (validate_name fn) as [fn'|] eqn:Vf; [|discriminate]. cbn [rbind]. unfold make_wall at 1. destruct (validate_name cn) as [cn'|] eqn:Vc; [|discriminate]. cbn [rbind].
  assert (VN : forall s s', validate_name s = Ok s' -> s' = s) by (intros s s' H; unfold validate_name in H; destruct (existsb _ _); [discriminate|apply Ok_inj in H; auto]). apply VN in Vf, Vc. subst fn' cn'.
  destruct (mapM (orient_wall z0 (p_pts (snd fp))) walls0) as [walls|] eqn:M2; [|discriminate]. cbn [rbind]. unfold make_solid. destruct (validate_name name); [|discriminate]. cbn [rbind]. intros H.
  apply add_walls_spec in H; [|constructor]. cbn [app] in H. destruct H as (-> & ND). exists wn, t, fp, cp, walls. split; auto. split; auto. rewrite <- Efl, <- Ece. split; auto. split; auto. split; auto. split; auto.
  apply mapM_Forall2 in M1, M2. pose proof (Forall2_comp _ _ _ _ _ M1 M2) as C. pose proof (names_length _ _ _ W) as Ln.
  assert (Lfl : length fl = length plan) by (rewrite Efl; unfold corners; apply map_length).
  assert (C' : Forall2 (fun i w => exists wp, make_polygon (wall_points fl ce i) None None = Ok wp /\ orient_wall z0 (p_pts (snd fp)) (nth i wn [], (nth i wn [], wp)) = Ok w) (seq 0 (length plan)) walls).
  { refine (Forall2_weaken _ _ _ _ C _). intros i w _ (b & Hb & Ho). destruct (named_polygon (nth i wn []) (wall_points fl ce i)) as [(n1, wp)|] eqn:N; [|discriminate]. cbn [rbind] in Hb. unfold make_wall in Hb. destruct (validate_name (nth i wn [])) as [m|] eqn:V; [|discriminate]. cbn [rbind] in Hb. apply Ok_inj in Hb. subst b. apply VN in V. subst m. pose proof (named_name _ _ _ N) as E. cbn [fst] in E. subst n1. exists wp. split; auto. apply (named_made _ _ _ N). }
  assert (Cyc : Forall2 (fun e w => exists a b wp, make_polygon (wall_over (V 0 0 h) e) None None = Ok wp /\ orient_wall z0 (p_pts (snd fp)) (a, (b, wp)) = Ok w) (cyc_pairs fl) walls).
  { apply (Forall2_map_l (wall_over (V 0 0 h)) (fun pts w => exists a b wp, make_polygon pts None None = Ok wp /\ orient_wall z0 (p_pts (snd fp)) (a, (b, wp)) = Ok w)). rewrite <- walls_over. apply Forall2_map_l. rewrite Lfl. refine (Forall2_weaken _ _ _ _ C' _). intros i w _ (wp & A & B). rewrite Ece, ceiling_up, <- Efl in A. eauto. }
  assert (Or : forall a b wp w, orient_wall z0 (p_pts (snd fp)) (a, (b, wp)) = Ok w -> fst w = a /\ fst (snd w) = b).
  { clear - h; intros a b wp w Ho. unfold orient_wall in Ho. destruct (filter _ _) as [|x [|y l]]; try discriminate. destruct (adjacent_points _ _ _ _ _) as [|a0 [|a1 l1]]; try discriminate. destruct (_ && _); [apply Ok_inj in Ho; subst; auto|]. destruct (flip_named b wp) as [q|] eqn:Q; [|discriminate]. cbn [rbind] in Ho. apply Ok_inj in Ho. subst. split; auto. cbn [fst snd]. apply (named_name _ _ _ Q). }
  subst z0. split; [|split; auto].
  - rewrite <- (map_nth_seq wn []). rewrite Ln. apply Forall2_map_eq. refine (Forall2_weaken _ _ _ _ C' _). intros i w _ (wp & A & B). apply (Or _ _ _ _ B).
  - rewrite <- (map_nth_seq wn []). rewrite Ln. apply (Forall2_map_eq _ (fun w : wall_t => fst (snd w))). refine (Forall2_weaken _ _ _ _ C' _). intros i w _ (wp & A & B). apply (Or _ _ _ _ B).
Qed.
End Inv.
