(** Predefined walls. *)
From Coq Require Import Ascii String Reals List Bool Arith Lia Lra Permutation.
From Verif Require Import Prelude TreeModel IoModel WildProofs2 VecModel VecProofs GeomModel GeomSpec GeomProofs1 GeomProofs2 GeomProofs3 GeomProofs4 GeomProofs5 TriModel TriSpec TriProofs TriProofs2 TriProofs3 PolyModel PolySpec PolyProofs1 PolyProofs2 SolidModel SolidSpec SolidProofs1 SolidProofs2 PlanSpec PlanProofs1 PlanProofs2 PlanProofs3 PlanProofs5 SliceProofs8 PartModel PartSpec.
Import ListNotations.
Local Open Scope R_scope.

Lemma para_area a b c d p : make_polygon [a; b; c; d] None None = Ok p -> vsub c b = vsub d a ->
  p_pts p = [a; b; c; d] /\ unit (p_vn p) /\ 0 < p_area p /\ cross (vsub b a) (vsub d a) = smul (p_area p) (p_vn p).
Proof.
  intros H E. destruct (para_made _ _ _ _ _ H E) as (Ep & U & k & Kp & Ck). destruct (made_triangulated _ _ H) as (_ & A & _).
  assert (Ec : c = vadd b (vsub d a)) by (rewrite <- E; clear; dvec b; dvec c; vunf; f_equal; ring).
  assert (Ak : p_area p = k).
  { rewrite <- A, polygon_area_eq by (rewrite Ep; simpl; lia). assert (A2 : vector_area2 (p_pts p) = smul 2 (cross (vsub b a) (vsub d a))).
    { rewrite Ep, Ec. clear. unfold vector_area2, cyc_pairs. cbn [app combine map fold_right fst snd]. dvec a; dvec b; dvec d; vunf; f_equal; ring. }
    rewrite A2, Ck, !dot_smul_l. unfold unit in U. rewrite U. rewrite Rabs_pos_eq by lra. field. }
  rewrite Ak. auto.
Qed.
Lemma VN s s' : validate_name s = Ok s' -> s' = s.
Proof. intros H. unfold validate_name in H. destruct (existsb _ _); [discriminate|]. apply Ok_inj in H. auto. Qed.

(** Partitions. *)
Lemma part_points_spec plan h tr phi r : part_points plan h tr phi = Ok r -> exists t, move_used tr t /\ r = (corners plan 0 t phi, corners plan h t phi).
Proof.
  destruct plan as [|xy plan].
  - intros H. assert (E : r = ([], [])).
    { unfold part_points in H. cbn [map] in H. destruct (isclose phi 0 RTOL ATOL8); cbn [rbind] in H.
      - destruct (allclose tr vzero RTOL ATOL8); apply Ok_inj in H; auto.
      - unfold rotate_points_around_vector in H. destruct (_ || _); cbn [rbind fst snd] in H; [destruct (allclose tr vzero RTOL ATOL8); apply Ok_inj in H; auto|].
        destruct (rotation_matrix ez phi); [|discriminate]. cbn [rbind fst snd rotate_points map] in H. destruct (allclose tr vzero RTOL ATOL8); apply Ok_inj in H; auto. }
    destruct (allclose tr vzero RTOL ATOL8) eqn:M.
    + exists vzero. split; [left; split; auto; apply move_cases; auto|auto].
    + exists tr. split; [right; split; auto; intros S; apply move_cases in S; congruence|auto].
  - intros H. assert (P : exists z, plan_points (xy :: plan) h tr phi = Ok (fst r, snd r, z)).
    { unfold plan_points. unfold part_points in H. destruct (if isclose phi 0 RTOL ATOL8 then _ else _) as [q|]; [|discriminate]. cbn [rbind] in *. destruct (allclose tr vzero RTOL ATOL8); apply Ok_inj in H; subst r; eauto. }
    destruct P as (z & P). destruct (plan_points_spec _ _ _ _ _ _ _ P) as (t & Mv & E1 & E2 & _). exists t. split; auto. rewrite <- E1, <- E2. destruct r; auto.
Qed.
Lemma part_points_total plan h tr phi : exists r, part_points plan h tr phi = Ok r.
Proof.
  unfold part_points. assert (X : exists q, (if isclose phi 0 RTOL ATOL8 then Ok (map (fun xy => V (fst xy) (snd xy) 0) plan, map (fun xy => V (fst xy) (snd xy) h) plan) else
    do a <- rotate_points_around_vector (map (fun xy => V (fst xy) (snd xy) 0) plan) ez phi; do b <- rotate_points_around_vector (map (fun xy => V (fst xy) (snd xy) h) plan) ez phi; Ok (fst a, fst b)) = Ok q).
  { destruct (isclose phi 0 RTOL ATOL8); eauto. destruct (rotation_ok ez phi unit_ez) as (m & Em). unfold rotate_points_around_vector. destruct (_ || _); cbn [rbind]; eauto. rewrite Em. cbn [rbind]. eauto. }
  destruct X as (q & ->). cbn [rbind]. destruct (allclose _ _ _ _); eauto.
Qed.
Lemma steps_map {A B} (f : A -> B) (l : list A) : steps (map f l) = map (fun e => (f (fst e), f (snd e))) (steps l).
Proof.
  unfold steps. destruct l as [|x l]; auto. cbn [map tl]. revert x. induction l as [|y l IH]; intros x; auto. cbn [map combine fst snd]. f_equal. apply IH.
Qed.
Lemma steps_length {A} (l : list A) : length (steps l) = (length l - 1)%nat.
Proof. unfold steps. rewrite combine_length. destruct l; cbn [length tl]; lia. Qed.
Lemma steps_nth {A} (l : list A) i d : (S i < length l)%nat -> nth_error (steps l) i = Some (nth i l d, nth (S i) l d).
Proof.
  unfold steps. revert i. induction l as [|x l IH]; intros i L; [simpl in L; lia|]. destruct l as [|y l]; [simpl in L; lia|]. cbn [tl combine]. destruct i as [|i]; auto.
  cbn [nth_error]. change (nth_error (combine (y :: l) (tl (y :: l))) i = Some (nth i (y :: l) d, nth (S i) (y :: l) d)). apply IH. simpl in *. lia.
Qed.
Lemma part_walls_over fl up : map (part_wall fl (map (fun p => vadd p up) fl)) (seq 0 (length fl - 1)) = map (wall_over up) (steps fl).
Proof.
  apply nth_error_ext. intros i. rewrite !nth_error_map. destruct (le_lt_dec (length fl - 1) i) as [L|L].
  - rewrite !(proj2 (nth_error_None _ _)); auto; [rewrite steps_length|rewrite seq_length]; auto.
  - rewrite (nth_error_nth' (seq 0 (length fl - 1)) 0%nat), seq_nth by (rewrite ?seq_length; auto). rewrite (steps_nth fl i vzero) by lia. cbn [option_map]. f_equal. unfold part_wall, wall_over. cbn [fst snd plus].
    set (g := fun p => vadd p up). assert (G : forall j, (j < length fl)%nat -> nth j (map g fl) vzero = g (nth j fl vzero)) by (intros j J; rewrite (nth_indep _ vzero (g vzero)) by (rewrite map_length; auto); apply map_nth).
    replace (i + 1)%nat with (S i) by lia. rewrite !G by lia. auto.
Qed.
Lemma wall_name_valid k : validate_name (str_of "wall-" ++ decimal k) = Ok (str_of "wall-" ++ decimal k).
Proof.
  unfold validate_name. rewrite existsb_app. cbn [existsb]. replace (existsb (Ascii.eqb PATH_SEP) (str_of "wall-")) with false by reflexivity. cbn [orb].
  destruct (existsb _ (decimal k)) eqn:E; auto. apply existsb_exists in E. destruct E as (c & I & Ec). apply Ascii.eqb_eq in Ec. subst c. pose proof (proj1 (Forall_forall _ _) (WildProofs2.decimal_digits k) _ I) as D. discriminate.
Qed.
Definition given_names (n : nat) (names : list str) : list str := match names with [] => map (fun i => str_of "wall-" ++ decimal i) (seq 0 n) | _ => names end.
Lemma part_names_spec n names : (names = [] \/ (length names = n /\ NoDup names)) /\ part_names n names = Ok (given_names n names) \/
  ~ (names = [] \/ (length names = n /\ NoDup names)) /\ part_names n names = Err ValueError.
Proof.
  unfold part_names, given_names. destruct names as [|x l]; [left; split; auto|]. destruct (names_spec n (Some (x :: l))) as [(E & _)|(l0 & El & H)]; [discriminate|]. injection El as <-. destruct H as [(L & N & H)|(N & H)].
  - left. tauto.
  - right. split; auto. intros [E|E]; [discriminate|auto].
Qed.
Lemma part_inv plan h tr phi names ws : partition_plan plan h tr phi names = Ok ws -> exists t, move_used tr t /\ (names = [] \/ (length names = length plan /\ NoDup names)) /\
  Forall2 (fun e w => make_polygon (wall_over (V 0 0 h) e) None None = Ok (snd (snd w))) (steps (corners plan 0 t phi)) ws /\
  map fst ws = map (fun i => nth i (given_names (length plan) names) []) (seq 0 (length plan - 1)) /\ map (fun w => fst (snd w)) ws = map fst ws.
Proof.
  intros H. unfold partition_plan in H. destruct (part_names_spec (length plan) names) as [(G & Eg)|(_ & E)]; [|rewrite E in H; discriminate]. rewrite Eg in H. cbn [rbind] in H. destruct (part_points plan h tr phi) as [r|] eqn:P; [|discriminate]. cbn [rbind] in H.
  destruct (part_points_spec _ _ _ _ _ P) as (t & Mv & ->). cbn [fst snd] in H. set (wn := given_names (length plan) names) in *. exists t. split; auto. split; auto. apply mapM_Forall2 in H.
  set (fl := corners plan 0 t phi) in *. assert (Lf : length fl = length plan) by (unfold fl, corners; apply map_length).
  assert (C : Forall2 (fun i w => fst w = nth i wn [] /\ fst (snd w) = nth i wn [] /\ make_polygon (part_wall fl (map (fun p => vadd p (V 0 0 h)) fl) i) None None = Ok (snd (snd w))) (seq 0 (length plan - 1)) ws).
  { refine (Forall2_weaken _ _ _ _ H _). intros i w _ Hb. destruct (named_polygon (nth i wn []) _) as [(n1, wp)|] eqn:N; [|discriminate]. cbn [rbind] in Hb. unfold make_wall in Hb. destruct (validate_name (nth i wn [])) as [m|] eqn:V; [|discriminate]. cbn [rbind] in Hb. apply Ok_inj in Hb. subst w. apply VN in V. subst m.
    pose proof (named_name _ _ _ N) as E. cbn [fst snd] in *. subst n1. split; auto. split; auto. unfold fl. rewrite <- (ceiling_up plan h t phi). apply (named_made _ _ _ N). }
  split; [|split].
  - apply (Forall2_map_l (wall_over (V 0 0 h)) (fun pts w => make_polygon pts None None = Ok (snd (snd w)))). rewrite <- part_walls_over. apply Forall2_map_l. rewrite Lf. refine (Forall2_weaken _ _ _ _ C _). tauto.
  - symmetry. clear - C. induction C; cbn [map]; auto. f_equal; [symmetry; tauto|auto].
  - clear - C. induction C as [|i w l ws (A & B & _)]; cbn [map]; auto. f_equal; [congruence|auto].
Qed.
Lemma nth_prefix {A} (l : list A) d n : (n <= length l)%nat -> map (fun i => nth i l d) (seq 0 n) = firstn n l.
Proof.
  revert n. induction l as [|x l IH]; intros n L; [simpl in L; replace n with 0%nat by lia; auto|]. destruct n; auto. cbn [seq map firstn nth]. f_equal. rewrite <- seq_shift, map_map. cbn [nth]. apply IH. simpl in L. lia.
Qed.
Lemma part_named plan h tr phi names ws : partition_plan plan h tr phi names = Ok ws ->
  map fst ws = firstn (length plan - 1) (match names with [] => map (fun i => str_of "wall-" ++ decimal i) (seq 0 (length plan)) | _ => names end) /\ polygon_names ws = map fst ws /\ length ws = (length plan - 1)%nat.
Proof.
  intros H. destruct (part_inv _ _ _ _ _ _ H) as (t & _ & G & F & E1 & E2). split; [|split; auto].
  - rewrite E1, nth_prefix; auto. destruct names; [unfold given_names; rewrite map_length, seq_length; lia|]. destruct G as [G|(G & _)]; [discriminate|]. unfold given_names. rewrite G. lia.
  - pose proof (f_equal (@length _) E1) as L. rewrite !map_length, seq_length in L. auto.
Qed.
Definition wall_good (h : R) (e : vec * vec) (w : wall_t) : Prop :=
  let p := snd (snd w) in p_pts p = wall_over (V 0 0 h) e /\ unit (p_vn p) /\ vz (p_vn p) = 0 /\ 0 < p_area p /\ p_area p = norm (vsub (snd e) (fst e)) * Rabs h /\
    smul (p_area p) (p_vn p) = cross (vsub (snd e) (fst e)) (V 0 0 h).
Lemma cross_flat u h : vz u = 0 -> norm (cross u (V 0 0 h)) = norm u * Rabs h.
Proof.
  intros E. rewrite <- sqrt_Rsqr_abs. unfold norm. rewrite <- sqrt_mult_alt by (dvec u; vunf; nra). f_equal. unfold Rsqr. dvec u. cbn [vz] in E. subst. vunf. ring.
Qed.
Lemma steps_in {A} (l : list A) a b : In (a, b) (steps l) -> In a l /\ In b l.
Proof. unfold steps. intros H. split; [apply (in_combine_l _ _ _ _ H)|]. apply in_combine_r in H. destruct l; auto. right. auto. Qed.
Lemma corners_z plan t phi p : In p (corners plan 0 t phi) -> vz p = vz t.
Proof. intros I. pose proof (corners_plane plan 0 t phi p I) as E. rewrite dot_ez in E. lra. Qed.
Lemma part_walls plan h tr phi names ws : partition_plan plan h tr phi names = Ok ws -> exists t, move_used tr t /\ Forall2 (wall_good h) (steps (corners plan 0 t phi)) ws.
Proof.
  intros H. destruct (part_inv _ _ _ _ _ _ H) as (t & Mv & _ & F & _ & _). exists t. split; auto. refine (Forall2_weaken _ _ _ _ F _). intros (a, b) w I M. destruct (steps_in _ _ _ I) as (Ia & Ib). apply corners_z in Ia, Ib.
  unfold wall_good. destruct (para_area _ _ _ _ _ M (wall_over_para _ _)) as (Ep & U & Ap & Ec). cbn [fst snd] in *. split; [exact Ep|]. split; [exact U|].
  assert (Ez : cross (vsub b a) (vsub (vadd a (V 0 0 h)) a) = cross (vsub b a) (V 0 0 h)) by (clear; dvec a; dvec b; vunf; f_equal; ring). rewrite Ez in Ec.
  assert (Fl : vz (vsub b a) = 0) by (clear - Ia Ib; dvec a; dvec b; vunf; cbn [vz] in *; lra).
  assert (Z : vz (p_vn (snd (snd w))) = 0). { assert (X : p_area (snd (snd w)) * vz (p_vn (snd (snd w))) = 0). { change (p_area (snd (snd w)) * vz (p_vn (snd (snd w)))) with (vz (smul (p_area (snd (snd w))) (p_vn (snd (snd w))))). rewrite <- Ec. clear. dvec a; dvec b; vunf. ring. } nra. }
  split; auto. split; auto. split; [|symmetry; exact Ec]. rewrite <- cross_flat by auto. rewrite Ec, norm_smul, (unit_norm _ U), Rabs_pos_eq by lra. ring.
Qed.
Lemma part_bad plan h tr phi names : ~ (names = [] \/ (length names = length plan /\ NoDup names)) -> partition_plan plan h tr phi names = Err ValueError.
Proof. intros N. unfold partition_plan. destruct (part_names_spec (length plan) names) as [(G & _)|(_ & ->)]; [tauto|auto]. Qed.
Lemma mapM_ok {A B} (f : A -> result B) l : (forall x, In x l -> exists y, f x = Ok y) -> exists r, mapM f l = Ok r.
Proof.
  induction l as [|x l IH]; intros H; [eexists; reflexivity|]. destruct (H x) as (y & Ey); [left; auto|]. destruct IH as (r & Er); [intros z I; apply H; right; auto|]. exists (y :: r). cbn [mapM]. rewrite Ey. cbn [rbind]. rewrite Er. auto.
Qed.
Lemma para_make f g up a b m n : unit n -> norm (vsub g f) = a -> norm up = b -> dot (vsub g f) up = 0 -> cross (vsub g f) up = smul (a * b) n -> 1 / 1000 <= m -> m <= a <= 5000 * m -> m <= b <= 5000 * m ->
  (forall p, In p (wall_over up (f, g)) -> norm p <= 40000 * m) -> exists p, make_polygon (wall_over up (f, g)) None None = Ok p.
Proof.
  intros U Na Nb P C Hm Ha Hb Hn. assert (E : wall_over up (f, g) = rect f (vsub g f) up). { unfold wall_over, rect. cbn [fst snd]. assert (X : vadd f (vsub g f) = g) by (clear; dvec f; dvec g; vunf; f_equal; ring). rewrite X. auto. }
  rewrite E in *. destruct (rect_make f (vsub g f) up n a b m U Na Nb P C Hm Ha Hb Hn) as (p & Mp & _). eauto.
Qed.
Lemma norm_up h : norm (V 0 0 h) = Rabs h.
Proof. rewrite <- sqrt_Rsqr_abs. unfold norm. f_equal. unfold Rsqr. vunf. ring. Qed.
Lemma part_made plan h tr phi names t : move_used tr t -> (names = [] \/ (length names = length plan /\ NoDup names /\ forall n, In n names -> validate_name n = Ok n)) ->
  part_fits h (corners plan 0 t phi) -> exists ws, partition_plan plan h tr phi names = Ok ws.
Proof.
  intros Mv G (m & Hm & Hh & He & Hp). unfold partition_plan. destruct (part_names_spec (length plan) names) as [(_ & ->)|(N & _)]; [|tauto]. cbn [rbind]. destruct (part_points_total plan h tr phi) as (r & P). rewrite P. cbn [rbind].
  destruct (part_points_spec _ _ _ _ _ P) as (t' & Mv' & ->). assert (t' = t) as -> by (destruct Mv as [(A & ->)|(A & ->)], Mv' as [(B & ->)|(B & ->)]; tauto). cbn [fst snd]. set (fl := corners plan 0 t phi) in *. assert (Lf : length fl = length plan) by (unfold fl, corners; apply map_length).
  apply mapM_ok. intros i I. apply in_seq in I. set (wn := given_names (length plan) names).
  assert (Vi : validate_name (nth i wn []) = Ok (nth i wn [])).
  { assert (Ii : In (nth i wn []) wn). { apply nth_In. unfold wn, given_names. destruct names; [rewrite map_length, seq_length; lia|]. destruct G as [G|(G & _)]; [discriminate|lia]. }
    revert Ii. generalize (nth i wn []). intros s Is. unfold wn, given_names in Is. destruct names as [|x l]; [|destruct G as [G|(_ & _ & G)]; [discriminate|auto]].
    apply in_map_iff in Is. destruct Is as (k & <- & _). apply wall_name_valid. }
  rewrite ceiling_up. fold fl.
  pose proof (f_equal (fun l => nth_error l i) (part_walls_over fl (V 0 0 h))) as W. cbv beta in W. rewrite !nth_error_map in W. rewrite Lf in W.
  rewrite (nth_error_nth' (seq 0 (length plan - 1)) 0%nat), seq_nth in W by (rewrite ?seq_length; lia). cbn [option_map plus] in W. destruct (nth_error (steps fl) i) as [(f, g)|] eqn:Es; [|discriminate]. cbn [option_map] in W.
  match type of W with Some ?a = Some ?b => pose proof (f_equal (fun o => match o with Some x => x | None => a end) W) as W' end. cbv beta iota in W'. rewrite W'. apply nth_error_In in Es. destruct (steps_in _ _ _ Es) as (If & Ig). pose proof (He _ _ Es) as Ha.
  pose proof (corners_z _ _ _ _ If) as Zf. pose proof (corners_z _ _ _ _ Ig) as Zg. assert (Fl : vz (vsub g f) = 0) by (clear - Zf Zg; dvec f; dvec g; vunf; cbn [vz] in *; lra).
  set (a := norm (vsub g f)) in *. set (b := Rabs h) in *. assert (AB : a * b <> 0) by nra. set (c := cross (vsub g f) (V 0 0 h)). assert (Nc : norm c = a * b) by (unfold c, a, b; apply cross_flat; auto).
  assert (Hk : exists p, make_polygon (wall_over (V 0 0 h) (f, g)) None None = Ok p).
  { apply (para_make f g (V 0 0 h) a b m (smul (/ (a * b)) c)); auto.
    - unfold unit. rewrite dot_smul_l, dot_comm, dot_smul_l, <- norm_sq, Nc. field. split; nra.
    - apply norm_up.
    - clear - Fl. dvec f; dvec g; vunf. cbn [vz] in Fl. rewrite Fl. ring.
    - fold c. generalize AB. clear. intros AB. set (k := a * b) in *. clearbody k. dvec c. vunf. f_equal; field; auto.
    - assert (N2 : forall q, In q fl -> norm (vadd q (V 0 0 h)) <= 40000 * m). { intros q Iq. pose proof (norm_triangle q (V 0 0 h)) as T. rewrite norm_up in T. fold b in T. pose proof (Hp _ Iq). lra. }
      intros p [<-|[<-|[<-|[<-|[]]]]]; cbn [fst snd]; auto; [pose proof (Hp _ If)|pose proof (Hp _ Ig)]; lra. }
  destruct Hk as (p & Mp). rewrite (named_ok _ _ _ Vi Mp). cbn [rbind]. unfold make_wall. rewrite Vi. cbn [rbind]. eauto.
Qed.
