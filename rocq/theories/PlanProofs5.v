(** Floor plans: errors and concrete plans. *)
From Coq Require Import Ascii String Reals List Bool Arith Lia Lra ZArith Permutation.
From Verif Require Import Prelude TreeModel IoModel IoProofs VecModel VecProofs GeomModel GeomSpec GeomProofs1 GeomProofs2 GeomProofs3 GeomProofs4 GeomProofs5 TriModel TriSpec TriProofs TriProofs2 TriProofs3 PolyModel PolySpec PolyProofs1 PolyProofs2 PolyProofs3 SolidModel SolidSpec SolidProofs2 PlanSpec PlanProofs1 PlanProofs2 PlanProofs3 PlanProofs4.
Import ListNotations.
Local Open Scope R_scope.

Lemma nodup_length (l : list str) : length (nodup eq_dec l) = length l -> NoDup l.
Proof.
  induction l as [|x l IH]; cbn [nodup]; intros H; [constructor|]. assert (Le : (length (nodup eq_dec l) <= length l)%nat) by (apply NoDup_incl_length; [apply NoDup_nodup|intros y I; apply nodup_In in I; auto]).
  destruct (in_dec eq_dec x l) as [I|I]; cbn [length] in H; [lia|]. constructor; auto.
Qed.
(** Names. *)
Lemma names_spec n names : (names = None /\ plan_wall_names n names = Ok (map (fun i => str_of "wall-" ++ decimal i) (seq 0 n))) \/
  exists l, names = Some l /\ ((length l = n /\ NoDup l /\ plan_wall_names n names = Ok l) \/ (~ (length l = n /\ NoDup l) /\ plan_wall_names n names = Err ValueError)).
Proof.
  destruct names as [l|]; [right; exists l|left]; auto. split; auto. unfold plan_wall_names. destruct (length l =? n)%nat eqn:E; cbn [negb]; [apply Nat.eqb_eq in E|apply Nat.eqb_neq in E; right; split; auto; tauto].
  destruct (length (nodup eq_dec l) =? length l)%nat eqn:D; cbn [negb]; [left|right].
  - apply Nat.eqb_eq, nodup_length in D. auto.
  - split; auto. intros (_ & N). apply Nat.eqb_neq in D. apply D. rewrite nodup_fixed_point; auto.
Qed.
Lemma plan_bad_names plan h tr phi name l fn cn rf rc : ~ (length l = length plan /\ NoDup l) -> floor_plan plan h tr phi name (Some l) fn cn rf rc = Err ValueError.
Proof.
  intros N. unfold floor_plan. destruct (names_spec (length plan) (Some l)) as [(A & _)|(l' & E & [(A & B & _)|(_ & E')])]; [discriminate| |rewrite E'; auto]. injection E as <-. tauto.
Qed.
Lemma plan_empty h tr phi name fn cn rf rc : floor_plan [] h tr phi name None fn cn rf rc = Err ValueError.
Proof. reflexivity. Qed.
(** A wall called like the floor makes the call fail. *)
Lemma plan_name_clash plan h tr phi name l fn cn rf rc ws : In fn l \/ In cn l \/ fn = cn -> floor_plan plan h tr phi name (Some l) fn cn rf rc <> Ok ws.
Proof.
  intros I H. destruct (plan_structure _ _ _ _ _ _ _ _ _ _ _ H) as (wn & t & walls & F & C & W & _ & _ & Nm & ND & _). rewrite Nm in ND. destruct (names_spec (length plan) (Some l)) as [(A & _)|(l' & E & [(_ & _ & E')|(_ & E')])]; [discriminate| |congruence]. injection E as <-. rewrite E' in W. apply Ok_inj in W. subst wn.
  destruct I as [I|[I| ->]].
  - apply NoDup_remove_2 in ND. apply ND, in_or_app. auto.
  - replace (l ++ [fn; cn]) with ((l ++ [fn]) ++ [cn]) in ND by (rewrite <- app_assoc; auto). apply NoDup_remove_2 in ND. apply ND. rewrite app_nil_r. apply in_or_app. auto.
  - apply NoDup_remove_2 in ND. apply ND, in_or_app. simpl. auto.
Qed.

(** Success. *)
Lemma named_ok nm pts p : validate_name nm = Ok nm -> make_polygon pts None None = Ok p -> named_polygon nm pts = Ok (nm, p).
Proof. unfold make_polygon, named_polygon. intros V M. destruct (check_polygon pts); [|discriminate]. cbn [rbind] in *. rewrite V. cbn [rbind]. rewrite M. auto. Qed.
Lemma orient_total z0 h F wn pn wp f g q : make_polygon (wall_over (V 0 0 h) (f, g)) None None = Ok wp -> vz f = z0 -> vz g = z0 -> h <> 0 -> told_apart F -> NoDup F -> (3 <= length F)%nat ->
  In (f, g) (cyc_pairs F) \/ In (g, f) (cyc_pairs F) -> flip_named pn wp = Ok q -> exists w, orient_wall z0 F (wn, (pn, wp)) = Ok w /\ fst w = wn.
Proof.
  intros M Zf Zg Hh T ND L I Q. unfold orient_wall. rewrite (wall_made _ _ _ M). unfold wall_over. cbn [fst snd filter]. cbn [vadd vz]. rewrite Zf, Zg.
  rewrite (proj2 (Reqb_true z0 z0) eq_refl). replace (Reqb (z0 + h) z0) with false by (symmetry; apply Reqb_false; lra).
  destruct I as [I|I]; [rewrite (adjacent_spec F f g [f; g] T ND L I (or_introl eq_refl))|rewrite (adjacent_spec F g f [f; g] T ND L I (or_intror eq_refl))]; destruct (_ && _); [eauto| |eauto|]; rewrite Q; cbn [rbind]; eauto.
Qed.
Section Ok.
Context (plan : list (R * R)) (h : R) (name : str) (names : option (list str)) (fn cn rf rc : str) (wn : list str) (fp cp : str * polygon).
Notation fl := (corners plan 0 vzero 0).
Context (Wn : plan_wall_names (length plan) names = Ok wn) (Nn : NoDup (wn ++ [fn; cn])) (Vn : forall s, In s (name :: fn :: cn :: wn) -> validate_name s = Ok s).
Context (T : told_apart fl) (ND : NoDup fl) (L : (3 <= length plan)%nat) (Hh : h <> 0).
Context (M1 : forall e, In e (cyc_pairs fl) -> exists p, make_polygon (wall_over (V 0 0 h) e) None None = Ok p) (M2 : forall e, In e (cyc_pairs fl) -> exists p, make_polygon (rev (wall_over (V 0 0 h) e)) None None = Ok p).
Context (Lf : level_polygon fn rf fl (V 0 0 (-1)) = Ok fp) (Lc : level_polygon cn rc (corners plan h vzero 0) (V 0 0 1) = Ok cp) (Ef : p_pts (snd fp) = fl \/ p_pts (snd fp) = rev fl).
Lemma corners_zero z : map (fun xy => V (fst xy) (snd xy) z) plan = corners plan z vzero 0.
Proof. unfold corners. apply map_ext. intros (x, y). cbn [fst snd]. unfold place_turn. destruct (Rle_dec _ _) as [|N]; [vunf; f_equal; ring|]. exfalso. apply N. rewrite Rabs_R0. lra. Qed.
Lemma plan_ok : exists ws, floor_plan plan h vzero 0 name names fn cn rf rc = Ok ws.
Proof.
  unfold floor_plan. rewrite Wn. cbn [rbind]. assert (P : plan_points plan h vzero 0 = Ok (fl, corners plan h vzero 0, 0)).
  { unfold plan_points. destruct plan as [|xy plan'] eqn:E; [simpl in L; lia|]. rewrite <- E in *. replace (isclose 0 0 RTOL ATOL8) with true by (symmetry; apply Rleb_true; rewrite Rminus_0_r, Rabs_R0; unfold RTOL, ATOL8; lra). cbn [rbind fst snd].
    replace (allclose vzero vzero RTOL ATOL8) with true by (symmetry; apply allclose_refl; unfold RTOL, ATOL8; lra). cbn [fst snd]. rewrite !corners_zero. auto. }
  rewrite P. cbn [rbind]. clear P. assert (Lfl : length fl = length plan) by (unfold corners; apply map_length). pose proof (names_length _ _ _ Wn) as Lw.
  assert (Mk : forall i, In i (seq 0 (length plan)) -> exists p e, In e (cyc_pairs fl) /\ make_polygon (wall_over (V 0 0 h) e) None None = Ok p /\ (do q <- named_polygon (nth i wn []) (wall_points fl (corners plan h vzero 0) i); make_wall (nth i wn []) q) = Ok (nth i wn [], (nth i wn [], p)) /\ In (nth i wn []) wn).
  { intros i I. apply in_seq in I. pose proof (walls_over fl (V 0 0 h)) as Wo. apply (f_equal (fun l => nth_error l i)) in Wo. rewrite !nth_error_map in Wo. rewrite (nth_error_nth' (seq 0 (length fl)) 0%nat), seq_nth in Wo by (rewrite ?seq_length; lia). cbn [option_map Nat.add] in Wo.
    destruct (nth_error (cyc_pairs fl) i) as [e|] eqn:Ee; [|discriminate]. cbn [option_map] in Wo. apply (f_equal (fun o => match o with Some x => x | None => [] end)) in Wo. cbv beta iota in Wo. apply nth_error_In in Ee. destruct (M1 e Ee) as (p & Mp). exists p, e. split; auto. split; auto. rewrite (ceiling_up plan h). rewrite Wo.
    assert (In (nth i wn []) wn) by (apply nth_In; lia). split; auto. rewrite (named_ok (nth i wn []) _ p); auto; [|apply Vn; simpl; auto]. cbn [rbind]. unfold make_wall. rewrite Vn by (simpl; auto). auto. }
  assert (Q1 : exists ws0, mapM (fun i => do p <- named_polygon (nth i wn []) (wall_points fl (corners plan h vzero 0) i); make_wall (nth i wn []) p) (seq 0 (length plan)) = Ok ws0 /\
    Forall2 (fun i w => exists p e, In e (cyc_pairs fl) /\ make_polygon (wall_over (V 0 0 h) e) None None = Ok p /\ w = (nth i wn [], (nth i wn [], p)) /\ In (nth i wn []) wn) (seq 0 (length plan)) ws0).
  { clear - Mk. induction (seq 0 (length plan)) as [|i l IH]; [exists []; auto|]. destruct (Mk i) as (p & e & A & B & C & D); [simpl; auto|]. destruct IH as (ws0 & E & F); [intros; apply Mk; simpl; auto|]. exists ((nth i wn [], (nth i wn [], p)) :: ws0). cbn [mapM]. rewrite C. cbn [rbind]. rewrite E. cbn [rbind]. split; auto. constructor; auto. exists p, e. auto. }
  destruct Q1 as (ws0 & E0 & F0). rewrite E0. cbn [rbind]. rewrite Lf. cbn [rbind]. rewrite Lc. cbn [rbind]. unfold make_wall. rewrite (Vn fn), (Vn cn) by (simpl; auto). cbn [rbind].
  set (F := p_pts (snd fp)) in *. assert (TF : told_apart F) by (destruct Ef as [-> | ->]; [auto|apply told_rev; auto]). assert (NF : NoDup F) by (destruct Ef as [-> | ->]; [auto|apply NoDup_rev; auto]). assert (LF : (3 <= length F)%nat) by (destruct Ef as [-> | ->]; rewrite ?rev_length; lia).
  assert (Q2 : exists ws1, mapM (orient_wall 0 F) ws0 = Ok ws1 /\ map fst ws1 = map fst ws0).
  { clear E0 Mk. induction F0 as [|i w l ws0 (p & (f, g) & I & Mp & -> & Iw) F0 IH]; [exists []; auto|]. destruct IH as (ws1 & E1 & N1). destruct (M2 _ I) as (q & Mq).
    pose proof (cyc_members _ _ I) as (If & Ig). cbn [fst snd] in If, Ig. pose proof (corners_plane plan 0 vzero 0 f If) as Zf. pose proof (corners_plane plan 0 vzero 0 g Ig) as Zg. rewrite dot_ez in Zf, Zg. unfold vzero in Zf, Zg. cbn [vz] in Zf, Zg. rewrite Rplus_0_l in Zf, Zg.
    destruct (orient_total 0 h F (nth i wn []) (nth i wn []) p f g (nth i wn [], q) Mp Zf Zg Hh TF NF LF) as (w & Ow & Nw).
    - destruct Ef as [-> | ->]; auto. right. apply (Permutation_in (g, f) (Permutation_sym (cyc_pairs_rev fl))). apply in_map_iff. exists (f, g). auto.
    - unfold flip_named. rewrite (wall_made _ _ _ Mp). apply named_ok; auto. apply Vn. simpl; auto.
    - exists (w :: ws1). cbn [mapM]. rewrite Ow. cbn [rbind]. rewrite E1. cbn [rbind map fst]. rewrite N1, Nw. auto. }
  destruct Q2 as (ws1 & E1 & N1). rewrite E1. cbn [rbind]. unfold make_solid. rewrite Vn by (simpl; auto). cbn [rbind]. exists (ws1 ++ [(fn, fp); (cn, cp)]). apply (add_walls_ok (ws1 ++ [(fn, fp); (cn, cp)]) []). cbn [app].
  assert (E : wn = map fst ws0). { rewrite <- (map_nth_seq wn []) at 1. rewrite Lw. symmetry. apply Forall2_map_eq. refine (Forall2_weaken _ _ _ _ F0 _). intros i w _ (p & e & _ & _ & -> & _). auto. }
  rewrite map_app. match goal with |- NoDup (?x ++ _) => replace x with wn by (rewrite E; symmetry; exact N1) end. exact Nn.
Qed.
End Ok.

(** Integer plans. *)
Definition zwall (k : Z) (e : z3 * z3) : list z3 := let up := fun p : z3 => (fst (fst p), snd (fst p), (snd p + k)%Z) in [fst e; snd e; up (snd e); up (fst e)].
Definition zfloor (plan : list (Z * Z)) (k : Z) : list z3 := map (fun p => (fst p, snd p, k)) plan.
Definition zplan (plan : list (Z * Z)) : list (R * R) := map (fun p => (IZR (fst p), IZR (snd p))) plan.
Definition zlevel (pts : list z3) (w : Z) : result (list z3) :=
  do r <- zmake pts; let '(q, _, u) := r in if zeqb u (0, 0, w)%Z then Ok q else do r' <- zmake (rev q); let '(q', _, _) := r' in Ok q'.
Lemma zfloor_at plan k : corners (zplan plan) (IZR k) vzero 0 = map at3 (zfloor plan k).
Proof. rewrite <- corners_zero. unfold zplan, zfloor. rewrite !map_map. apply map_ext. intros (x, y). auto. Qed.
Lemma zwall_at k e : wall_over (V 0 0 (IZR k)) (at3 (fst e), at3 (snd e)) = map at3 (zwall k e).
Proof. destruct e as (((a, b), c), ((a', b'), c')). unfold wall_over, zwall, at3. cbn [fst snd map]. unfold vadd. cbn [vx vy vz]. rewrite !plus_IZR, !Rplus_0_r. auto. Qed.
Lemma zmake_ok pts r : zmake pts = Ok r -> exists p, make_polygon (map at3 pts) None None = Ok p.
Proof. destruct r as ((q, ts), u). intros H. destruct (zmake_spec _ _ _ _ H) as (_ & p & M & _). eauto. Qed.
Lemma zlevel_ok nm rid pts w q : (w = 1 \/ w = -1)%Z -> validate_name nm = Ok nm -> validate_name rid = Ok rid -> zlevel pts w = Ok q -> exists p, level_polygon nm rid (map at3 pts) (V 0 0 (IZR w)) = Ok p /\ p_pts (snd p) = map at3 q.
Proof.
  intros W V1 V2 H. unfold zlevel in H. destruct (zmake pts) as [((q1, ts), u)|] eqn:Z; [|discriminate]. cbn [rbind] in H. destruct (zmake_spec _ _ _ _ Z) as (Iu & p & M & Ep & _ & En). unfold level_polygon. rewrite (named_ok nm _ p V1 M). cbn [rbind snd].
  assert (Q : zeqb u (0, 0, w)%Z = allclose (p_vn p) (V 0 0 (IZR w)) RTOL ATOL8).
  { rewrite En. clear - Iu W. assert (U : forall a b c, In (a, b, c) axes -> ((a = 0 /\ b = 0 /\ (c = 1 \/ c = -1)) \/ a <> 0 \/ b <> 0)%Z) by (intros a b c I; repeat (destruct I as [I|I]; [injection I as <- <- <-; lia|]); destruct I).
    destruct u as ((a, b), c). apply U in Iu. destruct (zeqb (a, b, c) (0, 0, w)%Z) eqn:E.
    - apply zeqb_eq in E. injection E as -> -> ->. symmetry. apply allclose_refl; unfold RTOL, ATOL8; lra.
    - symmetry. apply not_true_iff_false. intros C. destruct Iu as [(-> & -> & Hc)|Iu].
      + change (at3 (0, 0, c)%Z) with (V 0 0 (IZR c)) in C. apply level_close in C; [|destruct Hc as [-> | ->]; auto|destruct W as [-> | ->]; auto]. apply eq_IZR in C. subst c. assert (zeqb (0, 0, w)%Z (0, 0, w)%Z = true) by (apply zeqb_eq; auto). congruence.
      + unfold allclose, isclose, at3, RTOL, ATOL8 in C. cbn [fst snd vx vy vz] in C. rewrite !andb_true_iff, !Rleb_true in C. rewrite !Rminus_0_r, !Rabs_R0 in C. destruct C as ((C1 & C2) & _). rewrite Rabs_Zabs in C1, C2. destruct Iu as [Iu|Iu]; [assert (1 <= IZR (Z.abs a)) by (apply IZR_le; lia)|assert (1 <= IZR (Z.abs b)) by (apply IZR_le; lia)]; lra. }
  rewrite <- Q. destruct (zeqb u (0, 0, w)%Z); [apply Ok_inj in H; subst; eauto|]. destruct (zmake (rev q1)) as [((q2, ts2), u2)|] eqn:Z2; [|discriminate]. cbn [rbind] in H. apply Ok_inj in H. subst q2. destruct (zmake_spec _ _ _ _ Z2) as (_ & p2 & M2 & Ep2 & _). unfold flip_named. rewrite Ep, <- map_rev. rewrite (named_ok rid _ p2 V2 M2). eauto.
Qed.
Definition zlist_eqb (a b : list z3) : bool := (length a =? length b)%nat && forallb (fun e => zeqb (fst e) (snd e)) (combine a b).
Lemma zlist_eqb_eq a b : zlist_eqb a b = true -> a = b.
Proof.
  unfold zlist_eqb. rewrite andb_true_iff, Nat.eqb_eq. revert b. induction a as [|x a IH]; intros [|y b] (L & H); try discriminate; auto. cbn [combine forallb fst snd] in H. apply andb_true_iff in H. destruct H as (E & H). apply zeqb_eq in E. subst. f_equal. apply IH. auto.
Qed.
Definition zplan_check (plan : list (Z * Z)) (k : Z) : bool :=
  forallb small3 (zfloor plan 0) && (3 <=? length plan)%nat && negb (k =? 0)%Z &&
  forallb (fun e => match zmake (zwall k e), zmake (rev (zwall k e)) with Ok _, Ok _ => true | _, _ => false end) (cyc_pairs (zfloor plan 0)) &&
  match zlevel (zfloor plan 0) (-1), zlevel (zfloor plan k) 1 with Ok q, Ok _ => zlist_eqb q (zfloor plan 0) || zlist_eqb q (rev (zfloor plan 0)) | _, _ => false end.
Lemma at3_inj a b : at3 a = at3 b -> a = b.
Proof. destruct a as ((a1, a2), a3), b as ((b1, b2), b3). unfold at3. intros H. injection H as H1 H2 H3. apply eq_IZR in H1, H2, H3. congruence. Qed.
Lemma zplan_ok plan k wn : zplan_check plan k = true -> NoDup plan -> length wn = length plan -> NoDup (wn ++ [str_of "floor"; str_of "ceiling"]) -> forallb (fun s => match validate_name s with Ok _ => true | _ => false end) wn = true ->
  (exists ws, floor_plan (zplan plan) (IZR k) vzero 0 (str_of "s") (Some wn) (str_of "floor") (str_of "ceiling") (str_of "r1") (str_of "r2") = Ok ws) /\
  told_apart (corners (zplan plan) 0 vzero 0) /\ NoDup (corners (zplan plan) 0 vzero 0).
Proof.
  intros C N Lw Nw Vw. unfold zplan_check in C. rewrite !andb_true_iff in C. destruct C as ((((Sm & L) & Hk) & Wl) & Lv). apply Nat.leb_le in L. apply negb_true_iff, Z.eqb_neq in Hk.
  destruct (zlevel (zfloor plan 0) (-1)) as [qf|] eqn:Zf; [|discriminate]. destruct (zlevel (zfloor plan k) 1) as [qc|] eqn:Zc; [|discriminate].
  destruct (zlevel_ok (str_of "floor") (str_of "r1") _ _ _ (or_intror eq_refl) eq_refl eq_refl Zf) as (fp & Lf & Ef). destruct (zlevel_ok (str_of "ceiling") (str_of "r2") _ _ _ (or_introl eq_refl) eq_refl eq_refl Zc) as (cp & Lc & _).
  pose proof (zfloor_at plan 0) as E0. change (IZR 0) with 0 in E0. assert (T : told_apart (corners (zplan plan) 0 vzero 0)) by (rewrite E0; apply at3_apart; auto).
  assert (NF : NoDup (corners (zplan plan) 0 vzero 0)). { rewrite E0. apply FinFun.Injective_map_NoDup; [intros a b; apply at3_inj|]. unfold zfloor. apply FinFun.Injective_map_NoDup; auto. intros (a, b) (c, d) X. cbn [fst snd] in X. congruence. }
  split; [|auto]. assert (We : forall e, In e (cyc_pairs (corners (zplan plan) 0 vzero 0)) -> exists ze, In ze (cyc_pairs (zfloor plan 0)) /\ e = (at3 (fst ze), at3 (snd ze))). { intros e I. rewrite E0, cyc_pairs_map in I. apply in_map_iff in I. destruct I as (ze & <- & I). eauto. }
  assert (Lz : length (zplan plan) = length plan) by (unfold zplan; apply map_length). rewrite forallb_forall in Wl, Vw.
  apply (plan_ok (zplan plan) (IZR k) (str_of "s") (Some wn) (str_of "floor") (str_of "ceiling") (str_of "r1") (str_of "r2") wn fp cp); auto.
  - destruct (names_spec (length (zplan plan)) (Some wn)) as [(A & _)|(l' & E & [(_ & _ & E')|(B & _)])]; [discriminate|injection E as <-; auto|]. exfalso. injection E as <-. apply B. split; [congruence|]. clear - Nw. induction wn as [|x wn IH]; [constructor|]. inversion Nw; subst. constructor; auto. intros I. apply H1, in_or_app. auto.
  - intros s [<-|[<-|[<-|I]]]; try reflexivity. specialize (Vw s I). unfold validate_name in *. destruct (existsb _ _); [discriminate|auto].
  - lia.
  - apply IZR_neq. auto.
  - intros e I. destruct (We e I) as (ze & Iz & ->). rewrite zwall_at. specialize (Wl ze Iz). destruct (zmake (zwall k ze)) as [r|] eqn:Z; [|discriminate]. apply (zmake_ok _ _ Z).
  - intros e I. destruct (We e I) as (ze & Iz & ->). rewrite zwall_at. specialize (Wl ze Iz). destruct (zmake (zwall k ze)) as [r|]; [|discriminate]. destruct (zmake (rev (zwall k ze))) as [r'|] eqn:Z; [|discriminate]. rewrite <- map_rev. apply (zmake_ok _ _ Z).
  - rewrite E0. auto.
  - rewrite zfloor_at. auto.
  - rewrite Ef, E0. apply orb_true_iff in Lv. destruct Lv as [Lv|Lv]; apply zlist_eqb_eq in Lv; rewrite Lv; [left|right]; auto. apply map_rev.
Qed.
Definition six_names : list str := [str_of "a"; str_of "b"; str_of "c"; str_of "d"; str_of "e"; str_of "f"].
Definition lplan : list (Z * Z) := [(3, 4); (0, 4); (0, 0); (5, 0); (5, 2); (3, 2)]%Z.
Definition lplan' : list (Z * Z) := [(0, 4); (0, 0); (5, 0); (5, 2); (3, 2); (3, 4)]%Z.
Ltac nodup := repeat constructor; simpl; intuition discriminate.
Lemma lplan_ok plan : plan = lplan \/ plan = lplan' -> (exists ws, floor_plan (zplan plan) 3 vzero 0 (str_of "s") (Some six_names) (str_of "floor") (str_of "ceiling") (str_of "r1") (str_of "r2") = Ok ws) /\
  told_apart (corners (zplan plan) 0 vzero 0) /\ NoDup (corners (zplan plan) 0 vzero 0).
Proof. intros [-> | ->]; (apply (zplan_ok _ 3%Z); [reflexivity|nodup|reflexivity|nodup|reflexivity]). Qed.
Lemma lplan_shape : vz (vector_area2 (drawn (zplan lplan))) = 32 /\ ~ last_convex (drawn (zplan lplan)) /\ first_convex (drawn (zplan lplan)) /\
  vz (vector_area2 (drawn (zplan lplan'))) = 32 /\ last_convex (drawn (zplan lplan')) /\ first_convex (drawn (zplan lplan')).
Proof.
  unfold last_convex, first_convex, convex_corner, drawn, zplan, lplan, lplan', vector_area2, cyc_pairs. cbn [map rev app last combine fold_right fst snd]. vunf. repeat split; try lra.
Qed.
Lemma plan_volume_refuted : exists plan h ws vol, 0 < h /\ floor_plan plan h vzero 0 (str_of "s") (Some six_names) (str_of "floor") (str_of "ceiling") (str_of "r1") (str_of "r2") = Ok ws /\ ~ closed_surface (outlines ws) /\
  vz (vector_area2 (drawn plan)) / 2 = 16 /\ h = 3 /\ solid_volume (all_polys ws) = Ok vol /\ Rabs (vol - 16) <= 1 / 1000.
Proof.
  destruct (lplan_ok lplan (or_introl eq_refl)) as ((ws & H) & T & N). destruct lplan_shape as (A & NL & _). assert (Mv : move_used vzero vzero) by (left; split; auto; unfold small_move, vzero; cbn [vx vy vz]; rewrite Rabs_R0; lra).
  destruct (plan_closed _ _ _ _ _ _ _ _ _ _ _ H vzero Mv T N) as (C & _). destruct (plan_volume _ _ _ _ _ _ _ _ _ _ _ H vzero Mv T N) as (vol & Ev & _ & V2). exists (zplan lplan), 3, ws, vol. split; [lra|]. split; auto. split; [tauto|]. split; [lra|]. split; auto. split; auto.
  assert (B : ~ (first_convex (drawn (zplan lplan)) /\ last_convex (drawn (zplan lplan)))) by tauto. apply V2 in B. rewrite A in B. unfold vzero in B. cbn [vz] in B. replace (length (zplan lplan)) with 6%nat in B by reflexivity. replace (INR (4 * 6 - 4)) with 20 in B by (simpl; lra). rewrite (Rabs_pos_eq 32) in B by lra. rewrite (Rabs_left (2 * 0 - 3)) in B by lra. replace (32 / 2 * (- (2 * 0 - 3) / 3)) with 16 in B by field. lra.
Qed.
Lemma plan_names plan h tr phi name names fn cn rf rc ws : floor_plan plan h tr phi name names fn cn rf rc = Ok ws -> exists wn, 
  (names = None -> wn = map (fun i => str_of "wall-" ++ decimal i) (seq 0 (length plan))) /\ (forall l, names = Some l -> wn = l) /\ length wn = length plan /\
  map fst ws = wn ++ [fn; cn] /\ NoDup (map fst ws) /\ (polygon_names ws = wn ++ [fn; rc] \/ polygon_names ws = wn ++ [rf; cn]).
Proof.
  intros H. destruct (plan_structure _ _ _ _ _ _ _ _ _ _ _ H) as (wn & t & walls & F & C & W & _ & _ & Nm & ND & _ & _ & _ & _ & P). exists wn. pose proof (names_length _ _ _ W).
  destruct (names_spec (length plan) names) as [(-> & E)|(l & -> & [(A & B & E)|(A & E)])]; rewrite E in W; [| |discriminate]; apply Ok_inj in W; subst wn; repeat split; auto; try discriminate; intros; congruence.
Qed.
Lemma plan_shape plan h tr phi name names fn cn rf rc ws : floor_plan plan h tr phi name names fn cn rf rc = Ok ws -> exists t walls F C, move_used tr t /\
  (3 <= length plan)%nat /\ outlines ws = walls ++ [F; C] /\
  Forall2 (fun e w => w = wall_over (V 0 0 h) e \/ w = rev (wall_over (V 0 0 h) e)) (cyc_pairs (corners plan 0 t phi)) walls /\
  (F = corners plan 0 t phi \/ F = rev (corners plan 0 t phi)) /\ (C = corners plan h t phi \/ C = rev (corners plan h t phi)).
Proof. intros H. destruct (plan_structure _ _ _ _ _ _ _ _ _ _ _ H) as (wn & t & walls & F & C & W & Mv & L & Nm & ND & O & Fo & HF & HC & P). exists t, walls, F, C. auto 10. Qed.
