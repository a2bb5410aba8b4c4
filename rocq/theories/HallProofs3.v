(** Floor plans: an example. *)
From Coq Require Import Ascii String Reals List ZArith Bool Arith Lia Lra Psatz Permutation.
From Verif Require Import Prelude TreeModel VecModel VecProofs GeomModel GeomSpec GeomProofs1 GeomProofs3 GeomProofs4 TriModel TriSpec PolyModel PolySpec PolyProofs1 PolyProofs2 SolidModel SolidSpec CrossSpec CrossProofs2 InsideSpec InsideProofs1 InsideProofs2 InsideProofs3 RoomSpec PlanSpec PlanProofs2 PlanProofs3 PlanProofs4 PlanProofs5
  WindSpec WindProofs6 LoopSpec LoopProofs7 ShellSpec HallSpec HallProofs1 HallProofs2.
Import ListNotations.
Local Open Scope R_scope.

Definition zside (r : list z3 * list tri * z3) : face * vec * R := let '(q, ts, u) := r in (map at3 q, ts, at3 u, - dot (at3 u) (hd vzero (map at3 q))).
Lemma zside_made pts r p : zmake pts = Ok r -> make_polygon (map at3 pts) None None = Ok p -> face_of p = zside r.
Proof. destruct r as ((q, ts), u). intros Z M. destruct (zmake_spec _ _ _ _ Z) as (_ & p' & M' & E1 & E2 & E3). rewrite M' in M. apply Ok_inj in M. subst p'. unfold face_of, zside. rewrite E1, E2, E3. auto. Qed.
Lemma named_made nm pts r : named_polygon nm pts = Ok r -> make_polygon pts None None = Ok (snd r).
Proof.
  unfold named_polygon, make_polygon. destruct (check_polygon pts); [|discriminate]. cbn [rbind]. unfold validate_name. destruct (existsb _ _); [discriminate|]. cbn [rbind]. destruct (build_polygon pts None None); [|discriminate]. cbn [rbind]. intros H. apply Ok_inj in H. subst. auto.
Qed.
Lemma zlevel_made nm rid pts w p q ts u r : level_polygon nm rid (map at3 pts) w = Ok p -> zmake pts = Ok (q, ts, u) -> zmake (rev q) = Ok r -> face_of (snd p) = zside (q, ts, u) \/ face_of (snd p) = zside r.
Proof.
  unfold level_polygon. intros L Z Z'. destruct (named_polygon nm (map at3 pts)) as [p0|] eqn:N; [|discriminate]. cbn [rbind] in L. apply named_made in N. destruct (allclose _ _ _ _); [left; apply Ok_inj in L; subst p; exact (zside_made _ _ _ Z N)|right].
  unfold flip_named in L. apply named_made in L. destruct (zmake_spec _ _ _ _ Z) as (_ & p' & M' & E1 & _). rewrite M' in N. apply Ok_inj in N. subst p'. rewrite E1, <- map_rev in L. exact (zside_made _ _ _ Z' L).
Qed.
(** Sound faces. *)
Definition zcr (a b c : z3) : z3 :=
  let '(a1, a2, a3) := a in let '(b1, b2, b3) := b in let '(c1, c2, c3) := c in
  ((b2 - a2) * (c3 - a3) - (b3 - a3) * (c2 - a2), (b3 - a3) * (c1 - a1) - (b1 - a1) * (c3 - a3), (b1 - a1) * (c2 - a2) - (b2 - a2) * (c1 - a1))%Z.
Lemma zcr_at a b c : cross (vsub (at3 b) (at3 a)) (vsub (at3 c) (at3 a)) = at3 (zcr a b c).
Proof. destruct a as ((a1, a2), a3), b as ((b1, b2), b3), c as ((c1, c2), c3). unfold at3, zcr. vunf. rewrite !minus_IZR, !mult_IZR, !minus_IZR. auto. Qed.
Definition zd2 (a b : z3) : Z := let '(a1, a2, a3) := a in let '(b1, b2, b3) := b in ((b1 - a1) * (b1 - a1) + (b2 - a2) * (b2 - a2) + (b3 - a3) * (b3 - a3))%Z.
Lemma zd2_at a b : dot (vsub (at3 b) (at3 a)) (vsub (at3 b) (at3 a)) = IZR (zd2 a b).
Proof. destruct a as ((a1, a2), a3), b as ((b1, b2), b3). unfold at3, zd2. vunf. rewrite !plus_IZR, !mult_IZR, !minus_IZR. auto. Qed.
Definition zbig (a b c : z3) : bool := (0 <? zdot (zcr a b c) (zcr a b c))%Z.
Lemma z_big a b c : zbig a b c = true -> 1 <= 2 * true_area (at3 a) (at3 b) (at3 c).
Proof.
  unfold zbig, true_area. intros H. apply Z.ltb_lt in H. rewrite zcr_at. replace (2 * (norm (at3 (zcr a b c)) / 2)) with (norm (at3 (zcr a b c))) by field. unfold norm. rewrite <- sqrt_1. apply sqrt_le_1_alt. rewrite at3_dot. apply IZR_le. lia.
Qed.
Definition zoff (a b c : z3) : bool := zbig a b c && (0 <? zd2 a b)%Z && (0 <? zd2 a c)%Z && (zd2 a b * zd2 a c <? 100000000 * zdot (zcr a b c) (zcr a b c))%Z.
Lemma z_off a b c : zoff a b c = true -> off_edge (at3 a) (at3 b) (at3 c).
Proof.
  unfold zoff, zbig. rewrite !andb_true_iff, !Z.ltb_lt. intros (((H1 & H2) & H3) & H4). apply off_edge_sq; rewrite ?zcr_at, ?zd2_at, ?at3_dot.
  - apply IZR_lt in H4. rewrite !mult_IZR in H4. lra.
  - assert (1 <= IZR (zd2 a b)) by (apply IZR_le; lia). lra.
  - assert (1 <= IZR (zd2 a c)) by (apply IZR_le; lia). lra.
  - assert (1 <= IZR (zdot (zcr a b c) (zcr a b c))) by (apply IZR_le; lia). lra.
Qed.
Definition zsound (r : list z3 * list tri * z3) : bool :=
  let '(q, ts, u) := r in
  match q with
  | a :: b :: c :: _ => (zdot u u =? 1)%Z && forallb (fun p => (zdot u p =? zdot u a)%Z) q && negb (zdot u (739, 239, 113) =? 0)%Z && zbig (last q a) a b && zbig a b c && zoff a b c &&
      forallb (fun t => let '(i, j, k) := t in match nth_error q i, nth_error q j, nth_error q k with Some x, Some y, Some z => zbig x y z | _, _, _ => false end) ts
  | _ => false
  end.
Lemma last_map (A B : Type) (f : A -> B) l a : last (map f l) (f a) = f (last l a).
Proof. induction l as [|x [|y l] IH]; auto. Qed.
Lemma z_sound r f n d : zsound r = true -> zside r = (f, n, d) -> sound_face f n d.
Proof.
  destruct r as ((q, ts), u). unfold zsound, zside. destruct q as [|a [|b [|c q0]]] eqn:Eq; try discriminate. rewrite <- Eq. rewrite !andb_true_iff. intros ((((((U & P) & S) & B1) & B2) & O) & T) E. injection E as <- <- <-.
  apply Z.eqb_eq in U. apply negb_true_iff, Z.eqb_neq in S. rewrite forallb_forall in P, T. split; [unfold unit; rewrite at3_dot, U; auto|]. cbn [fst snd]. split; [|split; [|split]].
  - intros p I. apply in_map_iff in I. destruct I as (x & <- & I). specialize (P x I). apply Z.eqb_eq in P. unfold on_plane. rewrite Eq. cbn [map hd]. rewrite !at3_dot, P. ring.
  - intros ((i, j), k) I. specialize (T _ I). cbn iota in T. destruct (nth_error q i) as [x|] eqn:Ei; [|discriminate]. destruct (nth_error q j) as [y|] eqn:Ej; [|discriminate]. destruct (nth_error q k) as [z|] eqn:Ek; [|discriminate].
    exists (at3 x), (at3 y), (at3 z). split; [split; [|split]; rewrite nth_error_map, ?Ei, ?Ej, ?Ek; auto|]. pose proof (z_big _ _ _ T). lra.
  - replace sight with (at3 (739, 239, 113)%Z) by reflexivity. rewrite at3_dot, Rabs_Zabs. assert (1 <= IZR (Z.abs (zdot u (739, 239, 113)%Z))) by (apply IZR_le; lia). lra.
  - exists (at3 a), (at3 b), (at3 c), (map at3 q0). rewrite last_map. rewrite Eq at 1. split; auto. split; [pose proof (z_big _ _ _ B1); lra|]. split; [pose proof (z_big _ _ _ B2); lra|]. apply z_off; auto.
Qed.
(** The L-shaped plan that makes an open surface. *)
Definition lfaces : list (list z3 * list tri * z3) :=
  ([([(3, 4, 3); (0, 4, 3); (0, 4, 0); (3, 4, 0)], [(3, 0, 1); (3, 1, 2)]%nat, (0, -1, 0));
   ([(0, 4, 3); (0, 0, 3); (0, 0, 0); (0, 4, 0)], [(3, 0, 1); (3, 1, 2)]%nat, (1, 0, 0));
   ([(0, 0, 3); (5, 0, 3); (5, 0, 0); (0, 0, 0)], [(3, 0, 1); (3, 1, 2)]%nat, (0, 1, 0));
   ([(5, 0, 3); (5, 2, 3); (5, 2, 0); (5, 0, 0)], [(3, 0, 1); (3, 1, 2)]%nat, (-1, 0, 0));
   ([(5, 2, 3); (3, 2, 3); (3, 2, 0); (5, 2, 0)], [(3, 0, 1); (3, 1, 2)]%nat, (0, -1, 0));
   ([(3, 2, 3); (3, 4, 3); (3, 4, 0); (3, 2, 0)], [(3, 0, 1); (3, 1, 2)]%nat, (-1, 0, 0));
   ([(3, 4, 0); (0, 4, 0); (0, 0, 0); (5, 0, 0); (5, 2, 0); (3, 2, 0)], [(5, 0, 1); (5, 1, 2); (5, 2, 3); (5, 3, 4)]%nat, (0, 0, 1));
   ([(3, 4, 3); (0, 4, 3); (0, 0, 3); (5, 0, 3); (5, 2, 3); (3, 2, 3)], [(5, 0, 1); (5, 1, 2); (5, 2, 3); (5, 3, 4)]%nat, (0, 0, 1))])%Z.
Definition lsides : list (face * vec * R) := map zside lfaces.
Definition lhall (ws : list wall_t) : Prop := floor_plan (zplan lplan) 3 vzero 0 (str_of "s") (Some six_names) (str_of "floor") (str_of "ceiling") (str_of "r1") (str_of "r2") = Ok ws.
Lemma still : move_used vzero vzero.
Proof. left. split; auto. unfold small_move, vzero. cbn [vx vy vz]. rewrite Rabs_R0. lra. Qed.
Lemma lhall_sides ws : lhall ws -> sides_of ws = lsides.
Proof.
  intros H. destruct (lplan_ok lplan (or_introl eq_refl)) as (_ & Ta & Nd). destruct lplan_shape as (Sh & _).
  destruct (plan_inv _ _ _ _ _ _ _ _ _ _ _ H) as (wn & t & fp & cp & walls & W & Mv & Lf & Lc & Ew & _). destruct (plan_facts _ _ _ _ _ _ _ _ _ _ _ H) as (wn' & t' & fp' & cp' & walls' & vf & vc & W' & Mv' & Ew' & Fa).
  assert (t = vzero) as -> by (destruct Mv as [(_ & ->)|(B & _)]; auto; exfalso; apply B; unfold small_move, vzero; cbn [vx vy vz]; rewrite Rabs_R0; lra). assert (t' = vzero) as -> by (destruct Mv' as [(_ & ->)|(B & _)]; auto; exfalso; apply B; unfold small_move, vzero; cbn [vx vy vz]; rewrite Rabs_R0; lra).
  assert (walls' = walls /\ fp' = fp /\ cp' = cp) as (-> & -> & ->). { rewrite Ew in Ew'. change [(str_of "floor", fp); (str_of "ceiling", cp)] with ([(str_of "floor", fp)] ++ [(str_of "ceiling", cp)]) in Ew'. change [(str_of "floor", fp'); (str_of "ceiling", cp')] with ([(str_of "floor", fp')] ++ [(str_of "ceiling", cp')]) in Ew'. rewrite !app_assoc in Ew'. apply app_inj_tail in Ew'. destruct Ew' as (E1 & E2). apply app_inj_tail in E1. destruct E1 as (E1 & E3). injection E2 as <-. injection E3 as <-. auto. }
  destruct Fa as (_ & _ & _ & _ & _ & _ & _ & _ & _ & _ & Ef & _ & _ & _ & _ & _ & _ & _ & _ & _ & Fo).
  pose proof (zfloor_at lplan 0) as E0. change (IZR 0) with 0 in E0. pose proof (zfloor_at lplan 3) as E3. change (IZR 3) with 3 in E3. rewrite E0 in Lf. rewrite E3 in Lc.
  assert (Ff : face_of (snd fp) = zside (nth 6 lfaces ([], [], (0, 0, 0)%Z))) by (destruct (zlevel_made _ _ _ _ _ _ _ _ _ Lf eq_refl eq_refl) as [E|E]; exact E).
  assert (Fc : face_of (snd cp) = zside (nth 7 lfaces ([], [], (0, 0, 0)%Z))) by (destruct (zlevel_made _ _ _ _ _ _ _ _ _ Lc eq_refl eq_refl) as [E|E]; exact E).
  assert (vf = 1). { injection Ff as _ _ E _. rewrite Ef in E. unfold at3 in E. cbn in E. injection E. auto. } subst vf.
  assert (Fw : Forall2 (fun e w => make_polygon (rev (wall_over (V 0 0 3) e)) None None = Ok (snd (snd w))) (cyc_pairs (corners (zplan lplan) 0 vzero 0)) walls).
  { clear -Fo Sh Ta Nd. cbn zeta in Fo. rewrite Sh in Fo. revert Fo. generalize (cyc_pairs (corners (zplan lplan) 0 vzero 0)). intros es Fo. induction Fo as [|e w es l (A & _ & C) F IH]; constructor; auto. destruct (C Ta Nd) as (C1 & _). rewrite <- C1 by lra. exact A. }
  rewrite E0, cyc_pairs_map in Fw. unfold lsides, sides_of. rewrite Ew, map_app. change (map (fun w : wall_t => face_of (snd (snd w))) walls ++ [face_of (snd fp); face_of (snd cp)] = map zside lfaces). rewrite Ff, Fc.
  assert (G : forall es ws0 rs, Forall2 (fun e w => make_polygon (rev (wall_over (V 0 0 3) e)) None None = Ok (snd (snd w))) (map (fun e : z3 * z3 => (at3 (fst e), at3 (snd e))) es) ws0 -> mapM (fun e => zmake (rev (zwall 3 e))) es = Ok rs ->
    map (fun w : wall_t => face_of (snd (snd w))) ws0 = map zside rs).
  { clear. intros es. induction es as [|e es IH]; intros ws0 rs Fw M; cbn [map] in Fw; inversion Fw as [|? w ? ws1 A B]; subst; cbn [mapM] in M; cbn [map].
    - apply Ok_inj in M. subst. auto.
    - destruct (zmake (rev (zwall 3 e))) as [r|] eqn:Z; [|discriminate]. cbn [rbind] in M. destruct (mapM _ es) as [rs'|] eqn:M'; [|discriminate]. cbn [rbind] in M. apply Ok_inj in M. subst rs. cbn [map].
      pose proof (zwall_at 3 e) as Ze. change (IZR 3) with 3 in Ze. rewrite Ze, <- map_rev in A. apply f_equal2; [exact (zside_made _ _ _ Z A)|]. apply IH; auto. }
  rewrite (G (cyc_pairs (zfloor lplan 0)) walls (firstn 6 lfaces) Fw eq_refl). reflexivity.
Qed.
Lemma lsides_ok : ok_faces lsides.
Proof. intros f n d I. unfold lsides in I. apply in_map_iff in I. destruct I as (r & E & I). apply (z_sound r f n d); auto. assert (X : forallb zsound lfaces = true) by reflexivity. rewrite forallb_forall in X. auto. Qed.
(** A point in it and one in its notch. *)
Definition guest : vec := V (7 / 2) (1 / 2) 1.
Definition niche : vec := V 4 3 1.
Ltac ahead k := exists k; split; [unfold on_plane, ray, sight, guest, niche, at3; cbn [fst snd hd map]; vunf; lra|].
Ltac behind k := ahead k; left; lra.
Ltac over c := right; left; exists c; split; [simpl; auto|]; left; cbn [fst map at3]; let v := fresh in intros v Iv; repeat (destruct Iv as [<-|Iv]; [unfold ray, guest, niche, sight, at3; cbn [fst snd]; vunf; lra|]); destruct Iv.
Lemma guest_seen : seen_well guest lsides [false; false; false; true; false; false; false; false].
Proof.
  unfold lsides, lfaces. cbn [map zside]. repeat first [apply Forall2_nil|apply Forall2_cons].
  - ahead (7 / 478). over vx.
  - behind (- (7 / 1478)).
  - behind (- (1 / 478)).
  - exists (3 / 1478). split; [lra|]. exists (3, 1, 2)%nat, (at3 (5, 0, 0)%Z), (at3 (5, 2, 3)%Z), (at3 (5, 2, 0)%Z). split; [simpl; auto|]. split; [split; [reflexivity|split; reflexivity]|].
    split; [|split; [|split]; apply off_edge_sq; unfold at3, ray, sight, guest; cbn [fst snd]; vunf; lra].
    set (q := ray guest (3 / 1478)). exists (1 - vy q / 2), (vz q / 3), (vy q / 2 - vz q / 3). unfold q, bary, ray, sight, guest, at3. cbn [fst snd]. vunf. repeat (split; [lra|]). f_equal; lra.
  - ahead (3 / 478). over vx.
  - behind (- (1 / 1478)).
  - behind (- (1 / 113)).
  - ahead (2 / 113). over vx.
Qed.
Lemma niche_seen : seen_well niche lsides [false; false; false; false; false; false; false; false].
Proof.
  unfold lsides, lfaces. cbn [map zside]. repeat first [apply Forall2_nil|apply Forall2_cons].
  - ahead (1 / 239). over vx.
  - behind (- (4 / 739)).
  - behind (- (3 / 239)).
  - ahead (1 / 739). over vy.
  - behind (- (1 / 239)).
  - behind (- (1 / 739)).
  - behind (- (1 / 113)).
  - ahead (2 / 113). over vx.
Qed.
Ltac off_all := unfold lsides, lfaces; cbn [map zside]; let f := fresh in let n := fresh in let d := fresh in let I := fresh in intros f n d I;
  repeat (destruct I as [I|I]; [injection I as <- <- <-; left; unfold guest, niche, at3; cbn [fst snd hd map]; vunf; unfold Rabs; destruct (Rcase_abs _); lra|]); destruct I.
Lemma guest_off f n d : In (f, n, d) lsides -> off_face guest f n d.
Proof. revert f n d. off_all. Qed.
Lemma niche_off f n d : In (f, n, d) lsides -> off_face niche f n d.
Proof. revert f n d. off_all. Qed.
Lemma lfloor : corners (zplan lplan) 0 vzero 0 = map at3 (zfloor lplan 0).
Proof. exact (zfloor_at lplan 0). Qed.
Lemma lfloor_simple : simple_outline (corners (zplan lplan) 0 vzero 0).
Proof. rewrite lfloor. apply (z_simple (0, 0, 1)%Z [(1, 0, 0); (0, 1, 0)]%Z). reflexivity. Qed.
Ltac off_outline := rewrite lfloor; intros ((a, b) & I & s & T & E); cbn [fst snd] in E; cbn in I;
  repeat (destruct I as [I|I]; [injection I as <- <-; unfold foot, seg_point, guest, niche, at3 in E; cbn [fst snd vx vy vz vzero] in E; revert E; vunf; intros E; injection E as E1 E2 E3; lra|]); destruct I.
Lemma guest_foot : ~ on_outline (corners (zplan lplan) 0 vzero 0) (foot (vz vzero) guest).
Proof. off_outline. Qed.
Lemma niche_foot : ~ on_outline (corners (zplan lplan) 0 vzero 0) (foot (vz vzero) niche).
Proof. off_outline. Qed.
Ltac turns := rewrite lfloor; unfold winding, zfloor, lplan; cbn [map]; unfold cyc_pairs; cbn [app combine tl hd map zsum fold_right]; unfold edge_turn, left_of, foot, guest, niche, at3, ez; cbn [fst snd vx vy vz vzero]; vunf;
  repeat match goal with |- context [Rle_dec ?x ?y] => destruct (Rle_dec x y); try (exfalso; lra) | |- context [Rlt_dec ?x ?y] => destruct (Rlt_dec x y); try (exfalso; lra) end; try reflexivity.
Lemma guest_turns : winding ez (V 1 0 0) (foot (vz vzero) guest) (corners (zplan lplan) 0 vzero 0) = 1%Z.
Proof. turns. Qed.
Lemma niche_turns : winding ez (V 1 0 0) (foot (vz vzero) niche) (corners (zplan lplan) 0 vzero 0) = 0%Z.
Proof. turns. Qed.
