(** Replacing polygons; rounds of stitching. *)
From Coq Require Import Ascii String Reals List Bool Arith Lia Lra.
From Verif Require Import Prelude TreeModel VecModel VecProofs GeomModel GeomSpec GeomProofs1 GeomProofs2 GeomProofs3 GeomProofs4 TriModel PolyModel PolySpec SolidModel VisModel SliceModel SliceSpec SliceProofs6 PlanProofs3 StitchModel StitchSpec.
Import ListNotations.
Local Open Scope R_scope.

Lemma in_polys s p : In p (polys s) <-> has_poly s p.
Proof.
  unfold polys, walls_and_polys, has_poly. split.
  - intros H. apply in_map_iff in H. destruct H as ((wn, q) & E & H). cbn in E. subst q. apply in_concat in H. destruct H as (l & Hl & H). apply in_map_iff in Hl. destruct Hl as (w & <- & Hw). apply in_map_iff in H. destruct H as (q & E & Hq). injection E as _ ->. eauto.
  - intros (w & Hw & Hp). apply in_map_iff. exists (fst w, p). split; auto. apply in_concat. eexists. split; [apply in_map_iff; exists w; split; [reflexivity|auto]|]. apply in_map_iff. eauto.
Qed.
Lemma count_len s : length (polys s) = count_polys s.
Proof. unfold polys, walls_and_polys, count_polys. rewrite map_length. induction s as [|w s IH]; auto. cbn [map concat]. rewrite app_length, map_length. unfold list_sum in *. cbn [fold_right]. f_equal; exact IH. Qed.

Lemma count_cons wn (w : wall) s : count_polys ((wn, w) :: s) = (length w + count_polys s)%nat.
Proof. reflexivity. Qed.
Lemma in_len {A} (x : A) l : In x l -> (0 < length l)%nat.
Proof. destruct l; [intros []|cbn; lia]. Qed.
(** Adding polygons to a wall. *)
Lemma add_polys_spec news : forall w w' r, add_polys w news = (w', r) ->
  exists done rest, news = done ++ rest /\ w' = w ++ done /\ (NoDup (map fst w) -> NoDup (map fst w')) /\
  ((r = Ok tt /\ rest = []) \/ (r = Err GeometryError /\ exists n l, rest = n :: l /\ In (fst n) (map fst w'))).
Proof.
  induction news as [|n news IH]; intros w w' r; cbn [add_polys].
  - intros H. injection H as <- <-. exists [], []. split; auto. rewrite app_nil_r. repeat split; auto.
  - destruct (memb (fst n) (dkeys w)) eqn:M.
    + intros H. injection H as <- <-. apply memb_true in M. exists [], (n :: news). rewrite app_nil_r. repeat split; auto. right. split; auto. exists n, news. auto.
    + intros H. apply memb_false in M. destruct (IH _ _ _ H) as (done & rest & E & Ew & N & D). exists (n :: done), rest. split; [cbn; congruence|]. split; [rewrite Ew, <- app_assoc; auto|]. split; auto.
      intros Nw. apply N. rewrite map_app. cbn [map]. apply PlanProofs3.NoDup_snoc; auto.
Qed.
Lemma wall_replace_spec w old news w' r : In old (map fst w) -> wall_replace w old news = (w', r) ->
  exists done rest, news = done ++ rest /\ w' = ddel w old ++ done /\ (NoDup (map fst w) -> NoDup (map fst w')) /\
  ((r = Ok tt /\ rest = []) \/ (r = Err GeometryError /\ exists n l, rest = n :: l /\ In (fst n) (map fst w'))).
Proof.
  intros I. unfold wall_replace. rewrite (proj2 (memb_true _ _) I). intros H. destruct (add_polys_spec _ _ _ _ H) as (done & rest & E & Ew & N & D). exists done, rest. repeat split; auto. intros Nw. apply N. apply NoDup_ddel. auto.
Qed.
Lemma ddel_len {V} (w : dict str V) old : In old (map fst w) -> S (length (ddel w old)) = length w.
Proof. induction w as [|(k, v) w IH]; [intros []|]. cbn [map In fst ddel]. destruct (eq_dec old k) as [E|E]; cbn [length]; auto. intros [X|X]; [congruence|]. rewrite IH; auto. Qed.

(** The whole loop, wall by wall. *)
Fixpoint replace_walls (done rest : solid) (old : str) (news : list npoly) : solid * result Datatypes.unit :=
  match rest with
  | [] => (done, Ok tt)
  | (wn, w) :: r =>
      if memb old (map fst w) then
        let '(w', res) := wall_replace w old news in
        match res with Ok _ => replace_walls (done ++ [(wn, w')]) r old news | Err e => (done ++ (wn, w') :: r, Err e) end
      else replace_walls (done ++ [(wn, w)]) r old news
  end.
Lemma dget_mid {V} (done rest : dict str V) k v : NoDup (map fst (done ++ (k, v) :: rest)) -> dget (done ++ (k, v) :: rest) k = Some v.
Proof. intros N. apply dget_in; auto. apply in_or_app. right. left. auto. Qed.
Lemma dset_mid {V} (done rest : dict str V) k v v' : NoDup (map fst (done ++ (k, v) :: rest)) -> dset (done ++ (k, v) :: rest) k v' = done ++ (k, v') :: rest.
Proof.
  induction done as [|(k0, v0) done IH]; cbn [app map fst dset]; [destruct (eq_dec k k); congruence|]. intros N. apply NoDup_cons_iff in N. destruct N as (I & N). destruct (eq_dec k k0) as [->|]; [|rewrite IH; auto]. exfalso. apply I. rewrite map_app. apply in_or_app. right. left. auto.
Qed.
Lemma loop_wall old news wn ps : forall s tail, ~ In old (map fst ps) -> replace_loop s (map (pair wn) ps ++ tail) old news = replace_loop s tail old news.
Proof. induction ps as [|p ps IH]; intros s tail N; cbn [map app replace_loop]; auto. rewrite Prelude.eqb_neq by (intros X; apply N; left; auto). apply IH. intros X. apply N. right. auto. Qed.
Lemma loop_walls old news : forall rest done, NoDup (map fst (done ++ rest)) -> (forall w, In w rest -> NoDup (map fst (snd w))) ->
  replace_loop (done ++ rest) (walls_and_polys rest) old news = replace_walls done rest old news.
Proof.
  induction rest as [|(wn, w) rest IH]; intros done N Nw; [unfold walls_and_polys; cbn; rewrite app_nil_r; auto|].
  unfold walls_and_polys. cbn [map concat fst snd replace_walls]. fold (walls_and_polys rest).
  assert (Step : forall w', replace_loop (done ++ (wn, w') :: rest) (walls_and_polys rest) old news = replace_walls (done ++ [(wn, w')]) rest old news).
  { intros w'. rewrite <- (IH (done ++ [(wn, w')])); [rewrite <- app_assoc; auto| |intros; apply Nw; right; auto]. rewrite <- app_assoc. cbn [app]. rewrite map_app in *. cbn [map fst] in *. auto. }
  destruct (memb old (map fst w)) eqn:M.
  - apply memb_true in M. apply in_map_iff in M. destruct M as (p & Ep & Ip). apply in_split in Ip. destruct Ip as (A & B & ->).
    assert (ND : NoDup (map fst (A ++ p :: B))) by (apply (Nw (wn, A ++ p :: B)); left; auto). rewrite map_app in ND. cbn [map] in ND. apply NoDup_remove in ND. destruct ND as (_ & ND). rewrite Ep in ND.
    rewrite map_app, <- app_assoc. rewrite loop_wall by (intros X; apply ND, in_or_app; auto). cbn [map app replace_loop]. rewrite Ep, Prelude.eqb_refl, dget_mid by auto. destruct (wall_replace _ _ _) as (w', res). rewrite dset_mid by auto. destruct res; auto. rewrite loop_wall by (intros X; apply ND, in_or_app; auto). apply Step.
  - apply memb_false in M. rewrite loop_wall by auto. apply Step.
Qed.
(** One wall before and after. *)
Definition swapped (old : str) (news : list npoly) (w w' : str * wall) : Prop :=
  fst w' = fst w /\ (w' = w \/ In old (map fst (snd w)) /\ exists done rest, news = done ++ rest /\ snd w' = ddel (snd w) old ++ done /\ (NoDup (map fst (snd w)) -> NoDup (map fst (snd w')))).
Lemma swapped_refl old news l : Forall2 (swapped old news) l l.
Proof. induction l; constructor; auto. split; auto. Qed.
Lemma walls_swapped old news : forall rest done s' r, replace_walls done rest old news = (s', r) -> exists rest', s' = done ++ rest' /\ Forall2 (swapped old news) rest rest' /\ (r = Ok tt \/ r = Err GeometryError) /\
  (r = Ok tt -> count_polys rest' = (count_polys rest + (length news - 1) * length (filter (fun w => memb old (map fst (snd w))) rest))%nat \/ news = []).
Proof.
  induction rest as [|(wn, w) rest IH]; intros done s' r; cbn [replace_walls].
  - intros H. injection H as <- <-. exists []. rewrite app_nil_r. repeat split; auto. intros _. left. cbn. lia.
  - destruct (memb old (map fst w)) eqn:M.
    + apply memb_true in M. destruct (wall_replace w old news) as (w', res) eqn:W. destruct (wall_replace_spec w old news w' res M W) as (dn & rs & E & Ew & N & D). destruct res as [|e].
      * intros H. destruct (IH _ _ _ H) as (rest' & Es & F & R & C). exists ((wn, w') :: rest'). rewrite <- app_assoc in Es. split; auto. split; [constructor; auto; split; auto; right; split; auto; exists dn, rs; auto|]. split; auto. intros Er. destruct (C Er) as [C'|C']; auto. destruct news as [|n0 news0]; auto. left. rewrite !count_cons. cbn [filter snd]. rewrite (proj2 (memb_true _ _) M). destruct D as [(_ & ->)|(X & _)]; [|discriminate]. rewrite app_nil_r in E. subst dn. rewrite Ew, app_length. pose proof (ddel_len w old M) as Q. rewrite C', <- Q. clear. change (@length (str * polygon)) with (@length npoly). cbn [length]. generalize (length (ddel w old)) (count_polys rest) (length news0). match goal with |- context [length (filter ?f rest)] => generalize (length (filter f rest)) end. intros k x y z. replace (S z - 1)%nat with z by lia. ring.
      * intros H. injection H as <- <-. exists ((wn, w') :: rest). split; auto. split; [constructor; [split; auto; right; split; auto; exists dn, rs; auto|apply swapped_refl]|]. destruct D as [(X & _)|(X & _)]; [discriminate|]. injection X as ->. split; auto. discriminate.
    + intros H. destruct (IH _ _ _ H) as (rest' & Es & F & R & C). exists ((wn, w) :: rest'). rewrite <- app_assoc in Es. split; auto. split; [constructor; auto; split; auto|]. split; auto. intros Er. destruct (C Er) as [C'|C']; auto. left. rewrite !count_cons. cbn [filter snd]. rewrite M, C'. lia.
Qed.
Lemma replace_eq s old news : unique_names s -> replace_polygon s old news = replace_walls [] s old news.
Proof. intros (N & W). unfold replace_polygon. apply (loop_walls old news s []); auto. Qed.
Lemma replace_refines s old news s' r : unique_names s -> replace_polygon s old news = (s', r) -> (forall q, In q news -> exists p, has_poly s p /\ piece p q) -> refines s s'.
Proof.
  intros U H Q. rewrite replace_eq in H by auto. destruct (walls_swapped _ _ _ _ _ _ H) as (s'' & E & F & _). cbn in E. subst s''.
  assert (K : map fst s' = map fst s) by (clear - F; induction F as [|w w' l l' X F IH]; cbn [map]; auto; destruct X as (X & _); congruence).
  assert (P : forall w', In w' s' -> exists w, In w s /\ swapped old news w w').
  { clear - F. induction F as [|w w' l l' X F IH]; intros v I; [destruct I|]. destruct I as [I|I]; [subst; exists w; split; auto; left; auto|]. destruct (IH _ I) as (w0 & I0 & S). exists w0. split; auto. right. auto. }
  split; auto. split.
  - intros (N & W). split; [rewrite K; auto|]. intros w' Iw. destruct (P _ Iw) as (w & I & Ef & [->|(_ & dn & rs & _ & _ & Nd)]); auto.
  - intros q (w' & Iw & Iq). destruct (P _ Iw) as (w & I & Ef & [->|(_ & dn & rs & En & Ew & _)]).
    + exists q. split; [exists w; auto|]. split; auto. exists []. split; [intros m []|]. cbn. rewrite app_nil_r. auto.
    + rewrite Ew in Iq. apply in_app_or in Iq. destruct Iq as [Iq|Iq]; [|apply Q; rewrite En; apply in_or_app; auto]. exists q. split; [exists w; split; auto; apply (in_ddel _ _ _ Iq)|]. split; auto. exists []. split; [intros m []|]. cbn. rewrite app_nil_r. auto.
Qed.
Lemma replace_grows s old a b s' : unique_names s -> (exists p, has_poly s p /\ fst p = old) -> replace_polygon s old [a; b] = (s', Ok tt) -> (count_polys s < count_polys s')%nat.
Proof.
  intros U (p & (w & Iw & Ip) & Ep) H. rewrite replace_eq in H by auto. destruct (walls_swapped _ _ _ _ _ _ H) as (s'' & E & _ & _ & C). cbn in E. subst s''. destruct (C eq_refl) as [C'|C']; [|discriminate]. cbn [length] in C'.
  assert (L : In w (filter (fun w => memb old (map fst (snd w))) s)) by (apply filter_In; split; auto; apply memb_true, in_map_iff; eauto). rewrite C'. match goal with |- context [length ?l] => assert (0 < length l)%nat by exact (in_len w l L) end. lia.
Qed.

(** Slicing in stitch never flips. *)
Lemma sliced_names rid p pts a b : slice_one rid p pts = Ok (Some (a, b)) -> fst a = fst p ++ str_of "-main" /\ fst b = fst p ++ str_of "-sup" /\ p_vn (snd a) = p_vn (snd p) /\ p_vn (snd b) = p_vn (snd p) /\
  exists ch, slice_polygon (snd p) ch None (Some (fst p ++ str_of "-main")) None (Some (fst p ++ str_of "-sup")) rid rid = Ok (a, b).
Proof.
  unfold slice_one. destruct (add_intersection_points _ _) as [o|]; [|discriminate]. cbn [rbind]. destruct (remove_outside _ _) as [ch|]; [|discriminate]. cbn [rbind]. destruct (_ <? _)%nat; [discriminate|].
  destruct (slice_polygon _ _ _ _ _ _ _ _) as [(x, y)|e] eqn:E; [|destruct e; discriminate]. destruct (slice_polygons _ _ _ _ _ _ _ _ _ _ E) as (o' & ch' & q1 & q2 & _ & _ & _ & V1 & V2 & _).
  unfold face_like. rewrite V1, V2, allclose_refl by (unfold RTOL, ATOL8; lra). cbn [rbind]. intros H. apply Ok_inj in H. injection H as <- <-.
  destruct (slice_parts _ _ _ _ _ _ _ _ _ _ E) as (o2 & ch2 & r1 & r2 & _ & _ & _ & M). destruct (make_polygons_parts _ _ _ _ _ _ _ _ _ _ _ M) as (p1 & p2 & _ & _ & N1 & N2 & _). cbn [or_random] in N1, N2. repeat split; auto. exists ch. exact E.
Qed.
