(** Volumes of solids read from files; examples. *)
From Coq Require Import ZArith Ascii String Reals List Bool Arith Lia Lra Psatz.
From Verif Require Import  Prelude TreeModel VecModel VecProofs GeomModel GeomSpec GeomProofs1 GeomProofs2 GeomProofs3 GeomProofs4 TriModel TriSpec TriProofs TriProofs2 TriProofs3 PolyModel PolySpec PolyProofs1 PolyProofs2 SolidModel SolidSpec SolidProofs2 PlanSpec PlanProofs1 GeomProofs3 LoadModel LoadSpec LoadProofs PolyProofs3 GeomProofs5.
Import ListNotations.
Local Open Scope R_scope.

Lemma parts_same p : loaded_parts (as_it_was p) = polygon_volume (shape p).
Proof. reflexivity. Qed.
Lemma mapM_map {A B C} (f : B -> result C) (g : A -> B) l : mapM f (map g l) = mapM (fun x => f (g x)) l.
Proof. induction l as [|x l IH]; cbn [map mapM]; auto. rewrite IH. auto. Qed.
Lemma volume_as_it_was ps : loaded_volume (map as_it_was ps) = solid_volume (map shape ps).
Proof. unfold loaded_volume, solid_volume. rewrite !mapM_map. reflexivity. Qed.
Lemma volume_same ps ls : (forall p, In p ps -> starts_well p) -> mapM (fun p => load_polygon (p_pts p) (p_tri p)) ps = Ok ls ->
  ls = map as_it_was ps /\ loaded_volume ls = solid_volume (map shape ps).
Proof.
  intros H M. assert (E : ls = map as_it_was ps).
  { revert ls M. induction ps as [|p ps IH]; intros ls M; cbn [mapM map] in *; [apply Ok_inj in M; auto|].
    destruct (H p) as (pts & vn0 & c & A & B & C & D); [simpl; auto|]. rewrite (proj1 (loaded_cases _ _ _ _ A B C) D) in M. cbn [rbind] in M.
    destruct (mapM _ ps) as [l|] eqn:E; [|discriminate]. cbn [rbind] in M. apply Ok_inj in M. subst ls. f_equal. apply IH; auto. intros q I. apply H. simpl. auto. }
  split; auto. rewrite E. apply volume_as_it_was.
Qed.

Lemma mapM_post {A B C} (f : A -> result B) (g : A -> result C) (h : B -> C) l : (forall x, In x l -> g x = do y <- f x; Ok (h y)) -> mapM g l = do ys <- mapM f l; Ok (map h ys).
Proof.
  induction l as [|x l IH]; intros H; cbn [mapM]; auto. rewrite H by (simpl; auto). rewrite IH by (intros; apply H; simpl; auto).
  destruct (f x); cbn [rbind]; auto. destruct (mapM f l); cbn [rbind]; auto.
Qed.
Lemma mapM_ext {A B} (f g : A -> result B) l : (forall x, In x l -> f x = g x) -> mapM f l = mapM g l.
Proof. induction l as [|x l IH]; intros H; cbn [mapM]; auto. rewrite H by (simpl; auto). rewrite IH by (intros; apply H; simpl; auto). auto. Qed.
Lemma tri_pts_in pts t a b c : tri_pts pts t = Ok (a, b, c) -> In a pts /\ In b pts /\ In c pts.
Proof.
  destruct t as ((i, j), k). unfold tri_pts. destruct (nth_error pts i) eqn:E1, (nth_error pts j) eqn:E2, (nth_error pts k) eqn:E3; try discriminate.
  intros H. apply Ok_inj in H. injection H as <- <- <-. repeat split; eapply nth_error_In; eauto.
Qed.
Lemma turned_parts p c : in_plane (p_vn p) c (p_pts p) -> c <> 0 -> loaded_parts (turned_round p) = do v <- polygon_volume (shape p); Ok (map Ropp v).
Proof.
  intros P C. unfold loaded_parts, turned_round, polygon_volume, shape. cbn [l_pts l_tri l_vn]. apply mapM_post. intros t _.
  destruct (tri_pts (p_pts p) t) as [((a, b), d)|] eqn:E; cbn [rbind]; auto. destruct (tri_pts_in _ _ _ _ _ E) as (A & _). f_equal.
  unfold loaded_sign, volume_sign. replace (vsub a vzero) with a by (dvec a; vunf; f_equal; ring).
  assert (D : dot (vopp (p_vn p)) a = - c) by (unfold vopp; rewrite dot_smul_l, (P a A); ring). rewrite D, (P a A).
  rewrite (proj2 (Reqb_false _ _)) by lra. rewrite (proj2 (Reqb_false c 0)) by lra.
  destruct (Rltb 0 c) eqn:E1; rbool; destruct (Rltb 0 (- c)) eqn:E2; rbool; try lra.
Qed.
Lemma turned_parts_through p : in_plane (p_vn p) 0 (p_pts p) -> loaded_parts (turned_round p) = polygon_volume (shape p).
Proof.
  intros P. unfold loaded_parts, turned_round, polygon_volume, shape. cbn [l_pts l_tri l_vn]. apply mapM_ext. intros t _.
  destruct (tri_pts (p_pts p) t) as [((a, b), d)|] eqn:E; cbn [rbind]; auto. destruct (tri_pts_in _ _ _ _ _ E) as (A & B & _). do 2 f_equal.
  unfold loaded_sign, volume_sign. replace (vsub a vzero) with a by (dvec a; vunf; f_equal; ring). replace (vsub b vzero) with b by (dvec b; vunf; f_equal; ring).
  assert (D : forall x, In x (p_pts p) -> dot (vopp (p_vn p)) x = 0) by (intros x I; unfold vopp; rewrite dot_smul_l, (P x I); ring). rewrite !D, !(P a A), (P b B) by auto. auto.
Qed.
Lemma tetra_nonneg a b c d : 0 <= tetrahedron_volume a b c d.
Proof. pose proof (proj1 (volume_bounds a b c d)). pose proof (Rabs_pos (det3 a b c d)). lra. Qed.
Lemma without_parts p : loaded_parts (without_normal p) = do v <- polygon_volume (shape p); Ok (map (fun x => - Rabs x) v).
Proof.
  unfold loaded_parts, without_normal, polygon_volume, shape. cbn [l_pts l_tri l_vn]. apply mapM_post. intros t _.
  destruct (tri_pts (p_pts p) t) as [((a, b), d)|] eqn:E; cbn [rbind]; auto. f_equal. unfold loaded_sign. rewrite Rabs_mult, (Rabs_pos_eq (tetrahedron_volume _ _ _ _)) by apply tetra_nonneg.
  unfold volume_sign. destruct (Rltb 0 _); [rewrite Rabs_pos_eq by lra|rewrite Rabs_left by lra]; ring.
Qed.

(** Integer solids. *)
Definition zdet (a b c : z3) : Z :=
  (zx a * (zy b * zz c - zz b * zy c) + zy a * (zz b * zx c - zx b * zz c) + zz a * (zx b * zy c - zy b * zx c))%Z.
Definition zsign (u : option z3) (a b : z3) : Z :=
  match u with
  | None => -1
  | Some u => let pos := zdot u a in let pos := if (pos =? 0)%Z then zdot u b else pos in if (0 <? pos)%Z then 1 else -1
  end%Z.
Definition zpart (pts : list z3) (u : option z3) (t : tri) : option Z :=
  let '(i, j, k) := t in
  match nth_error pts i, nth_error pts j, nth_error pts k with
  | Some a, Some b, Some c => Some (zsign u a b * Z.abs (zdet a b c))%Z
  | _, _, _ => None
  end.
Fixpoint zall {A B} (f : A -> option B) (l : list A) : option (list B) :=
  match l with [] => Some [] | x :: r => match f x, zall f r with Some y, Some ys => Some (y :: ys) | _, _ => None end end.
Definition zsolid : Type := list (list z3 * list tri * option z3).
Definition zvolume (zs : zsolid) : option (list Z) :=
  option_map (@concat Z) (zall (fun z => let '(pts, ts, u) := z in zall (zpart pts u) ts) zs).
Definition stands_for (z : list z3 * list tri * option z3) (l : loaded) : Prop :=
  let '(pts, ts, u) := z in l_pts l = map at3 pts /\ l_tri l = ts /\ l_vn l = option_map at3 u.
Definition near (x : Z) (r : R) : Prop := Rabs (r - IZR x / 6) <= 1 / 12000000.
Lemma zsign_spec u a b : loaded_sign (option_map at3 u) (at3 a) (at3 b) = IZR (zsign u a b).
Proof.
  destruct u as [u|]; cbn [option_map loaded_sign zsign]; auto. unfold volume_sign. replace (vsub (at3 a) vzero) with (at3 a) by (rewrite !at3_eq; vunf; f_equal; ring).
  replace (vsub (at3 b) vzero) with (at3 b) by (rewrite !at3_eq; vunf; f_equal; ring). rewrite !at3_dot.
  destruct (zdot u a =? 0)%Z eqn:E.
  - apply Z.eqb_eq in E. rewrite E. rewrite (proj2 (Reqb_true 0 0)) by auto. destruct (0 <? zdot u b)%Z eqn:F.
    + rewrite (proj2 (Rltb_true _ _)); auto. apply IZR_lt, Z.ltb_lt; auto.
    + rewrite (proj2 (Rltb_false _ _)); auto. apply IZR_le, Z.ltb_ge; auto.
  - apply Z.eqb_neq in E. rewrite (proj2 (Reqb_false _ _)) by (intros X; apply eq_IZR in X; auto). destruct (0 <? zdot u a)%Z eqn:F.
    + rewrite (proj2 (Rltb_true _ _)); auto. apply IZR_lt, Z.ltb_lt; auto.
    + rewrite (proj2 (Rltb_false _ _)); auto. apply IZR_le, Z.ltb_ge; auto.
Qed.
Lemma zdet_spec a b c : det3 vzero (at3 a) (at3 b) (at3 c) = IZR (zdet a b c).
Proof. rewrite !at3_eq. unfold det3, zdet, zx, zy, zz. vunf. rewrite !plus_IZR, !mult_IZR, !minus_IZR, !mult_IZR. ring. Qed.
Lemma zpart_near pts u t x : zpart pts u t = Some x ->
  exists r, (do q <- tri_pts (map at3 pts) t; let '(a, b, c) := q in Ok (loaded_sign (option_map at3 u) a b * tetrahedron_volume vzero a b c)) = Ok r /\ near x r.
Proof.
  destruct t as ((i, j), k). unfold zpart, tri_pts. rewrite !nth_error_map. destruct (nth_error pts i) as [a|], (nth_error pts j) as [b|], (nth_error pts k) as [c|]; try discriminate.
  intros H. injection H as <-. cbn [option_map rbind]. eexists. split; [reflexivity|]. unfold near. rewrite zsign_spec, mult_IZR, abs_IZR, <- zdet_spec.
  pose proof (volume_bounds vzero (at3 a) (at3 b) (at3 c)) as (B1 & B2). set (d := Rabs (det3 _ _ _ _)) in *. set (v := tetrahedron_volume _ _ _ _) in *.
  assert (S : zsign u a b = 1%Z \/ zsign u a b = (-1)%Z) by (unfold zsign; destruct u; auto; cbv zeta; destruct (0 <? _)%Z; auto).
  destruct S as [-> | ->]; apply Rabs_le; lra.
Qed.
Lemma zall_parts pts u ts xs : zall (zpart pts u) ts = Some xs ->
  exists rs, mapM (fun t => do q <- tri_pts (map at3 pts) t; let '(a, b, c) := q in Ok (loaded_sign (option_map at3 u) a b * tetrahedron_volume vzero a b c)) ts = Ok rs /\ Forall2 near xs rs.
Proof.
  revert xs. induction ts as [|t ts IH]; intros xs H; cbn [zall] in H; [injection H as <-; exists []; split; auto; constructor|].
  destruct (zpart pts u t) as [x|] eqn:E; [|discriminate]. destruct (zall (zpart pts u) ts) as [ys|]; [|discriminate]. injection H as <-. destruct (zpart_near _ _ _ _ E) as (r & R & N). destruct (IH ys eq_refl) as (rs & M & F).
  exists (r :: rs). cbn [mapM]. rewrite R. cbn [rbind]. rewrite M. split; auto.
Qed.
Lemma near_sum xs rs acc : Forall2 near xs rs -> Rabs (fold_left Rplus rs acc - (acc + IZR (fold_right Z.add 0%Z xs) / 6)) <= INR (length xs) / 12000000.
Proof.
  intros F. revert acc. induction F as [|x r xs rs N F IH]; intros acc; cbn [fold_left fold_right length].
  - replace (acc - (acc + 0 / 6)) with 0 by field. rewrite Rabs_R0. cbn [INR]. lra.
  - rewrite S_INR, plus_IZR. specialize (IH (acc + r)). unfold near in N. set (e := IZR (fold_right Z.add 0%Z xs)) in *.
    replace (fold_left Rplus rs (acc + r) - (acc + (IZR x + e) / 6)) with ((fold_left Rplus rs (acc + r) - (acc + r + e / 6)) + (r - IZR x / 6)) by field.
    eapply Rle_trans; [apply Rabs_triang|]. lra.
Qed.
Lemma zvolume_spec zs ls xs : zvolume zs = Some xs -> Forall2 stands_for zs ls ->
  exists v, loaded_volume ls = Ok v /\ Rabs (v - Rabs (IZR (fold_right Z.add 0%Z xs)) / 6) <= INR (length xs) / 12000000.
Proof.
  intros H F. assert (G : exists rs, mapM loaded_parts ls = Ok rs /\ Forall2 near xs (concat rs)).
  { unfold zvolume in H. destruct (zall _ zs) as [yss|] eqn:E; [|discriminate]. injection H as <-. revert yss E. induction F as [|((pts, ts), u) l zs ls (A & B & C) F IH]; intros yss E; cbn [zall] in E; [injection E as <-; exists []; split; constructor|].
    destruct (zall (zpart pts u) ts) as [ys|] eqn:E1; [|discriminate]. destruct (zall _ zs) as [zss|]; [|discriminate]. injection E as <-. destruct (IH zss eq_refl) as (rs & M & N). destruct (zall_parts _ _ _ _ E1) as (r & M1 & N1).
    exists (r :: rs). cbn [mapM concat]. unfold loaded_parts at 1. rewrite A, B, C, M1. cbn [rbind]. rewrite M. split; auto. apply Forall2_app; auto. }
  destruct G as (rs & M & N). unfold loaded_volume. rewrite M. cbn [rbind]. eexists. split; [reflexivity|]. pose proof (near_sum _ _ 0 N) as S. set (t := IZR (fold_right _ _ xs)) in *. rewrite Rplus_0_l in S.
  replace (Rabs t / 6) with (Rabs (t / 6)) by (unfold Rdiv; rewrite Rabs_mult, (Rabs_pos_eq (/ 6)); lra). eapply Rle_trans; [apply Rabs_triang_inv2|]. auto.
Qed.

(** Construction with a given normal. *)
Lemma make_given pts n pts' ts : (3 <= length pts)%nat -> coplanar pts -> triangulate_pts pts n = Ok (pts', ts) ->
  exists p, make_polygon pts None (Some n) = Ok p /\ p_pts p = pts' /\ p_tri p = ts /\ p_vn p = n.
Proof.
  intros L C T. unfold make_polygon, check_polygon, build_polygon. rewrite (coplanar_accepted pts GEOM_ATOL); [|unfold GEOM_ATOL; lra|auto]. cbn [rbind negb]. rewrite (proj2 (Nat.ltb_ge _ _) L). cbn [rbind]. rewrite T. cbn [rbind].
  assert (Ln : length pts' = length pts) by (destruct (tri_structure pts n pts' ts L T) as ([-> | ->] & _); rewrite ?rev_length; auto).
  destruct (centroid_total pts' ts) as (c & Ec); [apply (tri_nonempty pts n pts' ts T L)|apply (tri_in_range pts n pts' ts T L)|]. rewrite Ec. cbn [rbind].
  destruct (plane_total pts') as (pc & Ep); [lia|]. rewrite Ep. cbn [rbind]. eexists. split; [reflexivity|]. auto.
Qed.

(** The U shape with reflex first and last corners turns round. *)
Lemma ushape_plane : in_plane (V 0 0 (-1)) (-1) (map at3 ushape).
Proof. intros p I. unfold ushape in I. simpl in I. repeat (destruct I as [<-|I]; [vunf; ring|]). destruct I. Qed.
Lemma ushape_turns : exists p, make_polygon (map at3 ushape) None None = Ok p /\ load_polygon (p_pts p) (p_tri p) = Ok (turned_round p) /\ p_vn p = V 0 0 (-1).
Proof.
  destruct ushape_made as (p & M & Ep & En & _). exists p. split; auto. split; auto.
  destruct (loaded_cases (map at3 ushape) None p (-1) M) as (_ & T & _).
  - rewrite En. unfold unit. vunf. ring.
  - rewrite En. apply ushape_plane.
  - apply T; rewrite Ep; unfold ushape; cbn [rev app map].
    + unfold first_convex, convex_corner, vector_area2, cyc_pairs. cbn [map app last combine fold_right fst snd]. unfold at3. cbn [fst snd]. vunf. intros F. lra.
    + unfold corner_size. cbn [last]. unfold true_area, at3. cbn [fst snd]. replace (cross _ _) with (smul 4 (V 0 0 1)) by (vunf; f_equal; ring). rewrite norm_smul, unit_norm by (unfold unit; vunf; ring). rewrite Rabs_pos_eq; lra.
Qed.

(** A cube whose top has a straight first corner. *)
Definition cube_top : list z3 := [(1, 0, 2); (2, 0, 2); (2, 2, 2); (0, 2, 2); (0, 0, 2)]%Z.
Definition cube_rest : list (list z3) :=
  [[(0, 0, 0); (0, 2, 0); (2, 2, 0); (2, 0, 0)]; [(0, 0, 0); (2, 0, 0); (2, 0, 2); (0, 0, 2)]; [(2, 0, 0); (2, 2, 0); (2, 2, 2); (2, 0, 2)];
   [(2, 2, 0); (0, 2, 0); (0, 2, 2); (2, 2, 2)]; [(0, 2, 0); (0, 0, 0); (0, 0, 2); (0, 2, 2)]]%Z.
Definition cube_ts : list tri := [(3, 0, 1); (3, 1, 2)]%nat.
Definition cube_normals : list z3 := [(0, 0, -1); (0, -1, 0); (1, 0, 0); (0, 1, 0); (-1, 0, 0)]%Z.
Lemma cube_top_made : exists p, make_polygon (map at3 cube_top) None (Some (V 0 0 1)) = Ok p /\ p_pts p = map at3 cube_top /\ p_tri p = [(0, 1, 2); (0, 2, 3); (0, 3, 4)]%nat /\ p_vn p = V 0 0 1 /\
  load_polygon (p_pts p) (p_tri p) = Ok (without_normal p).
Proof.
  assert (P : in_plane (V 0 0 1) 2 (map at3 cube_top)). { intros p I. unfold cube_top in I. simpl in I. repeat (destruct I as [<-|I]; [vunf; ring|]). destruct I. }
  destruct (make_given (map at3 cube_top) (V 0 0 1) (map at3 cube_top) [(0, 1, 2); (0, 2, 3); (0, 3, 4)]%nat) as (p & M & E1 & E2 & E3).
  - simpl. lia.
  - exists (V 0 0 1), 2. split; [intros H; injection H; lra|exact P].
  - exact (z3_triangulate (0, 0, 1)%Z eq_refl cube_top cube_top _ eq_refl).
  - exists p. split; auto. split; auto. split; auto. split; auto.
    destruct (loaded_cases (map at3 cube_top) (Some (V 0 0 1)) p 2 M) as (_ & _ & T); [rewrite E3; unfold unit; vunf; ring|rewrite E3; auto|].
    apply T. rewrite E1. unfold corner_size, cube_top. cbn [map last]. unfold true_area, at3. cbn [fst snd]. replace (cross _ _) with vzero by (vunf; f_equal; ring). rewrite (proj2 (norm_zero vzero) eq_refl). lra.
Qed.
(** A polygon that keeps the order of its points is loaded as it was. *)
Lemma made_same pts p : make_polygon pts None None = Ok p -> p_pts p = pts -> load_polygon (p_pts p) (p_tri p) = Ok (as_it_was p).
Proof.
  intros H E. destruct (made_all _ _ _ H) as (T & Ar & L & Ec & Ep). pose proof (tri_nonempty _ _ _ _ T L) as Ne. unfold make_polygon in H. destruct (check_polygon pts) as [[]|] eqn:C; [|discriminate]. cbn [rbind] in H. unfold build_polygon in H.
  destruct (first_three pts) as [((pl, p0), p1)|] eqn:F; [|discriminate]. cbn [rbind] in H. destruct (normal pl p0 p1) as [n|] eqn:N; [|discriminate]. cbn [rbind] in H.
  assert (En : p_vn p = n). { destruct (triangulate_pts pts n) as [(r, ts)|]; [|discriminate]. cbn [rbind] in H. destruct (polygon_centroid r ts); [|discriminate]. cbn [rbind] in H. destruct (plane_coefficients r); [|discriminate]. cbn [rbind] in H. apply Ok_inj in H. subst p. auto. }
  unfold load_polygon, as_it_was. rewrite E, C. cbn [rbind]. rewrite F. cbn [rbind]. rewrite N. destruct (p_tri p) as [|t ts]; [exfalso; apply Ne; auto|]. rewrite E in Ec, Ep, Ar. rewrite Ec. cbn [rbind]. rewrite Ep. cbn [rbind option_map]. rewrite En in Ar. rewrite Ar, En. auto.
Qed.
Lemma cube_face z u : zmake z = Ok (z, cube_ts, u) ->
  exists p, make_polygon (map at3 z) None None = Ok p /\ load_polygon (p_pts p) (p_tri p) = Ok (as_it_was p) /\ stands_for (z, cube_ts, Some u) (as_it_was p).
Proof.
  intros Z. destruct (zmake_spec _ _ _ _ Z) as (_ & p & M & A & B & C). exists p. split; auto. split; [eapply made_same; eauto|]. unfold stands_for, as_it_was. cbn [l_pts l_tri l_vn option_map]. rewrite C. auto.
Qed.
Definition top_ts : list tri := [(0, 1, 2); (0, 2, 3); (0, 3, 4)]%nat.
Definition zcube (top : option z3) : zsolid := map (fun zu => (fst zu, cube_ts, Some (snd zu))) (combine cube_rest cube_normals) ++ [(cube_top, top_ts, top)].
(** All polygons of the cube are made by the code, the solid has volume 8, and
    that of what is read back is 8/3. *)
Lemma cube_volumes : exists ps ls v v', Forall2 (fun z p => exists vn0, make_polygon (map at3 z) None vn0 = Ok p) (cube_rest ++ [cube_top]) ps /\
  mapM (fun p => load_polygon (p_pts p) (p_tri p)) ps = Ok ls /\ solid_volume (map shape ps) = Ok v /\ loaded_volume ls = Ok v' /\
  Rabs (v - 8) <= 1 / 100000 /\ Rabs (v' - 8 / 3) <= 1 / 100000.
Proof.
  destruct (cube_face (nth 0 cube_rest []) (nth 0 cube_normals (0, 0, 0)%Z) eq_refl) as (p0 & M0 & L0 & S0).
  destruct (cube_face (nth 1 cube_rest []) (nth 1 cube_normals (0, 0, 0)%Z) eq_refl) as (p1 & M1 & L1 & S1).
  destruct (cube_face (nth 2 cube_rest []) (nth 2 cube_normals (0, 0, 0)%Z) eq_refl) as (p2 & M2 & L2 & S2).
  destruct (cube_face (nth 3 cube_rest []) (nth 3 cube_normals (0, 0, 0)%Z) eq_refl) as (p3 & M3 & L3 & S3).
  destruct (cube_face (nth 4 cube_rest []) (nth 4 cube_normals (0, 0, 0)%Z) eq_refl) as (p4 & M4 & L4 & S4).
  destruct cube_top_made as (p5 & M5 & A & B & C & L5).
  assert (S5 : stands_for (cube_top, top_ts, Some (0, 0, 1)%Z) (as_it_was p5)) by (unfold stands_for, as_it_was; cbn [l_pts l_tri l_vn option_map]; rewrite A, B, C; auto).
  assert (S6 : stands_for (cube_top, top_ts, None) (without_normal p5)) by (unfold stands_for, without_normal; cbn [l_pts l_tri l_vn option_map]; rewrite A, B; auto).
  set (ps := [p0; p1; p2; p3; p4; p5]). set (ls := [as_it_was p0; as_it_was p1; as_it_was p2; as_it_was p3; as_it_was p4; without_normal p5]).
  destruct (zvolume_spec (zcube (Some (0, 0, 1)%Z)) (map as_it_was ps) [0; 0; 0; 0; 8; 8; 8; 8; 0; 0; 4; 8; 4]%Z eq_refl) as (v & V1 & V2); [repeat (apply Forall2_cons; [assumption|]); apply Forall2_nil|].
  destruct (zvolume_spec (zcube None) ls [0; 0; 0; 0; 8; 8; 8; 8; 0; 0; -4; -8; -4]%Z eq_refl) as (v' & V3 & V4); [repeat (apply Forall2_cons; [assumption|]); apply Forall2_nil|].
  exists ps, ls, v, v'. split; [repeat (apply Forall2_cons; [eexists; eassumption|]); apply Forall2_nil|]. split; [unfold ps; cbn [mapM]; rewrite L0, L1, L2, L3, L4, L5; reflexivity|].
  rewrite volume_as_it_was in V1. split; auto. split; auto. cbn [fold_right length] in V2, V4. simpl Z.add in V2, V4. rewrite (Rabs_pos_eq 48) in V2 by lra. rewrite (Rabs_pos_eq 16) in V4 by lra.
  replace (48 / 6) with 8 in V2 by lra. replace (16 / 6) with (8 / 3) in V4 by lra. simpl INR in V2, V4. split; lra.
Qed.
(** Whatever is in the file. *)
Lemma loaded_any pts ts l : load_polygon pts ts = Ok l ->
  are_points_coplanar pts GEOM_ATOL = Ok true /\ (3 <= length pts)%nat /\ ts <> [] /\ l_pts l = pts /\ l_tri l = ts /\
  exists p0 p1 r, pts = p0 :: p1 :: r /\ l_vn l = normal (last pts p0) p0 p1.
Proof.
  unfold load_polygon, check_polygon. destruct (are_points_coplanar pts GEOM_ATOL) as [[]|] eqn:C; cbn [rbind negb]; try discriminate. destruct (length pts <? 3)%nat eqn:Ln; cbn [rbind]; [discriminate|]. apply Nat.ltb_ge in Ln.
  destruct pts as [|p0 [|p1 r]]; try (cbn in Ln; lia). unfold first_three; cbn [rbind]. destruct ts as [|t ts]; [discriminate|]. set (pts := p0 :: p1 :: r) in *.
  destruct (polygon_centroid pts (t :: ts)); cbn [rbind]; [|discriminate]. destruct (plane_coefficients pts); cbn [rbind]; [|discriminate]. intros H. apply Ok_inj in H. subst l. cbn [l_pts l_tri l_vn].
  split; auto. split; auto. split; [discriminate|]. split; auto. split; auto. exists p0, p1, r. auto.
Qed.
Lemma loaded_bad pts ts : are_points_coplanar pts GEOM_ATOL = Ok false \/ (length pts < 3)%nat -> load_polygon pts ts = Err AssertionError.
Proof.
  intros H. unfold load_polygon, check_polygon. destruct (coplanar_total pts GEOM_ATOL) as (c & C). rewrite C. cbn [rbind]. destruct c; cbn [negb rbind]; auto. destruct H as [H|H]; [congruence|]. rewrite (proj2 (Nat.ltb_lt _ _) H). auto.
Qed.
