(** Proofs: boxes side by side, boxes that touch or overlap otherwise. *)
From Coq Require Import Ascii String Reals List Bool Arith Lia Lra ZArith Permutation.
From Verif Require Import Prelude TreeModel VecModel VecProofs GeomModel GeomSpec GeomProofs1 GeomProofs2 GeomProofs3 GeomProofs4 GeomProofs5 TriModel TriSpec TriProofs TriProofs2 PolyModel PolySpec PolyProofs1 PolyProofs2 PolyProofs3 SolidModel SolidSpec SolidProofs1 SolidProofs3 SliceProofs4 SliceProofs8 SliceProofs10 StitchProofs3 StitchProofs4 CrossSpec CrossProofs1 CrossProofs2 AdjSpec AdjProofs1.
Import ListNotations.
Local Open Scope R_scope.

Lemma named_made name pts n p : named_polygon name pts = Ok (n, p) -> make_polygon pts None None = Ok p.
Proof.
  unfold named_polygon, make_polygon. destruct (check_polygon pts); cbn [rbind]; [|discriminate]. destruct (validate_name name); cbn [rbind]; [|discriminate]. destruct (build_polygon pts None None); cbn [rbind]; [|discriminate]. intros H. apply Ok_inj in H. injection H as _ ->. auto.
Qed.
Lemma add_walls_all acc ws r : add_walls acc ws = Ok r -> r = acc ++ ws.
Proof.
  revert acc. induction ws as [|w ws IH]; intros acc; cbn [add_walls]; [intros H; apply Ok_inj in H; rewrite app_nil_r; auto|]. destruct (memb (fst w) (map fst acc)); [discriminate|]. intros H. apply IH in H. rewrite H, <- app_assoc. reflexivity.
Qed.
Lemma wall_same name p w : make_wall name p = Ok w -> snd w = p.
Proof. unfold make_wall. destruct (validate_name name); cbn [rbind]; [|discriminate]. intros H. apply Ok_inj in H. subst. auto. Qed.
Lemma box_made x y z mv name ws p : box x y z mv name = Ok ws -> In p (polys_of ws) -> proper p.
Proof.
  unfold box. intros H I. repeat (match type of H with rbind ?e _ = _ => destruct e as [(?, ?)|] eqn:?; cbn [rbind] in H; [|discriminate] end).
  unfold make_solid in H. destruct (validate_name name); cbn [rbind] in H; [|discriminate]. apply add_walls_all in H. subst ws. cbn [app polys_of map] in I.
  repeat match goal with E : make_wall _ _ = Ok _ |- _ => apply wall_same in E; cbn [snd] in E end. subst. cbn [snd] in I.
  repeat match goal with E : named_polygon _ _ = Ok _ |- _ => apply named_made, made_proper in E end.
  repeat (destruct I as [<-|I]; [assumption|]). destruct I.
Qed.
Section Box.
Context (x y z : R) (mv : vec) (F : box_fits x y z mv).
Notation pt i j k := (corner_of x y z mv i j k).
Lemma axis_told l o i i' m : 1 / 1000 <= m -> m <= l <= 5000 * m -> Rabs o <= 8000 * m -> (i = 0 \/ i = 1) -> (i' = 0 \/ i' = 1) -> isclose (i * l + o) (i' * l + o) RTOL GEOM_ATOL = true -> i = i'.
Proof.
  intros M L O I I' C. unfold isclose, RTOL, GEOM_ATOL in C. rbool. assert (B : Rabs (i' * l + o) <= 13000 * m).
  { apply Rle_trans with (1 := Rabs_triang _ _). assert (Rabs (i' * l) <= 5000 * m) by (destruct I' as [->| ->]; rewrite ?Rmult_0_l, ?Rmult_1_l, ?Rabs_R0, ?Rabs_pos_eq by lra; lra). lra. }
  replace (i * l + o - (i' * l + o)) with ((i - i') * l) in C by ring. destruct I as [->| ->], I' as [->| ->]; auto; exfalso.
  - replace ((0 - 1) * l) with (- l) in C by ring. rewrite Rabs_Ropp, (Rabs_pos_eq l) in C by lra. lra.
  - replace ((1 - 0) * l) with l in C by ring. rewrite (Rabs_pos_eq l) in C by lra. lra.
Qed.
Lemma corner_eq i j k i' j' k' : (i = 0 \/ i = 1) -> (j = 0 \/ j = 1) -> (k = 0 \/ k = 1) -> (i' = 0 \/ i' = 1) -> (j' = 0 \/ j' = 1) -> (k' = 0 \/ k' = 1) ->
  points_equal (pt i j k) (pt i' j' k') = true -> pt i j k = pt i' j' k'.
Proof.
  intros I J K I' J' K' H. destruct F as (m & M & Hx & Hy & Hz & Ox & Oy & Oz). unfold points_equal, allclose, corner_of in H. cbn [vx vy vz] in H. rewrite !andb_true_iff in H. destruct H as ((H1 & H2) & H3).
  rewrite (axis_told x (vx mv) i i' m), (axis_told y (vy mv) j j' m), (axis_told z (vz mv) k k' m); auto.
Qed.
Ltac told := intros p q Ip Iq; repeat (destruct Ip as [<-|Ip]; [repeat (destruct Iq as [<-|Iq]; [apply corner_eq; auto|]); destruct Iq|]); destruct Ip.
Lemma side_told fc : In fc [[pt 1 0 0; pt 1 1 0; pt 1 1 1; pt 1 0 1]; [pt 0 1 0; pt 0 1 1; pt 1 1 1; pt 1 1 0]; [pt 0 0 1; pt 1 0 1; pt 1 1 1; pt 0 1 1]] -> told_apart fc.
Proof. intros [<-|[<-|[<-|[]]]]; told. Qed.
End Box.
Lemma box_six x y z mv name ws : box_fits x y z mv -> validate_name name = Ok name -> box x y z mv name = Ok ws -> let pt := corner_of x y z mv in
  exists p0 p1 p2 p3 p4 p5, polys_of ws = [p0; p1; p2; p3; p4; p5] /\
  (p_pts p0 = [pt 0 0 0; pt 0 1 0; pt 1 1 0; pt 1 0 0] /\ p_pts p1 = [pt 0 0 0; pt 1 0 0; pt 1 0 1; pt 0 0 1] /\ p_pts p2 = [pt 1 0 0; pt 1 1 0; pt 1 1 1; pt 1 0 1] /\
   p_pts p3 = [pt 0 1 0; pt 0 1 1; pt 1 1 1; pt 1 1 0] /\ p_pts p4 = [pt 0 0 0; pt 0 0 1; pt 0 1 1; pt 0 1 0] /\ p_pts p5 = [pt 0 0 1; pt 1 0 1; pt 1 1 1; pt 0 1 1]) /\
  (p_vn p0 = V 0 0 (-1) /\ p_vn p1 = V 0 (-1) 0 /\ p_vn p2 = V 1 0 0 /\ p_vn p3 = V 0 1 0 /\ p_vn p4 = V (-1) 0 0 /\ p_vn p5 = V 0 0 1) /\
  (forall p, In p (polys_of ws) -> p_tri p = [(3, 0, 1); (3, 1, 2)]%nat).
Proof.
  intros F Hn B pt. destruct (box_ok x y z mv F name Hn) as (ws' & B' & _ & _ & Ho & Hv & Ht & _). rewrite B in B'. apply Ok_inj in B'. subst ws'. unfold outlines, box_outlines, normals in *.
  destruct ws as [|w0 [|w1 [|w2 [|w3 [|w4 [|w5 [|w6 ws]]]]]]]; try discriminate. cbn [map repeat] in *. injection Ho as A0 A1 A2 A3 A4 A5. injection Hv as N0 N1 N2 N3 N4 N5. injection Ht as T0 T1 T2 T3 T4 T5.
  exists (snd (snd w0)), (snd (snd w1)), (snd (snd w2)), (snd (snd w3)), (snd (snd w4)), (snd (snd w5)). split; [reflexivity|]. split; [repeat (split; [assumption|]); assumption|]. split; [repeat (split; [assumption|]); assumption|].
  unfold polys_of. cbn [map]. intros p Ip. repeat (destruct Ip as [<-|Ip]; [assumption|]). destruct Ip.
Qed.
Lemma side_meet x y z mv x' y' z' mv' name name' ws ws' : box_fits x y z mv -> box_fits x' y' z' mv' -> validate_name name = Ok name -> validate_name name' = Ok name' ->
  box x y z mv name = Ok ws -> box x' y' z' mv' name' = Ok ws' -> side_by_side x y z mv x' y' z' mv' ->
  exists p q, In p (polys_of ws) /\ In q (polys_of ws') /\ are_polygons_facing (p_pts p) (p_vn p) (p_pts q) (p_vn q) = Ok true /\ are_polygons_facing (p_pts q) (p_vn q) (p_pts p) (p_vn p) = Ok true.
Proof.
  intros F F' Hn Hn' B B' S. destruct (box_six _ _ _ _ _ _ F Hn B) as (p0 & p1 & p2 & p3 & p4 & p5 & Ep & (A0 & A1 & A2 & A3 & A4 & A5) & (N0 & N1 & N2 & N3 & N4 & N5) & _).
  destruct (box_six _ _ _ _ _ _ F' Hn' B') as (q0 & q1 & q2 & q3 & q4 & q5 & Eq & (C0 & C1 & C2 & C3 & C4 & C5) & (M0 & M1 & M2 & M3 & M4 & M5) & _). rewrite Ep, Eq.
  pose proof (side_told x y z mv F) as St. 
  assert (K : forall p q, told_apart (p_pts p) -> (3 <= length (p_pts p))%nat -> rotation_of (rev (p_pts p)) (p_pts q) -> p_vn q = vopp (p_vn p) -> are_polygons_facing (p_pts p) (p_vn p) (p_pts q) (p_vn q) = Ok true /\ are_polygons_facing (p_pts q) (p_vn q) (p_pts p) (p_vn p) = Ok true).
  { intros p q T L R N. rewrite N. apply facing_complete; auto. }
  destruct S as [(Em & -> & ->)|[(Em & -> & ->)|(Em & -> & ->)]].
  - exists p2, q4. split; [simpl; auto|]. split; [simpl; auto 6|]. apply K; [rewrite A2; apply St; simpl; auto|rewrite A2; simpl; lia| |rewrite M4, N2; vunf; f_equal; ring].
    rewrite A2, C4. cbn [rev app]. exists [corner_of x y z mv 1 0 1; corner_of x y z mv 1 1 1; corner_of x y z mv 1 1 0], [corner_of x y z mv 1 0 0]. split; [reflexivity|]. rewrite Em. unfold corner_of. cbn [app vx vy vz vadd]. repeat (apply f_equal2; [apply vec_ext; cbn [vx vy vz]; ring|]). reflexivity.
  - exists p3, q1. split; [simpl; auto|]. split; [simpl; auto 6|]. apply K; [rewrite A3; apply St; simpl; auto|rewrite A3; simpl; lia| |rewrite M1, N3; vunf; f_equal; ring].
    rewrite A3, C1. cbn [rev app]. exists [corner_of x y z mv 1 1 0; corner_of x y z mv 1 1 1; corner_of x y z mv 0 1 1], [corner_of x y z mv 0 1 0]. split; [reflexivity|]. rewrite Em. unfold corner_of. cbn [app vx vy vz vadd]. repeat (apply f_equal2; [apply vec_ext; cbn [vx vy vz]; ring|]). reflexivity.
  - exists p5, q0. split; [simpl; auto 7|]. split; [simpl; auto 6|]. apply K; [rewrite A5; apply St; simpl; auto|rewrite A5; simpl; lia| |rewrite M0, N5; vunf; f_equal; ring].
    rewrite A5, C0. cbn [rev app]. exists [corner_of x y z mv 0 1 1; corner_of x y z mv 1 1 1; corner_of x y z mv 1 0 1], [corner_of x y z mv 0 0 1]. split; [reflexivity|]. rewrite Em. unfold corner_of. cbn [app vx vy vz vadd]. repeat (apply f_equal2; [apply vec_ext; cbn [vx vy vz]; ring|]). reflexivity.
Qed.
Lemma boxes_proper x y z mv x' y' z' mv' name name' ws ws' p : box x y z mv name = Ok ws -> box x' y' z' mv' name' = Ok ws' -> In p (polys_of ws ++ polys_of ws') -> proper p.
Proof. intros B B' I. apply in_app_iff in I. destruct I as [I|I]; [apply (box_made _ _ _ _ _ _ _ B I)|apply (box_made _ _ _ _ _ _ _ B' I)]. Qed.
Lemma boxes_adjacent x y z mv x' y' z' mv' name name' ws ws' : box_fits x y z mv -> box_fits x' y' z' mv' -> validate_name name = Ok name -> validate_name name' = Ok name' ->
  box x y z mv name = Ok ws -> box x' y' z' mv' name' = Ok ws' -> side_by_side x y z mv x' y' z' mv' ->
  has_correct_interface (polys_of ws) (polys_of ws') = Ok true /\ has_correct_interface (polys_of ws') (polys_of ws) = Ok true /\
  is_adjacent_to_solid (polys_of ws) (polys_of ws') = Ok true /\ is_adjacent_to_solid (polys_of ws') (polys_of ws) = Ok true.
Proof.
  intros F F' Hn Hn' B B' S. destruct (side_meet _ _ _ _ _ _ _ _ _ _ _ _ F F' Hn Hn' B B' S) as (p & q & Ip & Iq & E1 & E2).
  assert (P1 : forall r, In r (polys_of ws ++ polys_of ws') -> proper r) by (intros r; apply (boxes_proper _ _ _ _ _ _ _ _ _ _ _ _ r B B')).
  assert (P2 : forall r, In r (polys_of ws' ++ polys_of ws) -> proper r) by (intros r; apply (boxes_proper _ _ _ _ _ _ _ _ _ _ _ _ r B' B)).
  assert (H1 : has_correct_interface (polys_of ws) (polys_of ws') = Ok true) by (destruct (interface_iff _ _ P1) as (b & -> & H); f_equal; apply H; eauto 6).
  assert (H2 : has_correct_interface (polys_of ws') (polys_of ws) = Ok true) by (destruct (interface_iff _ _ P2) as (b & -> & H); f_equal; apply H; eauto 6).
  split; [exact H1|]. split; [exact H2|]. split; apply interface_adjacent; auto.
Qed.

(** A small box in the middle of a side of a large one. *)
Definition zcorner (d o : z3) (i j k : Z) : z3 := (i * zx d + zx o, j * zy d + zy o, k * zz d + zz o)%Z.
Definition zfaces (d o : z3) : list (list z3) := let pt := zcorner d o in
  [[pt 0 0 0; pt 0 1 0; pt 1 1 0; pt 1 0 0]; [pt 0 0 0; pt 1 0 0; pt 1 0 1; pt 0 0 1]; [pt 1 0 0; pt 1 1 0; pt 1 1 1; pt 1 0 1]; [pt 0 1 0; pt 0 1 1; pt 1 1 1; pt 1 1 0]; [pt 0 0 0; pt 0 0 1; pt 0 1 1; pt 0 1 0]; [pt 0 0 1; pt 1 0 1; pt 1 1 1; pt 0 1 1]]%Z.
Lemma zcorner_at d o i j k : corner_of (IZR (zx d)) (IZR (zy d)) (IZR (zz d)) (at3 o) (IZR i) (IZR j) (IZR k) = at3 (zcorner d o i j k).
Proof. rewrite !at3_eq. unfold corner_of, zcorner, zx, zy, zz. cbn [vx vy vz fst snd]. rewrite !plus_IZR, !mult_IZR. reflexivity. Qed.
Lemma zbox d o name ws : box_fits (IZR (zx d)) (IZR (zy d)) (IZR (zz d)) (at3 o) -> validate_name name = Ok name -> box (IZR (zx d)) (IZR (zy d)) (IZR (zz d)) (at3 o) name = Ok ws ->
  map p_pts (polys_of ws) = map (map at3) (zfaces d o) /\ forall p, In p (polys_of ws) -> p_tri p = quad_tri.
Proof.
  intros F Hn B. destruct (box_six _ _ _ _ _ _ F Hn B) as (p0 & p1 & p2 & p3 & p4 & p5 & Ep & (A0 & A1 & A2 & A3 & A4 & A5) & _ & T). split; [|exact T]. rewrite Ep. cbn [map]. rewrite A0, A1, A2, A3, A4, A5. unfold zfaces. cbn [map].
  repeat rewrite <- zcorner_at. reflexivity.
Qed.
Lemma ex_box d o name : box_fits (IZR (zx d)) (IZR (zy d)) (IZR (zz d)) (at3 o) -> validate_name name = Ok name -> exists ws, box (IZR (zx d)) (IZR (zy d)) (IZR (zz d)) (at3 o) name = Ok ws /\ map p_pts (polys_of ws) = map (map at3) (zfaces d o) /\ forall p, In p (polys_of ws) -> p_tri p = quad_tri.
Proof. intros F Hn. destruct (box_ok _ _ _ _ F name Hn) as (ws & B & _). exists ws. split; [exact B|]. apply (zbox d o name); auto. Qed.
Lemma zfits d o : (1 <= zx d <= 20)%Z -> (1 <= zy d <= 20)%Z -> (1 <= zz d <= 20)%Z -> (Z.abs (zx o) <= 20)%Z -> (Z.abs (zy o) <= 20)%Z -> (Z.abs (zz o) <= 20)%Z -> box_fits (IZR (zx d)) (IZR (zy d)) (IZR (zz d)) (at3 o).
Proof.
  intros X Y Z OX OY OZ. exists 1. rewrite at3_eq. cbn [vx vy vz]. rewrite <- !abs_IZR. repeat match goal with H : (_ <= _ <= _)%Z |- _ => destruct H as (?H & ?H) end.
  repeat match goal with H : (_ <= _)%Z |- _ => apply IZR_le in H end. repeat split; lra.
Qed.
Lemma zface_in l fs p : map p_pts l = map (map at3) fs -> In p l -> exists f, In f fs /\ p_pts p = map at3 f.
Proof. intros E I. apply (in_map p_pts) in I. rewrite E in I. apply in_map_iff in I. destruct I as (f & Ef & If). eauto. Qed.
Definition zloose (f g : list z3) : bool := forallb (fun e1 => forallb (fun e2 => zends e1 e2 || zaway e1 e2) (cyc_pairs g)) (cyc_pairs f) && forallb small3 (f ++ g) && negb (forallb (fun v => existsb (zeqb v) g) f).
Lemma zloose_spec p q f g : p_pts p = map at3 f -> p_pts q = map at3 g -> proper p -> proper q -> NoDup f -> zloose f g = true ->
  ~ crosses p q /\ are_polygons_facing (p_pts p) (p_vn p) (p_pts q) (p_vn q) <> Ok true.
Proof.
  intros Ep Eq Pp Pq D H. unfold zloose in H. rewrite !andb_true_iff in H. destruct H as ((A & S) & N). split.
  - unfold crosses. rewrite Ep, Eq, (crossing_apart (map at3 f) _ (map at3 g)); [discriminate| | |apply z_pairs_away; auto]; intros E; [apply (not_nil p Pp)|apply (not_nil q Pq)]; congruence.
  - rewrite facing_exact; [|apply not_nil; auto|apply not_nil; auto|rewrite Ep, Eq, <- map_app; apply z_told; auto|rewrite Ep; apply z_nodup; auto].
    intros (_ & I & _). apply negb_true_iff in N. rewrite <- not_true_iff_false in N. apply N. apply forallb_forall. intros v Iv. apply existsb_exists. assert (J : In (at3 v) (map at3 g)) by (rewrite <- Eq; apply I; rewrite Ep; apply in_map; auto).
    apply in_map_iff in J. destruct J as (w & Ew & Iw). exists w. split; auto. apply zeqb_eq. apply at3_inj. auto.
Qed.
Lemma nested_side : exists ws ws', box 6 6 6 (V 0 0 0) (str_of "a") = Ok ws /\ box 2 2 2 (V 6 2 2) (str_of "b") = Ok ws' /\ is_adjacent_to_solid (polys_of ws) (polys_of ws') = Ok false.
Proof.
  destruct (ex_box (6, 6, 6)%Z (0, 0, 0)%Z (str_of "a")) as (ws & B & P & T); [apply zfits; cbn; lia|reflexivity|]. destruct (ex_box (2, 2, 2)%Z (6, 2, 2)%Z (str_of "b")) as (ws' & B' & P' & T'); [apply zfits; cbn; lia|reflexivity|].
  rewrite at3_eq in B, B'. cbn [zx zy zz fst snd] in B, B'. exists ws, ws'. split; [exact B|]. split; [exact B'|].
  assert (Pr : forall r, In r (polys_of ws ++ polys_of ws') -> proper r) by (intros r; apply (boxes_proper _ _ _ _ _ _ _ _ _ _ _ _ r B B')).
  destruct (adjacent_iff _ _ Pr) as (b & -> & H). f_equal. destruct b; auto. exfalso. destruct (proj1 H eq_refl) as (p & q & Ip & Iq & C). assert (Pp : proper p) by (apply Pr, in_app_iff; auto). assert (Pq : proper q) by (apply Pr, in_app_iff; auto).
  destruct (zface_in _ _ _ P Ip) as (f & If & Ef). destruct (zface_in _ _ _ P' Iq) as (g & Ig & Eg).
  assert (Z : forallb (fun f => forallb (zloose f) (zfaces (2, 2, 2) (6, 2, 2))%Z) (zfaces (6, 6, 6) (0, 0, 0))%Z = true) by (vm_compute; reflexivity). rewrite forallb_forall in Z. specialize (Z f If). rewrite forallb_forall in Z. specialize (Z g Ig).
  assert (Nf : NoDup f). { clear - If. cbn in If. repeat (destruct If as [<-|If]; [repeat constructor; cbn; intuition discriminate|]). destruct If. }
  destruct (zloose_spec p q f g Ef Eg Pp Pq Nf Z) as (N1 & N2). destruct C; auto.
Qed.
(** Boxes that overlap. *)
Lemma overlap_adjacent : exists ws ws', box 12 8 4 (V (-6) (-4) 0) (str_of "a") = Ok ws /\ box 6 9 4 (V (-3) (-2) 0) (str_of "b") = Ok ws' /\ is_adjacent_to_solid (polys_of ws) (polys_of ws') = Ok true.
Proof.
  destruct (ex_box (12, 8, 4)%Z (-6, -4, 0)%Z (str_of "a")) as (ws & B & P & T); [apply zfits; cbn; lia|reflexivity|]. destruct (ex_box (6, 9, 4)%Z (-3, -2, 0)%Z (str_of "b")) as (ws' & B' & P' & T'); [apply zfits; cbn; lia|reflexivity|].
  rewrite at3_eq in B, B'. cbn [zx zy zz fst snd] in B, B'. exists ws, ws'. split; [exact B|]. split; [exact B'|].
  assert (Pr : forall r, In r (polys_of ws ++ polys_of ws') -> proper r) by (intros r; apply (boxes_proper _ _ _ _ _ _ _ _ _ _ _ _ r B B')).
  destruct (adjacent_iff _ _ Pr) as (b & -> & H). f_equal. apply H. destruct (polys_of ws) as [|p l] eqn:E; [discriminate|]. destruct (polys_of ws') as [|q l'] eqn:E'; [discriminate|]. exists p, q. split; [left; auto|]. split; [left; auto|]. left.
  unfold crosses. rewrite (T p (or_introl eq_refl)), (T' q (or_introl eq_refl)). cbn [map zfaces] in P, P'. injection P as P _. injection P' as P' _. rewrite P, P'.
  match goal with |- are_polygons_crossing ?a _ ?b _ = _ => change a with (map at3 (hd [] (zfaces (12, 8, 4) (-6, -4, 0))%Z)); change b with (map at3 (hd [] (zfaces (6, 9, 4) (-3, -2, 0))%Z)) end.
  apply (z_crossing (0, 0, -1)%Z eq_refl (0, 0, -1)%Z eq_refl). vm_compute. reflexivity.
Qed.
Lemma one_sided : exists p q, make_polygon (map at3 sq4) None None = Ok p /\ make_polygon (map at3 sq5) None None = Ok q /\ has_correct_interface [p] [q] = Ok true /\ has_correct_interface [q] [p] = Ok false.
Proof.
  destruct (zmake_spec sq4 sq4 [(3, 0, 1); (3, 1, 2)]%nat (0, 0, 1)%Z eq_refl) as (_ & p & Ep & P1 & P2 & P3). destruct (zmake_spec sq5 sq5 [(4, 0, 1); (4, 1, 2); (4, 2, 3)]%nat (0, 0, -1)%Z eq_refl) as (_ & q & Eq & Q1 & Q2 & Q3).
  exists p, q. split; [exact Ep|]. split; [exact Eq|]. destruct facing_asymmetric as (A & B). change PolyProofs3.up1 with (at3 (0, 0, 1)%Z) in A, B. change PolyProofs3.down1 with (at3 (0, 0, -1)%Z) in A, B. rewrite <- P1, <- Q1, <- P3, <- Q3 in A, B.
  assert (Pr : forall r, In r [p; q] -> proper r) by (intros r [<-|[<-|[]]]; [apply (made_proper _ _ Ep)|apply (made_proper _ _ Eq)]). split.
  - destruct (interface_iff [p] [q] Pr) as (b & -> & H). f_equal. apply H. exists p, q. simpl. auto.
  - destruct (interface_iff [q] [p]) as (b & -> & H); [intros r I; apply Pr; simpl in *; tauto|]. f_equal. destruct b; auto. exfalso. destruct (proj1 H eq_refl) as (p' & q' & [<-|[]] & [<-|[]] & C). congruence.
Qed.
