(** Two boxes with a door between them as a building: an example. *)
From Coq Require Import Reals ZArith Ascii String List Arith Bool Lia Lra Permutation.
From Verif Require Import Prelude TreeModel TreeSpec TreeProofs TreeProofs2 GraphModel GraphSpec GraphProofs GraphProofs2 VecModel GeomModel GeomSpec GeomProofs1 PolyModel PolySpec SolidSpec PolyProofs2 CrossProofs2 AdjProofs1 InsideSpec ShellSpec DoorSpec DoorProofs3 TransModel TransSpec TransProofs1 TransProofs2.
Import ListNotations.

(** Building 0, zone 1, solids 2 and 3 with walls 4 and 5, polygons 6-17. *)
Definition flat_ops : list op :=
  [OpNew KBuilding (str_of "b") 0 []; OpNew KZone (str_of "z") 0 []; OpNew KSolid (str_of "west") 0 []; OpNew KSolid (str_of "east") 0 []; OpNew KWall (str_of "w") 0 []; OpNew KWall (str_of "w") 0 []] ++
  map (fun n => OpNew KPolygon (str_of n) 4 []) ["0"; "1"; "2"; "3"; "4"; "5"; "0"; "1"; "2"; "3"; "4"; "5"]%string ++
  [OpAdd 0 1; OpAdd 1 2; OpAdd 1 3; OpAdd 2 4; OpAdd 3 5] ++ map (OpAdd 4) (seq 6 6) ++ map (OpAdd 5) (seq 12 6).
Definition flat_heap : heap := run [] flat_ops.
Definition flat_geo (i : oid) : face * vec * R := nth (i - 6) (west ++ east) door_w.
Definition flat_isf (i j : oid) : bool := match are_polygons_facing (corners (flat_geo i)) (facing_way (flat_geo i)) (corners (flat_geo j)) (facing_way (flat_geo j)) with Ok r => r | Err _ => false end.
Definition flat_bbox (i j : oid) : bool := match bounding_box (corners (flat_geo i)), bounding_box (corners (flat_geo j)) with Ok b1, Ok b2 => are_bboxes_overlapping b1 b2 | _, _ => false end.
Lemma flat_added : NoDup (flat_map added flat_ops).
Proof. vm_compute. repeat (constructor; [intros H; repeat (destruct H as [H|H]; [discriminate H|]); destruct H|]). constructor. Qed.
Lemma flat_wf : wf flat_heap.
Proof. apply run_wf, wf_nil. Qed.
Lemma flat_linked : linked flat_heap.
Proof. apply run_linked, flat_added. Qed.
Definition flat_top : obj := match nth_error flat_heap 0 with Some o => o | None => mkObj KZone [] None [] 0 end.
Lemma flat_building : nth_error flat_heap 0 = Some flat_top /\ o_kind flat_top = KBuilding.
Proof. split; vm_compute; reflexivity. Qed.
Lemma flat_below : below flat_heap 4 0 = map (fun k => ([str_of "z"; str_of (if (k <? 6)%nat then "west" else "east"); str_of "w"; str_of (nth (k mod 6)%nat ["0"; "1"; "2"; "3"; "4"; "5"] "")], (k + 6)%nat))%string (seq 0 12).
Proof. vm_compute. reflexivity. Qed.
Lemma flat_polys_of : polys_of flat_heap 0 = seq 6 12.
Proof. vm_compute. reflexivity. Qed.
Lemma flat_inside i : inside_of flat_heap KPolygon 0 i <-> In i (seq 6 12).
Proof. destruct flat_building as (Eb & Kb). rewrite <- (polys_in flat_heap flat_wf 0 flat_top Eb Kb), flat_polys_of. reflexivity. Qed.
Lemma flat_numbers : number_polygons flat_heap 0 [] = Ok (combine (seq 6 12) (map Z.of_nat (seq 0 12))).
Proof. vm_compute. reflexivity. Qed.
Lemma flat_lies i : In i (seq 6 12) -> lies_in flat_heap 0 i (str_of "z").
Proof.
  intros I. rewrite <- flat_polys_of in I. unfold polys_of in I. rewrite flat_below, map_map in I. apply in_map_iff in I. destruct I as (k & E & Ik). cbn [snd] in E. subst i.
  eapply ex_intro. refine (proj2 (proj1 (TreeProofs.in_below flat_heap 4 0 _ _) _)). rewrite flat_below. exact (in_map (fun k => ([str_of "z"; str_of (if (k <? 6)%nat then "west" else "east"); str_of "w"; str_of (nth (k mod 6)%nat ["0"; "1"; "2"; "3"; "4"; "5"] "")], (k + 6)%nat))%string _ k Ik).
Qed.

(** The corners are integers. *)
Definition zboxes : list (list (Z * Z * Z)) :=
  [[(0, 0, 0); (0, 4, 0); (4, 4, 0); (4, 0, 0)]; [(0, 0, 0); (4, 0, 0); (4, 0, 4); (0, 0, 4)]; [(4, 0, 0); (4, 4, 0); (4, 4, 4); (4, 0, 4)]; [(0, 4, 0); (0, 4, 4); (4, 4, 4); (4, 4, 0)]; [(0, 0, 0); (0, 0, 4); (0, 4, 4); (0, 4, 0)]; [(0, 0, 4); (4, 0, 4); (4, 4, 4); (0, 4, 4)];
   [(4, 0, 0); (4, 4, 0); (8, 4, 0); (8, 0, 0)]; [(4, 0, 0); (8, 0, 0); (8, 0, 4); (4, 0, 4)]; [(8, 0, 0); (8, 4, 0); (8, 4, 4); (8, 0, 4)]; [(4, 4, 0); (4, 4, 4); (8, 4, 4); (8, 4, 0)]; [(4, 0, 0); (4, 0, 4); (4, 4, 4); (4, 4, 0)]; [(4, 0, 4); (8, 0, 4); (8, 4, 4); (4, 4, 4)]]%Z.
Definition zgeo (i : oid) : list (Z * Z * Z) := nth (i - 6) zboxes [].
Lemma vec_eq a b c a' b' c' : a = a' -> b = b' -> c = c' -> V a b c = V a' b' c'.
Proof. intros -> -> ->. reflexivity. Qed.
Lemma zbox_eq : map corners (west ++ east) = map (map at3) zboxes.
Proof.
  unfold west, east, box_sides, box_faces, zboxes, corners, corner_of, vzero. cbn [map combine box_planes app fst snd vx vy vz at3]. repeat (apply f_equal2; [repeat (apply f_equal2; [apply vec_eq; lra|]); exact eq_refl|]). exact eq_refl.
Qed.
Lemma zgeo_eq i : In i (seq 6 12) -> corners (flat_geo i) = map at3 (zgeo i).
Proof.
  intros I. apply in_seq in I. unfold flat_geo, zgeo. rewrite <- (map_nth corners), zbox_eq. rewrite (nth_indep _ _ (map at3 [])) by (cbn; lia). apply (map_nth (map at3)).
Qed.
Definition zunlike (x y : list (Z * Z * Z)) : bool := forallb small3 (x ++ y) && existsb (fun p => negb (existsb (zeqb p) y)) x.
Lemma zunlike_ok i j : In i (seq 6 12) -> In j (seq 6 12) -> zunlike (zgeo i) (zgeo j) = true -> unlike (flat_geo i) (flat_geo j).
Proof.
  intros I J H. apply andb_true_iff in H. destruct H as (S & H). rewrite forallb_forall in S. apply existsb_exists in H. destruct H as (p & Ip & H). left. exists (at3 p). rewrite !zgeo_eq by auto. split; [apply in_map; auto|].
  intros q Iq. apply in_map_iff in Iq. destruct Iq as (r & <- & Ir). rewrite z3_equal by (apply S, in_app_iff; auto). destruct (zeqb p r) eqn:E; auto. apply negb_true_iff in H. exfalso. rewrite <- not_true_iff_false in H. apply H. apply existsb_exists. eauto.
Qed.
Lemma zpairs : forallb (fun i => forallb (fun j => (i =? j) || ((i =? 8) && (j =? 16)) || ((i =? 16) && (j =? 8)) || (zunlike (zgeo i) (zgeo j) && zunlike (zgeo j) (zgeo i))) (seq 6 12)) (seq 6 12) = true.
Proof. vm_compute. reflexivity. Qed.
Lemma flat_opposite : opposite (flat_geo 8) (flat_geo 16) /\ opposite (flat_geo 16) (flat_geo 8).
Proof.
  assert (O : opposite (flat_geo 8) (flat_geo 16)). { split; [rewrite !zgeo_eq by (cbn; tauto)|cbn; vunf; f_equal; lra]. exists (map at3 (rev (skipn 1 (zgeo 8)))), (map at3 (firstn 1 (zgeo 8))). split; reflexivity. }
  split; [exact O|apply opposite_sym; exact O].
Qed.
Lemma flat_pairs i j : In i (seq 6 12) -> In j (seq 6 12) -> i <> j -> (i = 8 /\ j = 16 \/ i = 16 /\ j = 8) \/ (unlike (flat_geo i) (flat_geo j) /\ unlike (flat_geo j) (flat_geo i)).
Proof.
  intros I J N. pose proof zpairs as Z. rewrite forallb_forall in Z. specialize (Z i I). rewrite forallb_forall in Z. specialize (Z j J). rewrite !orb_true_iff, !andb_true_iff, !Nat.eqb_eq in Z.
  destruct Z as [[[E|E]|E]|(U & U')]; [congruence|auto|auto|]. right. split; apply zunlike_ok; auto.
Qed.
Lemma flat_tests : tests_are flat_heap 0 flat_geo flat_bbox flat_isf.
Proof.
  intros i j I J N. apply flat_inside in I, J. assert (Ne : forall k, In k (seq 6 12) -> corners (flat_geo k) <> []). { intros k K. rewrite zgeo_eq by auto. cbn [seq In] in K. repeat (destruct K as [<-|K]; [discriminate|]). destruct K. }
  destruct (facing_total (corners (flat_geo i)) (facing_way (flat_geo i)) (corners (flat_geo j)) (facing_way (flat_geo j)) (Ne i I) (Ne j J)) as (r & E). split; [unfold flat_isf; rewrite E; reflexivity|].
  unfold flat_bbox. pose proof (Ne i I) as Ni. pose proof (Ne j J) as Nj. destruct (corners (flat_geo i)) as [|p l]; [congruence|]. destruct (corners (flat_geo j)) as [|q l']; [congruence|]. do 2 eexists. split; [reflexivity|]. split; reflexivity.
Qed.
Lemma flat_clear : clear_cut flat_heap 0 flat_geo.
Proof.
  split.
  - intros i I. apply flat_inside in I. rewrite zgeo_eq by auto. cbn [seq In] in I. repeat (destruct I as [<-|I]; [split; [cbn; lia|apply z_told; reflexivity]|]). destruct I.
  - intros i j I J N. apply flat_inside in I, J. destruct (flat_pairs i j I J N) as [[(-> & ->)|(-> & ->)]|U]; [left; apply flat_opposite|left; apply flat_opposite|right; exact U].
Qed.
Lemma opposite_not_unlike i j : In i (seq 6 12) -> In j (seq 6 12) -> i <> j -> opposite (flat_geo i) (flat_geo j) -> i = 8 /\ j = 16 \/ i = 16 /\ j = 8.
Proof.
  intros I J N O. destruct (flat_pairs i j I J N) as [H|(U & _)]; auto. exfalso. apply flat_inside in I, J. pose proof (unlike_not flat_heap 0 flat_geo flat_bbox flat_isf flat_tests i j I J N U) as F.
  destruct (opposite_yes flat_heap 0 flat_geo flat_bbox flat_isf flat_tests flat_clear i j I J N O) as (T & _). congruence.
Qed.
Lemma flat_one : one_each flat_heap 0 flat_geo.
Proof. intros i j k I J K N N' O O'. apply flat_inside in I, J, K. destruct (opposite_not_unlike i j I J N O), (opposite_not_unlike i k I K N' O'); lia. Qed.
Lemma flat_divides i : (exists j, divides flat_heap 0 flat_geo i j) <-> i = 8 \/ i = 16.
Proof.
  split.
  - intros (j & I & J & N & O & _). apply flat_inside in I, J. destruct (opposite_not_unlike i j I J N O); lia.
  - intros [-> | ->]; [exists 16|exists 8]; (split; [apply flat_inside; cbn; tauto|]; split; [apply flat_inside; cbn; tauto|]; split; [discriminate|]; split; [apply flat_opposite|]; exists (str_of "z"); split; apply flat_lies; cbn; tauto).
Qed.
Lemma flat_num i : In i (seq 6 12) -> dget (combine (seq 6 12) (map Z.of_nat (seq 0 12))) i = Some (Z.of_nat (i - 6)).
Proof. intros I. cbn [seq In] in I. repeat (destruct I as [<-|I]; [reflexivity|]). destruct I. Qed.
Lemma flat_laid : laid_out flat_heap 0 flat_geo (combine (seq 6 12) (map Z.of_nat (seq 0 12))) flat_polys.
Proof.
  intros i k I E. apply flat_inside in I. pose proof (eq_trans (eq_sym (flat_num i I)) E) as E'. clear E. injection E' as E. apply Nat2Z.inj in E. subst k. unfold flat_polys, flat_geo. rewrite nth_error_map, (nth_error_nth' (west ++ east) door_w); [reflexivity|]. apply in_seq in I. cbn. lia.
Qed.

(** Three polygons with the same outline. *)
Definition three_ops : list op :=
  [OpNew KBuilding (str_of "b") 0 []; OpNew KZone (str_of "z") 0 []; OpNew KSolid (str_of "s") 0 []; OpNew KWall (str_of "w") 0 []; OpNew KPolygon (str_of "0") 4 []; OpNew KPolygon (str_of "1") 4 []; OpNew KPolygon (str_of "2") 4 []; OpAdd 0 1; OpAdd 1 2; OpAdd 2 3; OpAdd 3 4; OpAdd 3 5; OpAdd 3 6].
Definition three_heap : heap := run [] three_ops.
Definition pick (i : oid) : oid := if Nat.eqb i 4 then 8 else 16.
Definition three_geo (i : oid) : face * vec * R := flat_geo (pick i).
Definition three_isf (i j : oid) : bool := flat_isf (pick i) (pick j).
Definition three_bbox (i j : oid) : bool := flat_bbox (pick i) (pick j).
Lemma three_added : NoDup (flat_map added three_ops).
Proof. vm_compute. repeat (constructor; [intros H; repeat (destruct H as [H|H]; [discriminate H|]); destruct H|]). constructor. Qed.
Definition three_top : obj := match nth_error three_heap 0 with Some o => o | None => mkObj KZone [] None [] 0 end.
Lemma three_building : nth_error three_heap 0 = Some three_top /\ o_kind three_top = KBuilding.
Proof. split; vm_compute; reflexivity. Qed.
Lemma three_polys_of : polys_of three_heap 0 = [4; 5; 6].
Proof. vm_compute. reflexivity. Qed.
Lemma three_inside i : inside_of three_heap KPolygon 0 i <-> In i [4; 5; 6].
Proof. destruct three_building as (Eb & Kb). rewrite <- (polys_in three_heap (run_wf three_ops [] wf_nil) 0 three_top Eb Kb), three_polys_of. reflexivity. Qed.
Lemma pick_in i : In (pick i) (seq 6 12).
Proof. unfold pick. destruct (Nat.eqb i 4); cbn; tauto. Qed.
Lemma three_tests : tests_are three_heap 0 three_geo three_bbox three_isf.
Proof.
  intros i j _ _ _. unfold three_geo, three_isf, three_bbox. pose proof (pick_in i) as I. pose proof (pick_in j) as J. assert (Ne : forall k, In k (seq 6 12) -> corners (flat_geo k) <> []). { intros k K. rewrite zgeo_eq by auto. cbn [seq In] in K. repeat (destruct K as [<-|K]; [discriminate|]). destruct K. }
  destruct (facing_total (corners (flat_geo (pick i))) (facing_way (flat_geo (pick i))) (corners (flat_geo (pick j))) (facing_way (flat_geo (pick j))) (Ne _ I) (Ne _ J)) as (r & E). split; [unfold flat_isf; rewrite E; reflexivity|].
  unfold flat_bbox. pose proof (Ne _ I) as Ni. pose proof (Ne _ J) as Nj. destruct (corners (flat_geo (pick i))) as [|p l]; [congruence|]. destruct (corners (flat_geo (pick j))) as [|q l']; [congruence|]. do 2 eexists. split; [reflexivity|]. split; reflexivity.
Qed.
Lemma same_unlike : unlike (flat_geo 16) (flat_geo 16).
Proof.
  right. unfold allclose, isclose. cbn -[Rabs]. unfold vopp, smul. cbn [vx vy vz]. replace (Rleb (Rabs (-1 - -1 * -1)) (ATOL8 + GEOM_RTOL * Rabs (-1 * -1))) with false; [reflexivity|]. symmetry. unfold Rleb. destruct (Rle_dec _ _) as [H|H]; auto. exfalso. unfold ATOL8, GEOM_RTOL in H.
  replace (-1 - -1 * -1)%R with (-(2))%R in H by ring. replace (-1 * -1)%R with 1%R in H by ring. rewrite Rabs_Ropp, !Rabs_right in H by lra. lra.
Qed.
Lemma three_clear : clear_cut three_heap 0 three_geo.
Proof.
  split.
  - intros i _. unfold three_geo. apply (proj1 flat_clear). apply flat_inside, pick_in.
  - intros i j I J N. apply three_inside in I, J. unfold three_geo. destruct I as [<-|[<-|[<-|[]]]], J as [<-|[<-|[<-|[]]]]; try congruence; unfold pick; cbn [Nat.eqb]; first [left; apply flat_opposite|right; split; exact same_unlike].
Qed.
