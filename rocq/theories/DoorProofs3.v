(** Two boxes with a door between them: an example. *)
From Coq Require Import Ascii String Reals List ZArith Bool Arith Lia Lra Psatz Permutation Classical.
From Verif Require Import Prelude TreeModel VecModel VecProofs SimModel SimSpec SimProofs2 SimProofs3 VoxModel VoxSpec VoxProofs GeomModel GeomSpec GeomProofs1 GeomProofs3 GeomProofs4 TriModel TriSpec PolyModel PolySpec PolyProofs1 SliceModel SliceSpec SolidModel SolidSpec CrossSpec InsideSpec InsideProofs1 InsideProofs2 InsideProofs3 RoomSpec RoomProofs1 RoomProofs2 RoomProofs3 RoomProofs4 AimProofs
  WindSpec LoopSpec LoopProofs4 LoopProofs5 LoopProofs6 ShellSpec ShellProofs4 ShellProofs5 ShellProofs8 ShellProofs9 StaySpec StayProofs2 StayProofs4 StayProofs5 DoorSpec DoorProofs1 DoorProofs2.
Import ListNotations.
Local Open Scope R_scope.

(** The computed distance is not below the distance to the plane. *)
Lemma wall_below (f : face) n d m p r : sound_wall f n d -> first_normal_is (fst f) m -> distance_point_to_polygon p (fst f) (snd f) m = Ok r -> Rabs (dot n p + d) <= r.
Proof.
  intros S Fn E. pose proof S as ((U & Pl & _) & _). pose proof (plane_distance n d p U) as (_ & P). destruct (distance_cases f n d m p r S Fn E) as [(_ & ((q & Q & <-) & _))|(_ & ((q & Q & <-) & _))]; [apply P; auto|].
  apply P. destruct Q as ((a, b) & Ie & (t & T & ->)). cbn [fst snd]. destruct (LoopProofs4.cyc_pts (fst f) (a, b) Ie) as (Ia & Ib). cbn [fst snd] in Ia, Ib. pose proof (Pl a Ia) as A. pose proof (Pl b Ib) as B. unfold on_plane, seg_point in *.
  replace (dot n (vadd a (smul t (vsub b a)))) with ((1 - t) * dot n a + t * dot n b) by (vunf; ring). replace (dot n a) with (- d) by lra. replace (dot n b) with (- d) by lra. ring.
Qed.

Definition west : list (face * vec * R) := box_sides 4 4 4 vzero.
Definition east : list (face * vec * R) := box_sides 4 4 4 (V 4 0 0).
Definition door_w : face * vec * R := ([corner_of 4 4 4 vzero 1 0 0; corner_of 4 4 4 vzero 1 1 0; corner_of 4 4 4 vzero 1 1 1; corner_of 4 4 4 vzero 1 0 1], QT, V 1 0 0, - (4 + 0)).
Definition door_e : face * vec * R := ([corner_of 4 4 4 (V 4 0 0) 0 0 0; corner_of 4 4 4 (V 4 0 0) 0 0 1; corner_of 4 4 4 (V 4 0 0) 0 1 1; corner_of 4 4 4 (V 4 0 0) 0 1 0], QT, V (-1) 0 0, 4).
Definition walls_we : list (face * vec * R) := firstn 2 west ++ skipn 3 west ++ firstn 4 east ++ skipn 5 east.
Definition flat_polys : list face := map (fun x => fst (fst x)) (west ++ east).
Definition here : vec := V (399 / 100) 1 (1 / 2).
Definition there : vec := V (101 / 25) 1 (1 / 2).
Definition ahead : vec := V 1 0 0.
Lemma west_fits : box_fits 4 4 4 vzero.
Proof. exists 4. unfold vzero. cbn [vx vy vz]. rewrite Rabs_R0. repeat split; lra. Qed.
Lemma east_fits : box_fits 4 4 4 (V 4 0 0).
Proof. exists 4. cbn [vx vy vz]. rewrite Rabs_R0, (Rabs_right 4) by lra. repeat split; lra. Qed.
Lemma west_solid : closed_solid west.
Proof. split; [exact (box_sound _ _ _ _ west_fits)|]. split; [discriminate|]. exists (concat (box_tris 4 4 4 vzero)). apply shell_loose. apply box_shell. exact west_fits. Qed.
Lemma east_solid : closed_solid east.
Proof. split; [exact (box_sound _ _ _ _ east_fits)|]. split; [discriminate|]. exists (concat (box_tris 4 4 4 (V 4 0 0))). apply shell_loose. apply box_shell. exact east_fits. Qed.
Lemma both_list : west ++ east = firstn 2 west ++ door_w :: skipn 3 west ++ firstn 4 east ++ door_e :: skipn 5 east.
Proof. reflexivity. Qed.
Lemma both_perm : Permutation (concat [west; east]) (walls_we ++ both_sides [(door_w, door_e)]).
Proof.
  cbn [concat]. rewrite app_nil_r, both_list. unfold walls_we, both_sides. cbn [flat_map fst snd app]. rewrite <- !app_assoc.
  set (a := firstn 2 west). set (b := skipn 3 west). set (c := firstn 4 east). set (d := skipn 5 east). clearbody a b c d.
  apply Permutation_app_head. rewrite (Permutation_middle b). apply Permutation_app_head. rewrite (Permutation_middle c). apply Permutation_app_head.
  rewrite (Permutation_app_comm d [door_w; door_e]). cbn [app]. apply perm_swap || reflexivity.
Qed.
Lemma all_cover f n d : In (f, n, d) (west ++ east) -> sound_face f n d /\ covers f n d /\ simple_outline (fst f).
Proof.
  intros I. apply in_app_or in I. destruct I as [I|I].
  - split; [apply (box_sound _ _ _ _ west_fits); exact I|]. exact (proj1 (proj1 (box_shell _ _ _ _ west_fits)) f n d I).
  - split; [apply (box_sound _ _ _ _ east_fits); exact I|]. exact (proj1 (proj1 (box_shell _ _ _ _ east_fits)) f n d I).
Qed.
Lemma walls_in x : In x walls_we -> In x (west ++ east).
Proof. unfold walls_we. rewrite both_list, !in_app_iff. cbn [In]. rewrite !in_app_iff. cbn [In]. tauto. Qed.
Lemma doors_in : In door_w (west ++ east) /\ In door_e (west ++ east).
Proof. rewrite both_list. split; apply in_or_app; right; [left; auto|right; apply in_or_app; right; apply in_or_app; right; left; auto]. Qed.
Lemma doors_twins : twins door_w door_e.
Proof.
  destruct doors_in as (I1 & I2). destruct (all_cover _ _ _ I1) as (_ & C1 & S1). destruct (all_cover _ _ _ I2) as (_ & C2 & S2). cbn [fst] in S1, S2.
  assert (E : fst (fst (fst door_e)) = [corner_of 4 4 4 vzero 1 0 0; corner_of 4 4 4 vzero 1 0 1; corner_of 4 4 4 vzero 1 1 1; corner_of 4 4 4 vzero 1 1 0]) by (unfold door_e; cbn [fst]; unfold corner_of, vzero; cbn [vx vy vz]; repeat (apply f_equal2; [f_equal; lra|]); reflexivity).
  assert (R : reverse_loop (fst (fst (fst door_w))) (fst (fst (fst door_e)))). { exists (rev (skipn 1 (fst (fst (fst door_w))))), [corner_of 4 4 4 vzero 1 0 0]. split; [reflexivity|]. rewrite E. reflexivity. }
  intros m. split.
  - apply (same_place _ (V 1 0 0) (- (4 + 0)) _ (V (-1) 0 0) 4); auto. right. split; [vunf; f_equal; lra|lra].
  - apply (same_place _ (V (-1) 0 0) 4 _ (V 1 0 0) (- (4 + 0))); auto; [right; split; [vunf; f_equal; lra|lra]|]. destruct (loop_sym _ _ (or_intror R)); auto.
Qed.

(** Views. *)
Ltac onp := unfold on_plane, ray, sight, here, there, vzero; vunf; lra.
Ltac behind t := exists t; split; [onp|left; lra].
Ltac aside t := exists t; split; [onp|]; right; left; exists vx; split; [simpl; auto|]; left; cbn [fst]; unfold corner_of, vzero; intros v Iv; repeat (destruct Iv as [<-|Iv]; [unfold ray, here, there, sight; vunf; lra|]); destruct Iv.
Ltac hit p t a b c f g := exists t; split; [lra|]; exists (3, 0, 1)%nat, a, b, c; split; [simpl; auto|]; split; [split; [reflexivity|split; reflexivity]|];
  split; [exists (f (ray p t) / 4), (1 - f (ray p t) / 4 - g (ray p t) / 4), (g (ray p t) / 4); unfold bary, corner_of, ray, sight, here, there, vzero; vunf; repeat (split; [lra|]); f_equal; lra|split; [|split]; apply off_edge_sq; unfold corner_of, ray, sight, here, there, vzero; vunf; lra].
Ltac views := rewrite box_sides_list; repeat first [apply Forall2_nil|apply Forall2_cons].
Lemma here_west : seen_well here west [false; false; true; false; false; false].
Proof.
  unfold west. views; [behind (- (1 / 226))|behind (- (1 / 239))| |aside (3 / 239)|behind (- (399 / 73900))|aside (7 / 226)].
  hit here (1 / 73900) (corner_of 4 4 4 vzero 1 0 1) (corner_of 4 4 4 vzero 1 0 0) (corner_of 4 4 4 vzero 1 1 0) vz vy.
Qed.
Lemma here_east : seen_well here east [false; false; true; false; true; false].
Proof.
  unfold east. views; [behind (- (1 / 226))|behind (- (1 / 239))| |aside (3 / 239)| |aside (7 / 226)].
  - hit here (401 / 73900) (corner_of 4 4 4 (V 4 0 0) 1 0 1) (corner_of 4 4 4 (V 4 0 0) 1 0 0) (corner_of 4 4 4 (V 4 0 0) 1 1 0) vz vy.
  - hit here (1 / 73900) (corner_of 4 4 4 (V 4 0 0) 0 1 0) (corner_of 4 4 4 (V 4 0 0) 0 0 0) (corner_of 4 4 4 (V 4 0 0) 0 0 1) vy vz.
Qed.
Lemma there_west : seen_well there west [false; false; false; false; false; false].
Proof. unfold west. views; [behind (- (1 / 226))|behind (- (1 / 239))|behind (- (1 / 18475))|aside (3 / 239)|behind (- (101 / 18475))|aside (7 / 226)]. Qed.
Lemma there_east : seen_well there east [false; false; true; false; false; false].
Proof.
  unfold east. views; [behind (- (1 / 226))|behind (- (1 / 239))| |aside (3 / 239)|behind (- (1 / 18475))|aside (7 / 226)].
  hit there (99 / 18475) (corner_of 4 4 4 (V 4 0 0) 1 0 1) (corner_of 4 4 4 (V 4 0 0) 1 0 0) (corner_of 4 4 4 (V 4 0 0) 1 1 0) vz vy.
Qed.
Ltac each I := repeat (destruct I as [I|I]; [injection I as <- <- <-|]); try (destruct I; fail).
Ltac farp := vunf; unfold Rabs; destruct (Rcase_abs _); lra.
Lemma all_off q f n d : q = here \/ q = there -> In (f, n, d) (west ++ east) -> 1 / 100 <= Rabs (dot n q + d).
Proof. intros Q I. unfold west, east in I. rewrite !box_sides_list in I. unfold box_list in I. cbn [app] in I. destruct Q as [-> | ->]; unfold here, there; each I; unfold vzero; farp. Qed.
Lemma wall_off q f n d : 399 / 100 <= vx q <= 101 / 25 -> vy q = 1 -> vz q = 1 / 2 -> In (f, n, d) walls_we -> 2 / 5 <= Rabs (dot n q + d).
Proof.
  destruct q as [x y z]. cbn [vx vy vz]. intros X -> -> I. unfold walls_we, west, east in I. rewrite !box_sides_list in I. unfold box_list in I. cbn [firstn skipn app] in I. each I; unfold vzero; farp.
Qed.

(** The run. *)
Lemma flat_wall pn f : nth_error flat_polys pn = Some f -> exists n d, nth_error (west ++ east) pn = Some (f, n, d).
Proof. unfold flat_polys. rewrite nth_error_map. destruct (nth_error (west ++ east) pn) as [((g, n), d)|] eqn:E; [|discriminate]. cbn [option_map fst]. intros H. injection H as <-. eauto. Qed.
Lemma solid_polys f : In f flat_polys -> exists n d, sound_wall f n d.
Proof. intros I. destruct (In_nth_error _ _ I) as (pn & N). destruct (flat_wall pn f N) as (n & d & N'). apply nth_error_In in N'. destruct (all_cover _ _ _ N') as (A & B & C). exists n, d. apply face_wall; auto. Qed.
Lemma opaque pn x : nth_error (west ++ east) pn = Some x -> ~ In pn [2; 10]%nat -> In x walls_we.
Proof.
  unfold walls_we, west, east. rewrite !box_sides_list. unfold box_list. cbn [firstn skipn app]. intros N T.
  do 12 (destruct pn as [|pn]; [first [exfalso; apply T; simpl; tauto|cbn [nth_error] in N; injection N as <-; simpl; tauto]|]). cbn [nth_error] in N. destruct pn; discriminate N.
Qed.
Lemma we_walled : walled walls_we flat_polys [2; 10]%nat.
Proof.
  intros f n d I. unfold walls_we, west, east in I. rewrite !box_sides_list in I. unfold box_list in I. cbn [firstn skipn app] in I.
  repeat (destruct I as [I|I]; [injection I as <- <- <-; first [exists 0%nat; split; [reflexivity|simpl; lia]|exists 1%nat; split; [reflexivity|simpl; lia]|exists 3%nat; split; [reflexivity|simpl; lia]|exists 4%nat; split; [reflexivity|simpl; lia]|exists 5%nat; split; [reflexivity|simpl; lia]|exists 6%nat; split; [reflexivity|simpl; lia]|exists 7%nat; split; [reflexivity|simpl; lia]|exists 8%nat; split; [reflexivity|simpl; lia]|exists 9%nat; split; [reflexivity|simpl; lia]|exists 11%nat; split; [reflexivity|simpl; lia]]|]).
  destruct I.
Qed.
Definition flat_quiet : scene := mkScene (fun _ _ => None) (fun _ _ => 0) (fun _ => vzero) (fun _ => 1) vzero (V 8 4 4) [] 1 (1 / 1000000) (1 / 20) 1.
Lemma flat_room : exists grid sc b, RoomSpec.room flat_polys [2; 10]%nat (fun l => l) vzero (V 8 4 4) 1 (1 / 1000) grid sc /\ 0 <= eps sc /\ 0 < dt sc /\ 0 < speed sc * dt sc <= 1 /\ absorbers sc = [] /\ norm ahead = speed sc /\
  simulation_loop sc 5 1 [here] [ahead] [1] [] = Ok b /\ b_pos b = [[here]; [there]].
Proof.
  assert (Bx : forall f, In f flat_polys -> fst f <> [] /\ forall p, In p (fst f) -> VoxSpec.in_box vzero (V 8 4 4) p).
  { intros f I. destruct (In_nth_error _ _ I) as (pn & N). destruct (flat_wall pn f N) as (n & d & N'). apply nth_error_In in N'. unfold west, east in N'. rewrite !box_sides_list in N'. unfold box_list in N'. cbn [app] in N'. clear I N.
    each N'; (split; [discriminate|]); intros p Ip; unfold corner_of, vzero, VoxSpec.in_box in *; cbn [fst vx vy vz] in *; repeat (destruct Ip as [<-|Ip]; [cbn [vx vy vz]; lra|]); destruct Ip. }
  destruct (grid_complete vzero (V 8 4 4) (map fst flat_polys) 1 (1 / 1000)) as (grid & Gr & _); [lra|lra| |]. { intros pts I. apply in_map_iff in I. destruct I as (f & <- & I). auto. }
  destruct (scene_exists flat_polys [2; 10]%nat (fun l => l) 1 grid flat_quiet) as (sc & Sc & Esf & Eb1 & Eb2 & Eab & _ & Eep & Edt & Esp); [tauto|exact solid_polys|].
  cbn [flat_quiet surf bbmin bbmax absorbers eps dt speed] in *.
  assert (Rm : RoomSpec.room flat_polys [2; 10]%nat (fun l => l) vzero (V 8 4 4) 1 (1 / 1000) grid sc) by (split; [tauto|]; split; [lra|]; split; [lra|]; split; [exact Bx|]; split; [exact Gr|exact Sc]).
  assert (St : step_ray sc 5 (mkRay here ahead (smul (dt sc) ahead) 1) = Ok (mkRay (vadd here (smul (dt sc) ahead)) ahead (smul (dt sc) ahead) 1)).
  { apply step_fly; rewrite ?Eep; try lra; [unfold SimModel.outside; rewrite Eb1, Eb2, Eep; unfold here, vzero; cbn [vx vy vz]; rewrite !orb_false_iff; repeat split; apply Rltb_false; lra|].
    destruct (target sc here ahead) as [k|] eqn:T; [right; exists k; split; auto|left; auto]. destruct (target_hit _ _ _ _ _ _ _ _ _ Rm here ahead k T) as (f & N & NT & _). destruct (flat_wall k f N) as (n & d & N').
    destruct (all_cover _ _ _ (nth_error_In _ _ N')) as (A & B & C). destruct Sc as (Sc & _). destruct (Sc k f N) as (Fn & D). pose proof (wall_below f n d _ here _ (face_wall f n d A B C) Fn (D here)) as L.
    pose proof (wall_off here f n d ltac:(unfold here; cbn [vx]; lra) eq_refl eq_refl (opaque k _ N' NT)). unfold rdist. rewrite Edt, Esp. lra. }
  destruct (one_row sc 5 _ _ _ _ Eab St) as (b & Hs & Bp). exists grid, sc, b. split; [exact Rm|]. rewrite Eep, Edt, Esp. do 3 (split; [lra|]). split; [exact Eab|].
  split; [unfold norm; replace (dot ahead ahead) with 1 by (unfold ahead; vunf; ring); apply sqrt_1|]. split; [exact Hs|]. rewrite Bp. cbn [r_pos]. rewrite Edt. replace (vadd here (smul (1 / 20) ahead)) with there by (unfold here, there, ahead; vunf; f_equal; lra). reflexivity.
Qed.
Lemma we_cells b k l p p' : b_pos b = [[here]; [there]] -> cell (b_pos b) l k p -> cell (b_pos b) (S l) k p' -> p = here /\ p' = there.
Proof.
  intros -> (r & E1 & E2) (r' & E1' & E2'). destruct l as [|[|l]]; cbn [nth_error] in *; [|discriminate|discriminate]. injection E1 as <-. injection E1' as <-.
  destruct k as [|k]; cbn [nth_error] in *; [split; congruence|]. destruct k; discriminate E2.
Qed.
Lemma on_way m : on_segment here there m -> 399 / 100 <= vx m <= 101 / 25 /\ vy m = 1 /\ vz m = 1 / 2.
Proof. intros (s & Hs & ->). unfold seg_point, here, there. vunf. lra. Qed.
Lemma we_off f n d m : In (f, n, d) walls_we -> on_segment here there m -> ~ in_mesh f m.
Proof.
  intros I Sg M. destruct (on_way m Sg) as (X & Y & Z). pose proof (wall_off m f n d X Y Z I) as G. destruct (all_cover _ _ _ (walls_in _ I)) as ((_ & P & _) & _). pose proof (mesh_on_plane f n d m P M) as On. unfold on_plane in On. rewrite On, Rabs_R0 in G. lra.
Qed.
Lemma we_travels sc b k i j : b_pos b = [[here]; [there]] -> travels_well sc b walls_we k i j.
Proof. intros Bp l ((f, n), d) p p' _ C C' I. destruct (we_cells b k l p p' Bp C C') as (-> & ->). intros m Sg M. destruct (we_off f n d m I Sg M). Qed.
Lemma through_w : goes_through door_w here there.
Proof.
  split; [unfold here, there; vunf; lra|]. exists (1 / 5), (3, 0, 1)%nat, (corner_of 4 4 4 vzero 1 0 1), (corner_of 4 4 4 vzero 1 0 0), (corner_of 4 4 4 vzero 1 1 0). split; [lra|]. split; [simpl; auto|]. split; [split; [reflexivity|split; reflexivity]|].
  exists (1 / 8), (5 / 8), (1 / 4). unfold bary, seg_point, corner_of, here, there, vzero. vunf. repeat (split; [lra|]). f_equal; lra.
Qed.
Lemma through_e : goes_through door_e here there.
Proof.
  split; [unfold here, there; vunf; lra|]. exists (1 / 5), (3, 0, 1)%nat, (corner_of 4 4 4 (V 4 0 0) 0 1 0), (corner_of 4 4 4 (V 4 0 0) 0 0 0), (corner_of 4 4 4 (V 4 0 0) 0 0 1). split; [lra|]. split; [simpl; auto|]. split; [split; [reflexivity|split; reflexivity]|].
  exists (1 / 4), (5 / 8), (1 / 8). unfold bary, seg_point, corner_of, here, there, vzero. vunf. repeat (split; [lra|]). f_equal; lra.
Qed.
Lemma we_doors b k i j : b_pos b = [[here]; [there]] -> doors_well b (both_sides [(door_w, door_e)]) k i j.
Proof. intros Bp l x p p' _ C C' I. destruct (we_cells b k l p p' Bp C C') as (-> & ->). left. destruct I as [<-|[<-|[]]]; [exact through_w|exact through_e]. Qed.
Lemma we_viewed fs q : In fs [west; east] -> q = here \/ q = there -> viewed fs q.
Proof.
  intros I Q. split.
  - destruct I as [<-|[<-|[]]], Q as [-> | ->]; eexists; [exact here_west|exact there_west|exact here_east|exact there_east].
  - intros f n d If. left. assert (In (f, n, d) (west ++ east)) as W by (apply in_or_app; destruct I as [<-|[<-|[]]]; auto). pose proof (all_off q f n d Q W). lra.
Qed.
