(** Rays in halls: whole runs, an example. *)
From Coq Require Import Ascii String Reals List ZArith Bool Arith Lia Lra Psatz Permutation Classical.
From Verif Require Import Prelude TreeModel VecModel VecProofs SimModel SimSpec SimProofs2 SimProofs3 VoxModel VoxSpec VoxProofs GeomModel GeomSpec GeomProofs1 GeomProofs3 GeomProofs4 TriModel TriSpec PolyModel PolySpec PolyProofs1 PolyProofs2 SolidModel SolidSpec CrossSpec InsideSpec InsideProofs1 InsideProofs3 RoomSpec RoomProofs1 RoomProofs2 RoomProofs3 BoxProofs6 PlanSpec PlanProofs4 PlanProofs5
  WindSpec WindProofs5 LoopSpec ShellSpec HallSpec HallProofs1 HallProofs2 HallProofs3 LocSpec StaySpec StayProofs2 StayProofs3.
Import ListNotations.
Local Open Scope R_scope.

Lemma hall_run polys transparent order_of mn mx s e grid sc fuel num pos vel en hs b plan h t phi ws : RoomSpec.room polys transparent order_of mn mx s e grid sc -> 0 <= eps sc -> 0 < dt sc -> 0 < speed sc * dt sc <= s ->
  length vel = length pos -> length en = length pos -> length hs = length (absorbers sc) -> (forall v, In v vel -> norm v = speed sc) -> simulation_loop sc fuel num pos vel en hs = Ok b ->
  built (AHall plan h t phi) ws -> walled (sides_of ws) polys transparent ->
  forall k i j p p', (i <= j)%nat -> cell (b_pos b) i k p -> cell (b_pos b) j k p' -> travels_well sc b (sides_of ws) k i j -> occupies (AHall plan h t phi) p -> occupies (AHall plan h t phi) p'.
Proof.
  intros Rm Ep D0 Sp Lv Le Lh Nv E (Hh & Sm & Okf & tr & name & names & fn & cn & rf & rc & Mv & H) Wl k i j p p' Lij C C' Tw O.
  destruct (plan_parts plan h tr phi name names fn cn rf rc ws t H Mv Sm) as (_ & _ & _ & _ & _ & _ & _ & _ & _ & _ & _ & _ & T & ((Cov & _) & _)).
  revert p' C' Tw. induction j as [|j IH]; intros p' C' Tw.
  - assert (i = 0%nat) by lia. subst i. destruct C as (r & A & B), C' as (r' & A' & B'). assert (p = p') as -> by congruence. exact O.
  - destruct (Nat.eq_dec i (S j)) as [->|Ne]. { destruct C as (r & A & B), C' as (r' & A' & B'). assert (p = p') as -> by congruence. exact O. }
    destruct (cell_before sc fuel num pos vel en hs b Ep Lv Le Lh E j k p' C') as (q & Cq).
    apply (hall_keeps plan h tr phi name names fn cn rf rc ws t H Mv Sm Hh q p'); [apply IH; auto; [lia|intros l x y y' L; apply (Tw l); lia]|].
    intros f n d m I Sg. apply (unmet polys transparent order_of mn mx s e grid sc Rm fuel num pos vel en hs b Ep D0 Sp Lv Le Lh Nv E (sides_of ws) Wl Okf Cov j k q p' f n d m Cq C' I); auto. apply (Tw j); auto; lia.
Qed.

(** ** An example *)
Definition hall_polys : list face := map fst (map fst lsides).
Lemma in_faces (f : face) : In f hall_polys -> exists n d, In (f, n, d) lsides.
Proof. unfold hall_polys. rewrite map_map. intros I. apply in_map_iff in I. destruct I as (((g, n), d) & E & I). cbn in E. subst g. eauto. Qed.
Lemma lsides_walled : walled lsides hall_polys [].
Proof. intros f n d I. destruct (In_nth_error _ _ I) as (pn & N). exists pn. split; auto. unfold hall_polys. rewrite map_map, nth_error_map, N. reflexivity. Qed.
Lemma lsides_sound ws f n d : lhall ws -> In (f, n, d) lsides -> sound_wall f n d.
Proof.
  intros H I. destruct (plan_parts _ _ _ _ _ _ _ _ _ _ ws vzero H still lfloor_simple) as (_ & _ & _ & _ & _ & _ & _ & _ & _ & _ & _ & _ & T & ((Cov & _) & _)). rewrite (lhall_sides ws H) in Cov.
  destruct (Cov f n d I). apply face_wall; auto. apply lsides_ok; auto.
Qed.
Definition hall_quiet : scene := mkScene (fun _ _ => None) (fun _ _ => 0) (fun _ => vzero) (fun _ => 1) vzero (V 5 4 3) [] 1 (1 / 1000000) (1 / 20) 1.
Definition near_guest (q : vec) : Prop := 69 / 20 <= vx q <= 71 / 20 /\ 9 / 20 <= vy q <= 11 / 20 /\ 19 / 20 <= vz q <= 21 / 20.
Lemma abs_le a b : Rabs a <= b -> - b <= a <= b.
Proof. unfold Rabs. destruct (Rcase_abs a); lra. Qed.
Lemma comp_le (w : vec) c : In c [vx; vy; vz] -> Rabs (c w) <= norm w.
Proof.
  intros I. unfold norm. rewrite <- sqrt_Rsqr_abs. apply sqrt_le_1_alt. unfold Rsqr. destruct w as [a b d]. destruct I as [<-|[<-|[<-|[]]]]; vunf; pose proof (Rle_0_sqr a); pose proof (Rle_0_sqr b); pose proof (Rle_0_sqr d); unfold Rsqr in *; lra.
Qed.
Lemma one_row sc fuel p v en r : absorbers sc = [] -> step_ray sc fuel (mkRay p v (smul (dt sc) v) en) = Ok r -> exists b, simulation_loop sc fuel 1 [p] [v] [en] [] = Ok b /\ b_pos b = [[p]; [r_pos r]].
Proof.
  intros Ab E. assert (St : sim_step sc fuel (mkSim (init_rays sc [p] [v] [en]) []) = Ok (mkSim [r] [])).
  { unfold sim_step, init_rays. cbn [s_rays s_hits map combine absorb r_en]. rewrite Ab. cbn [check_absorbers]. destruct (Rleb en (eps sc)); cbn [mapM rbind]; rewrite E; reflexivity. }
  rewrite loop_trace. cbn [trace]. rewrite St. cbn [rbind]. eexists. split; reflexivity.
Qed.
Lemma guest_room ws : lhall ws -> exists grid sc b, RoomSpec.room hall_polys [] (fun l => l) vzero (V 5 4 3) 1 (1 / 1000) grid sc /\ 0 <= eps sc /\ 0 < dt sc /\ 0 < speed sc * dt sc <= 1 /\ absorbers sc = [] /\ norm slanted = speed sc /\
  simulation_loop sc 3 1 [guest] [slanted] [1] [] = Ok b /\ cell (b_pos b) 0 0 guest /\ (exists p', cell (b_pos b) 1 0 p') /\ forall p', cell (b_pos b) 1 0 p' -> near_guest p'.
Proof.
  intros H.
  assert (Bx : forall f, In f hall_polys -> fst f <> [] /\ forall p, In p (fst f) -> in_box vzero (V 5 4 3) p).
  { assert (X : forallb (fun r : list z3 * list tri * z3 => let '(q, _, _) := r in negb (length q =? 0)%nat && forallb (fun p => let '(x, y, z) := p in (0 <=? x)%Z && (x <=? 5)%Z && (0 <=? y)%Z && (y <=? 4)%Z && (0 <=? z)%Z && (z <=? 3)%Z) q) lfaces = true) by reflexivity. rewrite forallb_forall in X.
    intros f I. unfold hall_polys, lsides in I. rewrite !map_map in I. apply in_map_iff in I. destruct I as (((q, ts), u) & <- & I). specialize (X _ I). cbn beta iota in X. apply andb_true_iff in X. destruct X as (X1 & X2). cbn [zside fst]. split; [destruct q; [discriminate X1|discriminate]|].
    intros p Ip. apply in_map_iff in Ip. destruct Ip as (((x, y), z) & <- & Ip). rewrite forallb_forall in X2. specialize (X2 _ Ip). cbn beta iota in X2. rewrite !andb_true_iff, !Z.leb_le in X2. destruct X2 as (((((A1 & A2) & A3) & A4) & A5) & A6). apply IZR_le in A1, A2, A3, A4, A5, A6. unfold in_box, at3, vzero. cbn [vx vy vz]. lra. }
  destruct (grid_complete vzero (V 5 4 3) (map fst hall_polys) 1 (1 / 1000)) as (grid & Gr & _); [lra|lra| |]. { intros pts I. apply in_map_iff in I. destruct I as (f & <- & I). auto. }
  destruct (scene_exists hall_polys [] (fun l => l) 1 grid hall_quiet) as (sc & Sc & Esf & Eb1 & Eb2 & Eab & _ & Eep & Edt & Esp); [tauto|intros f I; destruct (in_faces f I) as (n & d & I'); exists n, d; apply (lsides_sound ws); auto|].
  cbn [hall_quiet surf bbmin bbmax absorbers eps dt speed] in *.
  destruct (step_terminates sc 1 1 (mkRay guest slanted (smul (dt sc) slanted) 1)) as (r & Hr); rewrite ?Esf, ?Eep; try lra; [intros k; lra|cbn [r_en]; simpl; lra|].
  destruct (one_row sc 3 _ _ _ r Eab (Hr 3%nat (le_n 3))) as (b & Hs & Bp).
  assert (Rm : RoomSpec.room hall_polys [] (fun l => l) vzero (V 5 4 3) 1 (1 / 1000) grid sc) by (split; [tauto|]; split; [lra|]; split; [lra|]; split; [exact Bx|]; split; [exact Gr|exact Sc]).
  assert (C0 : cell (b_pos b) 0 0 guest) by (rewrite Bp; exists [guest]; split; reflexivity). assert (C1 : cell (b_pos b) 1 0 (r_pos r)) by (rewrite Bp; exists [r_pos r]; split; reflexivity).
  exists grid, sc, b. split; [exact Rm|]. rewrite Eep, Edt, Esp. split; [lra|]. split; [lra|]. split; [lra|]. split; [exact Eab|]. split; [exact slanted_norm|]. split; [exact Hs|]. split; [exact C0|]. split; [eauto|].
  intros p' C'. assert (M : p' = guest \/ exists v, norm v = speed sc /\ p' = vadd guest (smul (dt sc) v)).
  { destruct (simulation_moves hall_polys [] (fun l => l) vzero (V 5 4 3) 1 (1 / 1000) grid sc Rm 3 1 [guest] [slanted] [1] [] b) with (i := 0%nat) (k := 0%nat) (p := guest) (p' := p') as [->|(v & Nn & -> & _)]; auto; try (rewrite ?Eep, ?Eab; auto; lra).
    - intros v [<-|[]]. rewrite Esp. exact slanted_norm.
    - right. eauto. }
  destruct M as [->|(v & Nn & ->)]; [unfold near_guest, guest; cbn [vx vy vz]; lra|]. rewrite Esp in Nn. rewrite Edt. unfold near_guest, guest.
  pose proof (comp_le v vx ltac:(simpl; auto)) as X. pose proof (comp_le v vy ltac:(simpl; auto)) as Y. pose proof (comp_le v vz ltac:(simpl; auto)) as Z. rewrite Nn in X, Y, Z. apply abs_le in X, Y, Z. vunf. lra.
Qed.
(** Near the guest nothing is met, and the view is the same. *)
Lemma near_planes q f n d : near_guest q -> In (f, n, d) lsides -> 2 / 5 <= Rabs (dot n q + d).
Proof.
  intros (X & Y & Z). unfold lsides, lfaces. cbn [map zside]. intros I. repeat (destruct I as [I|I]; [injection I as <- <- <-; unfold at3; cbn [fst snd hd map]; vunf; unfold Rabs; destruct (Rcase_abs _); lra|]). destruct I.
Qed.
Lemma near_unmet q q' f n d m : near_guest q -> near_guest q' -> In (f, n, d) lsides -> on_segment q q' m -> ~ in_mesh f m.
Proof.
  intros N N' I (s & Hs & ->) M. assert (Nm : near_guest (seg_point q q' s)).
  { destruct q as [x y z], q' as [x' y' z']. unfold near_guest, seg_point in *. cbn [vx vy vz] in *. vunf. clear -N N' Hs. nra. }
  pose proof (near_planes _ f n d Nm I) as G. destruct (lsides_ok f n d I) as (_ & P & _). pose proof (mesh_on_plane f n d _ P M) as On. unfold on_plane in On. rewrite On, Rabs_R0 in G. lra.
Qed.
Lemma near_off q f n d : near_guest q -> In (f, n, d) lsides -> off_face q f n d.
Proof. intros N I. left. pose proof (near_planes q f n d N I). lra. Qed.
Lemma wide_edge a b q : norm (vsub b a) <= 10 -> norm (vsub q a) <= 10 -> 1 / 10 <= Rabs (vx (cross (vsub b a) (vsub q a))) -> off_edge a b q.
Proof.
  intros A B C. set (u := vsub b a) in *. set (v := vsub q a) in *. pose proof (comp_le (cross u v) vx ltac:(simpl; auto)) as X. pose proof (cross_norm_le u v) as Y. pose proof (norm_pos u) as U. pose proof (norm_pos v) as W.
  unfold off_edge, true_area, dist. fold u v. set (c := norm (cross u v)) in *. set (x := norm u) in *. set (y := norm v) in *. assert (1 / 10 <= x * y) by lra. assert (x * y <= 10 * y) by (apply Rmult_le_compat_r; auto). assert (x * y <= x * 10) by (apply Rmult_le_compat_l; auto).
  repeat split; lra.
Qed.
Lemma short_norm w : Rabs (vx w) <= 5 -> Rabs (vy w) <= 5 -> Rabs (vz w) <= 5 -> norm w <= 10.
Proof.
  intros A B C. unfold norm. rewrite <- (sqrt_square 10) by lra. apply sqrt_le_1_alt. apply abs_le in A, B, C. destruct w as [x y z]. cbn [vx vy vz] in *. vunf. nra.
Qed.
Lemma near_seen q : near_guest q -> seen_well q lsides [false; false; false; true; false; false; false; false].
Proof.
  destruct q as [x y z]. unfold near_guest. cbn [vx vy vz]. intros (X & Y & Z). unfold lsides, lfaces. cbn [map zside]. repeat first [apply Forall2_nil|apply Forall2_cons].
  - exists ((4 - y) / 239). split; [unfold on_plane, ray, sight, at3; cbn [fst snd hd map]; vunf; lra|]. right. left. exists vx. split; [simpl; auto|]. left. cbn [fst map at3]. intros v Iv. repeat (destruct Iv as [<-|Iv]; [unfold ray, sight, at3; cbn [fst snd]; vunf; lra|]). destruct Iv.
  - exists (- (x / 739)). split; [unfold on_plane, ray, sight, at3; cbn [fst snd hd map]; vunf; lra|left; lra].
  - exists (- (y / 239)). split; [unfold on_plane, ray, sight, at3; cbn [fst snd hd map]; vunf; lra|left; lra].
  - exists ((5 - x) / 739). split; [lra|]. exists (3, 1, 2)%nat, (at3 (5, 0, 0)%Z), (at3 (5, 2, 3)%Z), (at3 (5, 2, 0)%Z). split; [simpl; auto|]. split; [split; [reflexivity|split; reflexivity]|].
    split; [|split; [|split]; (apply wide_edge; [apply short_norm; unfold at3, ray, sight; cbn [fst snd]; vunf; apply Rabs_le; lra|apply short_norm; unfold at3, ray, sight; cbn [fst snd]; vunf; apply Rabs_le; lra|unfold at3, ray, sight; cbn [fst snd]; vunf; unfold Rabs; destruct (Rcase_abs _); lra])].
    set (q := ray (V x y z) ((5 - x) / 739)). exists (1 - vy q / 2), (vz q / 3), (vy q / 2 - vz q / 3). unfold q, bary, ray, sight, at3. cbn [fst snd]. vunf. repeat (split; [lra|]). f_equal; lra.
  - exists ((2 - y) / 239). split; [unfold on_plane, ray, sight, at3; cbn [fst snd hd map]; vunf; lra|]. right. left. exists vx. split; [simpl; auto|]. left. cbn [fst map at3]. intros v Iv. repeat (destruct Iv as [<-|Iv]; [unfold ray, sight, at3; cbn [fst snd]; vunf; lra|]). destruct Iv.
  - exists (- ((x - 3) / 739)). split; [unfold on_plane, ray, sight, at3; cbn [fst snd hd map]; vunf; lra|left; lra].
  - exists (- (z / 113)). split; [unfold on_plane, ray, sight, at3; cbn [fst snd hd map]; vunf; lra|left; lra].
  - exists ((3 - z) / 113). split; [unfold on_plane, ray, sight, at3; cbn [fst snd hd map]; vunf; lra|]. right. left. exists vx. split; [simpl; auto|]. left. cbn [fst map at3]. intros v Iv. repeat (destruct Iv as [<-|Iv]; [unfold ray, sight, at3; cbn [fst snd]; vunf; lra|]). destruct Iv.
Qed.
