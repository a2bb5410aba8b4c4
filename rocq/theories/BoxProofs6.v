(** Proofs: rooms made from boxes, whole runs, examples. *)
From Coq Require Import Ascii String Reals ZArith List Bool Arith Lia Lra.
From Verif Require Import Prelude TreeModel VecModel VecProofs SimModel SimSpec SimProofs SimProofs2 SimProofs3 SimProofs4 VoxModel VoxSpec VoxProofs GeomModel GeomSpec GeomProofs1 GeomProofs2 GeomProofs3 GeomProofs4 GeomProofs5 TriModel TriSpec PolyModel PolySpec PolyProofs1 PolyProofs2 SolidModel SolidSpec SolidProofs1 CrossSpec InsideSpec RoomSpec RoomProofs1 RoomProofs2 RoomProofs3 RoomProofs4 BoxSpec BoxProofs1 BoxProofs2 BoxProofs3 BoxProofs4 BoxProofs5.
Import ListNotations.
Local Open Scope R_scope.

(** A cell has a predecessor. *)
Lemma cell_before sc fuel num pos vel en hits b : 0 <= eps sc -> length vel = length pos -> length en = length pos -> length hits = length (absorbers sc) ->
  simulation_loop sc fuel num pos vel en hits = Ok b -> forall i k p', cell (b_pos b) (S i) k p' -> exists p, cell (b_pos b) i k p.
Proof.
  intros Ep Lv Le Lh E i k p' (row' & Nr' & Nk'). destruct (loop_history sc Ep fuel num pos vel en hits b Lv Le Lh E) as (s0 & sts & _ & _ & Rn & Eb & _).
  rewrite Eb, nth_error_map in Nr'. destruct (nth_error sts (S i)) as [s2|] eqn:E2; [|discriminate]. injection Nr' as <-. rewrite nth_error_map in Nk'. destruct (nth_error (s_rays s2) k) as [r'|] eqn:Er'; [|discriminate].
  destruct (nth_error sts i) as [s1|] eqn:E1; [|apply nth_error_None in E1; assert (X : nth_error sts (S i) <> None) by congruence; apply nth_error_Some in X; lia].
  destruct (proj2 Rn i s1 s2 E1 E2) as ((rs & A & O) & _). destruct (forall2_nth _ _ _ _ _ O Er') as (r1 & N1 & _). destruct (forall2_nth _ _ _ _ _ A N1) as (r & Nr & _).
  exists (r_pos r). exists (map r_pos (s_rays s1)). split; [rewrite Eb; exact (map_nth_error (fun st => map r_pos (s_rays st)) i sts E1)|exact (map_nth_error r_pos k _ Nr)].
Qed.

(** Every box of moderate size is a room. *)
Lemma box_room x y z mv name sc0 s e : box_dims x y z mv -> validate_name name = Ok name -> 0 < s -> 0 <= e ->
  exists ws grid sc, box x y z mv name = Ok ws /\ room (faces_of ws) [] (fun l => l) mv (vadd mv (V x y z)) s e grid sc /\
    surf sc = surf sc0 /\ bbmin sc = bbmin sc0 /\ bbmax sc = bbmax sc0 /\ absorbers sc = absorbers sc0 /\ eps sc = eps sc0 /\ dt sc = dt sc0 /\ speed sc = speed sc0.
Proof.
  intros D Hv S0 E0. destruct (box_ok x y z mv (fits x y z mv D) name Hv) as (ws & Hb & _). pose proof (faces_sides x y z mv D name ws Hb Hv) as F.
  assert (Bx : forall f, In f (faces_of ws) -> fst f <> [] /\ forall p, In p (fst f) -> in_box mv (vadd mv (V x y z)) p).
  { intros f I. rewrite F in I. destruct D as (Dx & Dy & Dz & _). unfold sides in I. cbn [map side_face] in I.
    destruct I as [<-|[<-|[<-|[<-|[<-|[<-|[]]]]]]]; (split; [discriminate|]); unfold rface, off, box_point, ex, ey, ez, in_box; cbn [fst]; intros p [<-|[<-|[<-|[<-|[]]]]]; vunf; lra. }
  destruct (grid_complete mv (vadd mv (V x y z)) (map fst (faces_of ws)) s e S0 E0) as (grid & Gr & _). { intros pts I. apply in_map_iff in I. destruct I as (f & <- & I). auto. }
  destruct (scene_exists (faces_of ws) [] (fun l => l) s grid sc0) as (sc & Sc & Esf & Eb1 & Eb2 & Eab & _ & Eep & Edt & Esp); [tauto| |].
  { intros f I. rewrite F in I. apply in_map_iff in I. destruct I as (((((o, e1), e2), L), W) & <- & I). pose proof (sides_ok x y z mv D _ I) as (A & HL & HW). do 2 eexists. exact (rect_wall o e1 e2 _ L W A HL HW eq_refl). }
  exists ws, grid, sc. split; auto. split; [split; [tauto|]; split; [lra|]; split; [lra|]; split; [exact Bx|]; split; [exact Gr|exact Sc]|]. repeat (split; auto).
Qed.

Section Box.
Context (x y z : R) (mv : vec) (D : box_dims x y z mv) (name : str) (ws : list wall_t) (Hb : box x y z mv name = Ok ws) (Hv : validate_name name = Ok name).
Context (order_of : list nat -> list nat) (mn mx : vec) (s e : R) (grid : dict (Z * Z * Z) (list nat)) (sc : scene).
Context (Rm : room (faces_of ws) [] order_of mn mx s e grid sc).
Lemma box_keeps fuel num pos vel en hits b : 0 <= eps sc -> length vel = length pos -> length en = length pos -> length hits = length (absorbers sc) ->
  (forall v, In v vel -> norm v = speed sc /\ no_tiny v) -> simulation_loop sc fuel num pos vel en hits = Ok b -> 0 < dt sc -> 1 / 1000 < speed sc * dt sc <= s ->
  forall k i, (forall p, cell (b_pos b) 0 k p -> inside_box x y z mv p) ->
  (forall j p p' t, (j < i)%nat -> cell (b_pos b) j k p -> cell (b_pos b) (S j) k p' -> 0 <= t <= 1 -> ~ near_edge x y z mv (vadd p (smul t (vsub p' p)))) ->
  forall p, cell (b_pos b) i k p -> inside_box x y z mv p.
Proof.
  intros Ep Lv Le Lh Nv E D0 Sp k i I0. induction i as [|i IH]; intros Cl p' C'; [auto|].
  destruct (cell_before sc fuel num pos vel en hits b Ep Lv Le Lh E i k p' C') as (p & C).
  assert (I : inside_box x y z mv p). { apply (IH (fun j p p' t L => Cl j p p' t (Nat.lt_lt_succ_r _ _ L)) p C). }
  destruct (box_confines x y z mv D name ws Hb Hv order_of mn mx s e grid sc Rm fuel num pos vel en hits b Ep Lv Le Lh Nv E D0 Sp i k p p' C C' I) as [H|(t & T & H)]; [exact H|].
  exfalso. apply (Cl i p p' t (Nat.lt_succ_diag_r i) C C' T H).
Qed.
End Box.

(** One ray, one step. *)
Lemma one_step sc fuel p v en r : absorbers sc = [] -> step_ray sc fuel (mkRay p v (smul (dt sc) v) en) = Ok r -> exists b, simulation_loop sc fuel 1 [p] [v] [en] [] = Ok b.
Proof.
  intros Ab E. assert (St : sim_step sc fuel (mkSim (init_rays sc [p] [v] [en]) []) = Ok (mkSim [r] [])).
  { unfold sim_step, init_rays. cbn [s_rays s_hits map combine absorb r_en]. rewrite Ab. cbn [check_absorbers]. destruct (Rleb en (eps sc)); cbn [mapM rbind]; rewrite E; reflexivity. }
  rewrite loop_trace. cbn [trace]. rewrite St. cbn [rbind]. eauto.
Qed.
Definition slanted : vec := V (2 / 7) (3 / 7) (6 / 7).
Lemma slanted_norm : norm slanted = 1.
Proof. unfold norm, slanted. replace (dot _ _) with 1 by (vunf; field). apply sqrt_1. Qed.
Lemma slanted_oblique : oblique slanted.
Proof. intros c [<-|[<-|[<-|[]]]]; unfold slanted; cbn [vx vy vz]; rewrite Rabs_pos_eq; lra. Qed.
Definition cube_scene : scene := mkScene (fun _ _ => None) (fun _ _ => 0) (fun _ => vzero) (fun _ => 1 / 10) vzero (V 2 2 2) [] 1 (1 / 1000000) (1 / 4) 1.
Definition cube_name : str := ["b"%char].
Lemma cube_ok : box_dims 2 2 2 vzero /\ validate_name cube_name = Ok cube_name /\ inside_box 2 2 2 vzero (V 1 1 1).
Proof. split; [unfold box_dims, vzero; cbn [vx vy vz]; rewrite Rabs_R0; lra|]. split; [reflexivity|]. unfold inside_box, vzero. cbn [vx vy vz]. lra. Qed.
Lemma cube_room : exists ws grid sc b, box 2 2 2 vzero cube_name = Ok ws /\ room (faces_of ws) [] (fun l => l) vzero (vadd vzero (V 2 2 2)) 1 (1 / 1000) grid sc /\
  0 < dt sc /\ 1 / 1000 < speed sc * dt sc <= 1 /\ 0 <= eps sc /\ absorbers sc = [] /\ 2 * rdist sc < 2 /\ (forall k, 0 <= surf sc k <= 1 / 10) /\ ~ left_box sc (V 1 1 1) /\ eps sc + 3 * (1 / 10) < 1 /\
  norm slanted = speed sc /\ simulation_loop sc 5 1 [V 1 1 1] [slanted] [1] [] = Ok b.
Proof.
  destruct cube_ok as (D & Hv & I). destruct (box_room 2 2 2 vzero cube_name cube_scene 1 (1 / 1000) D Hv) as (ws & grid & sc & Hb & Rm & Esf & E1 & E2 & Eab & Eep & Edt & Esp); [lra|lra|].
  cbn [cube_scene surf bbmin bbmax absorbers eps dt speed] in *. assert (Rd : rdist sc = 101 / 400) by (unfold rdist; rewrite Esp, Edt; lra).
  destruct (box_step 2 2 2 vzero D cube_name ws Hb Hv _ _ _ _ _ _ sc Rm (mkRay (V 1 1 1) slanted (smul (dt sc) slanted) 1) I) as (r & Hr); rewrite ?Rd; try lra; [exact slanted_oblique|].
  destruct (one_step sc 5 (V 1 1 1) slanted 1 r Eab (Hr 5%nat (le_n 5))) as (b & Hs). exists ws, grid, sc, b. split; [exact Hb|]. split; [exact Rm|]. rewrite Rd. rewrite Edt, Esp, Eep. split; [lra|]. split; [lra|]. split; [lra|]. split; [exact Eab|]. split; [lra|].
  split; [intros k; rewrite Esf; lra|]. split; [unfold left_box; rewrite E1, E2, Eep; unfold vzero; cbn [vx vy vz]; lra|]. split; [lra|]. split; [exact slanted_norm|exact Hs].
Qed.
(** A ray that starts on the floor. *)
Lemma floor_source : exists grid sc b, room [floor_tri] [] (fun l => l) vzero (V 4 4 4) 1 (1 / 1000) grid sc /\ 0 < speed sc * dt sc /\ 0 <= eps sc < 1 /\ absorbers sc = [] /\ simulation_loop sc 12 1 [V 1 1 0] [V 0 0 1] [1] [] = Ok b.
Proof.
  destruct (grid_complete vzero (V 4 4 4) (map fst [floor_tri]) 1 (1 / 1000)) as (grid & Gr & _); [lra|lra| |].
  { intros pts [<-|[]]. split; [discriminate|]. cbn [floor_tri fst]. intros p [<-|[<-|[<-|[]]]]; unfold in_box, vzero; cbn [vx vy vz]; lra. }
  destruct (scene_exists [floor_tri] [] (fun l => l) 1 grid quiet) as (sc & Sc & Esf & Eb1 & Eb2 & Eab & _ & Eep & Edt & Esp); [tauto|intros f [<-|[]]; do 2 eexists; exact floor_sound|].
  cbn [quiet surf bbmin bbmax absorbers eps dt speed] in *.
  destruct (step_terminates sc (1 / 10) 10 (mkRay (V 1 1 0) (V 0 0 1) (smul (dt sc) (V 0 0 1)) 1)) as (r & Hr); rewrite ?Esf, ?Eep; try lra; [intros k; lra|cbn [r_en]; simpl; lra|].
  destruct (one_step sc 12 _ _ _ r Eab (Hr 12%nat (le_n 12))) as (b & Hs). exists grid, sc, b. rewrite Esp, Edt, Eep. split; [|repeat (split; auto; try lra)].
  split; [tauto|]. split; [lra|]. split; [lra|]. split; [|split; [exact Gr|exact Sc]].
  intros f [<-|[]]. split; [discriminate|]. cbn [floor_tri fst]. intros p [<-|[<-|[<-|[]]]]; unfold in_box, vzero; cbn [vx vy vz]; lra.
Qed.
(** Without absorption such a ray makes the step endless. *)
Lemma floor_endless : exists grid sc, room [floor_tri] [] (fun l => l) vzero (V 4 4 4) 1 (1 / 1000) grid sc /\ 0 < speed sc * dt sc /\ 0 <= eps sc < 1 /\ ~ left_box sc (V 1 1 0) /\ (forall k, surf sc k = 0).
Proof.
  destruct (grid_complete vzero (V 4 4 4) (map fst [floor_tri]) 1 (1 / 1000)) as (grid & Gr & _); [lra|lra| |].
  { intros pts [<-|[]]. split; [discriminate|]. cbn [floor_tri fst]. intros p [<-|[<-|[<-|[]]]]; unfold in_box, vzero; cbn [vx vy vz]; lra. }
  destruct (scene_exists [floor_tri] [] (fun l => l) 1 grid (mkScene (fun _ _ => None) (fun _ _ => 0) (fun _ => vzero) (fun _ => 0) vzero (V 4 4 4) [] 1 (1 / 1000000) (1 / 4) 1)) as (sc & Sc & Esf & Eb1 & Eb2 & Eab & _ & Eep & Edt & Esp); [tauto|intros f [<-|[]]; do 2 eexists; exact floor_sound|].
  cbn [surf bbmin bbmax absorbers eps dt speed] in *. exists grid, sc. rewrite Esp, Edt, Eep. split; [|split; [lra|split; [lra|split; [|intros k; rewrite Esf; auto]]]].
  - split; [tauto|]. split; [lra|]. split; [lra|]. split; [|split; [exact Gr|exact Sc]].
    intros f [<-|[]]. split; [discriminate|]. cbn [floor_tri fst]. intros p [<-|[<-|[<-|[]]]]; unfold in_box, vzero; cbn [vx vy vz]; lra.
  - unfold left_box. rewrite Eb1, Eb2, Eep. unfold vzero. cbn [vx vy vz]. lra.
Qed.
(** In a box no longer than a step the reflections do not end. *)
Lemma ahead_near x y z mv (D : box_dims x y z mv) name ws (Hb : box x y z mv name = Ok ws) (Hv : validate_name name = Ok name) order_of mn mx s e grid sc (Rm : room (faces_of ws) [] order_of mn mx s e grid sc)
  k o e1 e2 L W a b h p v t : nth_error (sides x y z mv) k = Some (o, e1, e2, L, W) -> 1 / 100000 <= a <= L - 1 / 100000 -> 1 / 100000 <= b <= W - 1 / 100000 -> p = vadd (off o e1 e2 a b) (smul h (cross e1 e2)) -> 0 <= t -> vadd p (smul t v) = off o e1 e2 a b ->
  1 / 1000 <= Rabs (dot (cross e1 e2) v) -> norm (vsub (off o e1 e2 a b) p) <= s -> exists k', target sc p v = Some k' /\ pdist sc p k' <= Rabs h + 1 / 100000.
Proof.
  intros N Ha Hb' Ep T Eq Gr Ns. pose proof (sides_ok x y z mv D _ (nth_error_In _ _ N)) as (A & HL & HW). pose proof (side_at x y z mv D name ws Hb Hv k _ N) as Nf. cbn [side_face] in Nf.
  pose proof (rect_wall o e1 e2 (cross e1 e2) L W A HL HW eq_refl) as S. pose proof Rm as (O & S0 & E0 & B & G & Dp & hit & Hh & Ht).
  assert (M : in_mesh (rface o e1 e2 L W) (off o e1 e2 a b)) by (apply rect_in_mesh; lra).
  assert (Hit : hit p v k = true).
  { assert (X : is_point_inside_projection p v (fst (rface o e1 e2 L W)) (snd (rface o e1 e2 L W)) true (1 / 1000) = Ok true); [|rewrite (Hh p v k _ Nf) in X; apply Ok_inj in X; auto].
    rewrite (hit_ahead (rface o e1 e2 L W) (cross e1 e2) (- dot (cross e1 e2) o) p v t S T); auto; rewrite Eq.
    - apply (rect_accepts o e1 e2 (cross e1 e2) L W A HL HW eq_refl); auto; lra.
    - eapply mesh_on_plane; eauto. apply (wall_flat _ _ _ S). }
  destruct (no_wall_missed hit (pdist sc) order_of mn mx (map fst (faces_of ws)) s e grid [] p v k (fst (rface o e1 e2 L W)) (off o e1 e2 a b) O S0 E0 (boxed _ _ _ _ _ _ _ _ _ Rm) G) as (k' & Ek & Lk); auto.
  { exact (map_nth_error fst k _ Nf). } { apply mesh_in_hull; auto. }
  rewrite Ht in Ek. apply Ok_inj in Ek. exists k'. split; auto. apply Rle_trans with (pdist sc p k); auto. destruct (Dp k _ Nf) as (Fn & Ed). specialize (Ed p). rewrite Ep in Ed at 1.
  apply (rect_distance o e1 e2 (cross e1 e2) L W A HL HW eq_refl (pnormal sc k) a b h (pdist sc p k) Fn); [lra|lra|exact Ed].
Qed.
Definition hall_scene : scene := mkScene (fun _ _ => None) (fun _ _ => 0) (fun _ => vzero) (fun _ => 0) vzero (V 1 1 1) [] 1 (1 / 1000000) 1 1.
Lemma small_endless : exists ws grid sc, box 1 1 1 vzero cube_name = Ok ws /\ room (faces_of ws) [] (fun l => l) vzero (vadd vzero (V 1 1 1)) 1 (1 / 1000) grid sc /\
  0 <= eps sc < 1 /\ 0 < speed sc * dt sc <= 1 /\ norm (V 1 0 0) = speed sc /\ (forall k, surf sc k = 0) /\ forall fuel, step_ray sc fuel (mkRay (V (1 / 2) (1 / 2) (1 / 2)) (V 1 0 0) (smul (dt sc) (V 1 0 0)) 1) = Err OutOfFuel.
Proof.
  assert (D : box_dims 1 1 1 vzero) by (unfold box_dims, vzero; cbn [vx vy vz]; rewrite Rabs_R0; lra). destruct cube_ok as (_ & Hv & _).
  destruct (box_room 1 1 1 vzero cube_name hall_scene 1 (1 / 1000) D Hv) as (ws & grid & sc & Hb & Rm & Esf & E1 & E2 & Eab & Eep & Edt & Esp); [lra|lra|].
  cbn [hall_scene surf bbmin bbmax absorbers eps dt speed] in *. exists ws, grid, sc. split; auto. split; auto. assert (Rd : rdist sc = 101 / 100) by (unfold rdist; rewrite Esp, Edt; lra).
  split; [rewrite Eep; lra|]. split; [rewrite Esp, Edt; lra|]. split; [rewrite Esp; unfold norm; replace (dot _ _) with 1 by (vunf; ring); apply sqrt_1|]. split; [intros k; rewrite Esf; auto|].
  set (p := V (1 / 2) (1 / 2) (1 / 2)).
  assert (Nr : forall v, v = V 1 0 0 \/ v = V (-1) 0 0 -> exists k, target sc p v = Some k /\ pdist sc p k < rdist sc).
  { intros v Hv'. assert (G : exists k, target sc p v = Some k /\ pdist sc p k <= Rabs (- (1 / 2)) + 1 / 100000); [|destruct G as (k & T & L); exists k; split; auto; rewrite Rd; rewrite Rabs_left in L by lra; lra].
    destruct Hv' as [->| ->].
    - apply (ahead_near 1 1 1 vzero D cube_name ws Hb Hv _ _ _ 1 (1 / 1000) grid sc Rm 2 (box_point 1 0 0 1 1 1 vzero) ey ez 1 1 (1 / 2) (1 / 2) (- (1 / 2)) p (V 1 0 0) (1 / 2)); try lra; auto.
      + unfold p, off, box_point, ey, ez, vzero. vunf. f_equal; lra.
      + unfold p, off, box_point, ey, ez, vzero. vunf. f_equal; lra.
      + unfold ey, ez. vunf. rewrite Rabs_pos_eq; lra.
      + unfold norm. replace (dot _ _) with (1 / 2 * (1 / 2)) by (unfold p, off, box_point, ey, ez, vzero; vunf; field). rewrite sqrt_square; lra.
    - apply (ahead_near 1 1 1 vzero D cube_name ws Hb Hv _ _ _ 1 (1 / 1000) grid sc Rm 4 (box_point 0 0 0 1 1 1 vzero) ez ey 1 1 (1 / 2) (1 / 2) (- (1 / 2)) p (V (-1) 0 0) (1 / 2)); try lra; auto.
      + unfold p, off, box_point, ey, ez, vzero. vunf. f_equal; lra.
      + unfold p, off, box_point, ey, ez, vzero. vunf. f_equal; lra.
      + unfold ey, ez. vunf. rewrite Rabs_pos_eq; lra.
      + unfold norm. replace (dot _ _) with (1 / 2 * (1 / 2)) by (unfold p, off, box_point, ey, ez, vzero; vunf; field). rewrite sqrt_square; lra. }
  assert (Mi : forall v k, v = V 1 0 0 \/ v = V (-1) 0 0 -> target sc p v = Some k -> mirror (pnormal sc k) v = V 1 0 0 \/ mirror (pnormal sc k) v = V (-1) 0 0).
  { intros v k Hv' T. pose proof (box_normal 1 1 1 vzero D cube_name ws Hb Hv _ _ _ _ _ grid sc Rm p v k T) as I. unfold mirror.
    destruct I as [<-|[<-|[<-|[<-|[<-|[<-|[]]]]]]]; destruct Hv' as [->| ->]; first [left; vunf; f_equal; ring|right; vunf; f_equal; ring]. }
  assert (Bn : forall ps v, bounces sc p (V 1 0 0) ps v -> v = V 1 0 0 \/ v = V (-1) 0 0) by (induction 1; auto).
  apply (step_forever sc); cbn [r_pos r_vel r_en]; fold p.
  - rewrite Eep. lra.
  - rewrite Eep. lra.
  - unfold left_box. rewrite E1, E2, Eep. unfold vzero, p. cbn [vx vy vz]. lra.
  - intros ps v B. destruct (Nr v (Bn ps v B)) as (k & T & L). exists k. rewrite Esf. auto.
Qed.
