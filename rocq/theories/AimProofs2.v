(** Proofs: a ray reflected by a wall behind the one it would meet first. *)
From Coq Require Import Ascii String Reals ZArith List Bool Arith Lia Lra Psatz.
From Verif Require Import Prelude TreeModel VecModel VecProofs SimModel SimSpec SimProofs SimProofs2 SimProofs3 VoxModel VoxSpec VoxProofs GeomModel GeomSpec GeomProofs1 GeomProofs2 GeomProofs3 GeomProofs4 GeomProofs5 TriModel TriSpec PolyModel PolySpec PolyProofs1 PolyProofs2 SolidModel SolidSpec SolidProofs1 CrossSpec InsideSpec InsideProofs1 InsideProofs3 RoomSpec RoomProofs1 RoomProofs2 RoomProofs3 RoomProofs4 BoxSpec BoxProofs1 BoxProofs2 BoxProofs3 BoxProofs4 BoxProofs5 BoxProofs6 AimSpec AimProofs.
Import ListNotations.
Local Open Scope R_scope.

(** A screen across the path and a wall beside the path which goes on behind it. *)
Definition screen : face := rface (V 6 3 (-2)) ey ez (19 / 10) 4.
Definition long_wall : face := rface (V (-2) 5 (-2)) ex ez 14 4.
Lemma screen_sound : sound_wall screen (V 1 0 0) (-6).
Proof.
  assert (E : V 1 0 0 = cross ey ez) by (unfold ey, ez; vunf; f_equal; ring). replace (-6) with (- dot (V 1 0 0) (V 6 3 (-2))) by (vunf; ring).
  apply rect_wall; auto; [unfold axes2; cbn; tauto|lra|lra].
Qed.
Lemma wall_sound : sound_wall long_wall (V 0 (-1) 0) 5.
Proof.
  assert (E : V 0 (-1) 0 = cross ex ez) by (unfold ex, ez; vunf; f_equal; ring). replace 5 with (- dot (V 0 (-1) 0) (V (-2) 5 (-2))) by (vunf; ring).
  apply rect_wall; auto; [unfold axes2; cbn; tauto|lra|lra].
Qed.
Lemma screen_touched : touches screen (at_time vzero (V 4 3 0) (3 / 2)).
Proof.
  replace (at_time _ _ _) with (V 6 (9 / 2) 0) by (unfold at_time; vunf; f_equal; lra). left. exists (3, 1, 2)%nat, (off (V 6 3 (-2)) ey ez 0 4), (off (V 6 3 (-2)) ey ez (19 / 10) 0), (off (V 6 3 (-2)) ey ez (19 / 10) 4).
  split; [cbn; auto|]. split; [split; [reflexivity|split; reflexivity]|]. split.
  - exists (4 / 19), (1 / 2), (11 / 38). unfold bary, off, ey, ez. repeat (split; [lra|]). vunf. f_equal; lra.
  - split; [|split]; apply off_edge_sq; unfold off, ey, ez; vunf; lra.
Qed.
Lemma wall_touched : touches long_wall (at_time vzero (V 4 3 0) (5 / 3)).
Proof.
  replace (at_time _ _ _) with (V (20 / 3) 5 0) by (unfold at_time; vunf; f_equal; lra). left. exists (3, 1, 2)%nat, (off (V (-2) 5 (-2)) ex ez 0 4), (off (V (-2) 5 (-2)) ex ez 14 0), (off (V (-2) 5 (-2)) ex ez 14 4).
  split; [cbn; auto|]. split; [split; [reflexivity|split; reflexivity]|]. split.
  - exists (8 / 21), (1 / 2), (5 / 42). unfold bary, off, ex, ez. repeat (split; [lra|]). vunf. f_equal; lra.
  - split; [|split]; apply off_edge_sq; unfold off, ex, ez; vunf; lra.
Qed.
Definition passage_scene : scene := mkScene (fun _ _ => None) (fun _ _ => 0) (fun _ => vzero) (fun _ => 1 / 10) (V (-10) (-10) (-10)) (V 20 20 20) [] 1 (1 / 1000000) 1 5.
Lemma passage_walls f p : In f [screen; long_wall] -> In p (fst f) -> in_box (V (-10) (-10) (-10)) (V 20 20 20) p.
Proof. intros [<-|[<-|[]]]; unfold screen, long_wall, rface, off, ex, ey, ez; cbn [fst]; intros [<-|[<-|[<-|[<-|[]]]]]; unfold in_box; vunf; lra. Qed.
Lemma ghost : exists grid sc, room [screen; long_wall] [] (fun l => l) (V (-10) (-10) (-10)) (V 20 20 20) 20 (1 / 1000) grid sc /\ norm (V 4 3 0) = speed sc /\ 0 < dt sc /\ speed sc * dt sc <= 20 /\ 0 <= eps sc < 1 /\
  target sc vzero (V 4 3 0) = Some 1%nat /\
  forall fuel, (4 <= fuel)%nat -> step_ray sc fuel (mkRay vzero (V 4 3 0) (smul (dt sc) (V 4 3 0)) 1) = Ok (mkRay (V 4 (-3) 0) (V 4 (-3) 0) (V 4 (-3) 0) (9 / 10)).
Proof.
  assert (Bx : forall f, In f [screen; long_wall] -> fst f <> [] /\ forall p, In p (fst f) -> in_box (V (-10) (-10) (-10)) (V 20 20 20) p).
  { intros f I. split; [destruct I as [<-|[<-|[]]]; discriminate|]. intros p. exact (passage_walls f p I). }
  destruct (grid_complete (V (-10) (-10) (-10)) (V 20 20 20) (map fst [screen; long_wall]) 20 (1 / 1000)) as (grid & Gr & _); [lra|lra| |].
  { intros pts I. apply in_map_iff in I. destruct I as (f & <- & I). auto. }
  destruct (scene_exists [screen; long_wall] [] (fun l => l) 20 grid passage_scene) as (sc & Sc & Esf & Eb1 & Eb2 & Eab & _ & Eep & Edt & Esp); [tauto|intros f [<-|[<-|[]]]; do 2 eexists; [exact screen_sound|exact wall_sound]|].
  cbn [passage_scene surf bbmin bbmax absorbers eps dt speed] in *.
  assert (Rm : room [screen; long_wall] [] (fun l => l) (V (-10) (-10) (-10)) (V 20 20 20) 20 (1 / 1000) grid sc) by (split; [tauto|]; split; [lra|]; split; [lra|]; split; [exact Bx|split; [exact Gr|exact Sc]]).
  assert (Ns : norm (V 4 3 0) = 5) by (unfold norm; replace (dot _ _) with (5 * 5) by (vunf; ring); apply sqrt_square; lra).
  destruct Sc as (Dp & _). destruct (Dp 0%nat screen eq_refl) as (Fs & Es). destruct (Dp 1%nat long_wall eq_refl) as (Fw & Ew).
  assert (Ax1 : axes2 ey ez) by (unfold axes2; cbn; tauto). assert (Ax2 : axes2 ex ez) by (unfold axes2; cbn; tauto).
  assert (Nw : pnormal sc 1 = V 0 (-1) 0) by (apply (rect_first_normal (V (-2) 5 (-2)) ex ez (V 0 (-1) 0) 14 4); auto; try lra; unfold ex, ez; vunf; f_equal; ring).
  assert (Ps : 6 <= pdist sc vzero 0).
  { pose proof (plane_below (V 6 3 (-2)) ey ez (V 1 0 0) (19 / 10) 4 Ax1 ltac:(lra) ltac:(lra) ltac:(unfold ey, ez; vunf; f_equal; ring) _ vzero _ Fs (Es vzero)) as H.
    replace (dot (V 1 0 0) vzero + - dot (V 1 0 0) (V 6 3 (-2))) with (-6) in H by (vunf; ring). rewrite Rabs_left in H; lra. }
  assert (Pw : pdist sc vzero 1 <= 5 + 1 / 100000).
  { pose proof (Ew vzero) as H. replace vzero with (vadd (off (V (-2) 5 (-2)) ex ez 2 2) (smul 5 (V 0 (-1) 0))) in H at 1 by (unfold off, ex, ez; vunf; f_equal; ring).
    apply (rect_distance (V (-2) 5 (-2)) ex ez (V 0 (-1) 0) 14 4 Ax2 ltac:(lra) ltac:(lra) ltac:(unfold ex, ez; vunf; f_equal; ring) _ _ _ _ _ Fw) in H; [rewrite Rabs_pos_eq in H; lra|lra|lra]. }
  assert (Hw : is_point_inside_projection vzero (V 4 3 0) (fst long_wall) (snd long_wall) true (1 / 1000) = Ok true /\ in_mesh long_wall (at_time vzero (V 4 3 0) (5 / 3))).
  { pose proof wall_sound as S. pose proof (wall_flat _ _ _ S) as F. pose proof (touches_in_mesh _ _ _ _ F wall_touched) as M. pose proof (mesh_on_plane _ _ _ _ (proj1 (proj2 F)) M) as Pl. split; auto.
    rewrite (hit_ahead long_wall (V 0 (-1) 0) 5 vzero (V 4 3 0) (5 / 3) S); auto; [|lra|vunf; rewrite Rabs_left; lra]. apply (flat_accepted long_wall (V 0 (-1) 0) 5); auto; [lra|exact wall_touched]. }
  destruct Hw as (Hw & Mw).
  assert (T1 : target sc vzero (V 4 3 0) = Some 1%nat).
  { assert (Hu : in_hull (fst long_wall) (at_time vzero (V 4 3 0) (5 / 3))) by (apply mesh_in_hull; auto).
    assert (Ln : norm (vsub (at_time vzero (V 4 3 0) (5 / 3)) vzero) <= 20). { unfold norm. replace (dot _ _) with (25 / 3 * (25 / 3)) by (unfold at_time; vunf; field). rewrite sqrt_square; lra. }
    destruct (target_some _ _ _ _ _ _ _ _ _ Rm vzero (V 4 3 0) 1 long_wall _ eq_refl (fun H => H) Hw Hu Ln) as (k & T). pose proof (target_least _ _ _ _ _ _ _ _ _ Rm vzero (V 4 3 0) k 1 long_wall _ T eq_refl (fun H => H) Hw Hu Ln) as Le.
    destruct (target_wall _ _ _ _ _ _ _ _ _ Rm _ _ _ T) as (f & N). destruct k as [|[|k]]; [lra|auto|destruct k; discriminate]. }
  assert (T2 : target sc vzero (V 4 (-3) 0) = None).
  { apply (no_target _ _ _ _ _ _ _ _ _ Rm). intros k f N. right. destruct k as [|[|k]]; [injection N as <-|injection N as <-|destruct k; discriminate].
    - apply (hit_missed screen (V 1 0 0) (-6) _ _ screen_sound). left. split; [vunf; rewrite Rabs_pos_eq; lra|]. intros t T Pl. unfold on_plane, at_time in *. left. exists vy. split; [cbn; auto|]. right.
      unfold screen, rface, off, ey, ez. cbn [fst]. intros w [<-|[<-|[<-|[<-|[]]]]]; vunf; lra.
    - apply (hit_missed long_wall (V 0 (-1) 0) 5 _ _ wall_sound). left. split; [vunf; rewrite Rabs_pos_eq; lra|]. intros t T Pl. exfalso. unfold on_plane, at_time in *. vunf. lra. }
  exists grid, sc. split; [exact Rm|]. rewrite Ns, Esp, Edt, Eep. split; [lra|]. split; [lra|]. split; [lra|]. split; [lra|]. split; [exact T1|].
  assert (X : step_ray sc 4 (mkRay vzero (V 4 3 0) (smul 1 (V 4 3 0)) 1) = Ok (mkRay (V 4 (-3) 0) (V 4 (-3) 0) (V 4 (-3) 0) (9 / 10))).
  { unfold step_ray. rewrite iter_succ_r. unfold micro at 2. cbn [r_en r_pos r_vel r_dpos]. rewrite Eep. rewrite (proj2 (Rleb_false 1 (1 / 1000000))) by lra.
    replace (outside sc vzero) with false by (symmetry; unfold outside; rewrite Eb1, Eb2, Eep; rewrite !orb_false_iff; repeat split; apply Rltb_false; vunf; lra). rewrite andb_false_r, T1.
    rewrite iter_succ_r. unfold micro at 2. cbn [r_en r_pos r_vel r_dpos dist_lt]. rewrite Eep. rewrite (proj2 (Rltb_true (pdist sc vzero 1) (reflection_dist sc))) by (unfold reflection_dist; rewrite Esp, Edt; lra).
    rewrite (proj2 (Rltb_true (1 / 1000000) 1)) by lra. cbn [andb]. rewrite Esf. rewrite (proj2 (Rleb_false (1 - 1 / 10) (1 / 1000000))) by lra. unfold reflect. cbn [r_pos r_vel r_dpos]. rewrite Nw, Edt.
    replace (vsub (V 4 3 0) _) with (V 4 (-3) 0) by (vunf; f_equal; ring). rewrite T2.
    rewrite iter_succ_r. unfold micro at 2. cbn [r_en r_pos r_vel r_dpos dist_gt]. rewrite Eep. rewrite (proj2 (Rltb_true (1 / 1000000) (1 - 1 / 10))) by lra. cbn [andb].
    rewrite iter_done. f_equal. f_equal; [vunf; f_equal; ring|vunf; f_equal; ring|field]. }
  intros fuel Lf. exact (step_more sc _ _ _ _ Lf X).
Qed.
