(** Theorems C111 and C112: predefined walls. *)
From Coq Require Import Ascii String Reals List Bool Arith Lia Lra.
From Verif Require Import Prelude TreeModel IoModel VecModel VecProofs GeomModel GeomSpec GeomProofs1 GeomProofs2 TriModel PolyModel SolidModel PlanSpec PlanProofs2 PartModel PartSpec PartProofs PartProofs2.
Import ListNotations.
Local Open Scope R_scope.

(** Every two neighbouring points of the placed plan carry a wall: its corners,
    its horizontal unit normal to the right of the way for positive heights,
    and its area. *)
Theorem C111_walls plan h tr phi names ws : partition_plan plan h tr phi names = Ok ws -> exists t, move_used tr t /\
  Forall2 (fun e w => let p := snd (snd w) in p_pts p = wall_over (V 0 0 h) e /\ unit (p_vn p) /\ vz (p_vn p) = 0 /\ 0 < p_area p /\
    p_area p = norm (vsub (snd e) (fst e)) * Rabs h /\ smul (p_area p) (p_vn p) = cross (vsub (snd e) (fst e)) (V 0 0 h))
    (steps (corners plan 0 t phi)) ws.
Proof. exact (part_walls plan h tr phi names ws). Qed.
(** One wall less than points; walls and polygons have the given names in order
    and the last name is not used. *)
Theorem C111_names plan h tr phi names ws : partition_plan plan h tr phi names = Ok ws ->
  map fst ws = firstn (length plan - 1) (match names with [] => map (fun i => str_of "wall-" ++ decimal i) (seq 0 (length plan)) | _ => names end) /\
  polygon_names ws = map fst ws /\ length ws = (length plan - 1)%nat.
Proof. exact (part_named plan h tr phi names ws). Qed.
Theorem C111_bad_names plan h tr phi names : ~ (names = [] \/ (length names = length plan /\ NoDup names)) -> partition_plan plan h tr phi names = Err ValueError.
Proof. exact (part_bad plan h tr phi names). Qed.
(** Walls of reasonable size are built. *)
Theorem C111_built plan h tr phi names t : move_used tr t -> (names = [] \/ (length names = length plan /\ NoDup names /\ forall n, In n names -> validate_name n = Ok n)) ->
  part_fits h (corners plan 0 t phi) -> exists ws, partition_plan plan h tr phi names = Ok ws.
Proof. exact (part_made plan h tr phi names t). Qed.
Print Assumptions C111_walls.
Print Assumptions C111_names.
Print Assumptions C111_bad_names.
Print Assumptions C111_built.

(** Two walls at a right angle, moved up. *)
Lemma zero_turn p : place_turn 0 p = p.
Proof. unfold place_turn. destruct (Rle_dec _ _) as [|N]; auto. exfalso. apply N. rewrite Rabs_R0. lra. Qed.
Example C111_example : exists ws, partition_plan [(0, 0); (3, 0); (3, 4)] 2 (V 0 0 1) 0 [str_of "a"; str_of "b"; str_of "c"] = Ok ws /\
  map fst ws = [str_of "a"; str_of "b"] /\ map (fun w => p_pts (snd (snd w))) ws = [[V 0 0 1; V 3 0 1; V 3 0 3; V 0 0 3]; [V 3 0 1; V 3 4 1; V 3 4 3; V 3 0 3]] /\ map (fun w => p_area (snd (snd w))) ws = [6; 8].
Proof.
  assert (Mv : move_used (V 0 0 1) (V 0 0 1)). { right. split; auto. intros (_ & _ & Z). cbn [vz] in Z. rewrite Rabs_R1 in Z. lra. }
  assert (Co : corners [(0, 0); (3, 0); (3, 4)] 0 (V 0 0 1) 0 = [V 0 0 1; V 3 0 1; V 3 4 1]) by (unfold corners; cbn [map fst snd]; rewrite !zero_turn; vunf; each_point).
  assert (Sq : forall v k, 0 <= k -> dot v v = k * k -> norm v = k) by (intros v k K E; unfold norm; rewrite E; apply sqrt_square; auto).
  assert (N1 : norm (vsub (V 3 0 1) (V 0 0 1)) = 3) by (apply Sq; [lra|vunf; ring]). assert (N2 : norm (vsub (V 3 4 1) (V 3 0 1)) = 4) by (apply Sq; [lra|vunf; ring]).
  destruct (C111_built [(0, 0); (3, 0); (3, 4)] 2 (V 0 0 1) 0 [str_of "a"; str_of "b"; str_of "c"] (V 0 0 1)) as (ws & H); auto.
  - right. split; auto. split; [repeat (constructor; [cbn; intuition discriminate|]); constructor|]. intros n [<-|[<-|[<-|[]]]]; reflexivity.
  - rewrite Co. exists 1. split; [lra|]. split; [rewrite Rabs_pos_eq; lra|]. split.
    + intros a b [E|[E|[]]]; injection E as <- <-; lra.
    + assert (Le : forall v, dot v v <= 10000 -> norm v <= 30000 * 1). { intros v E. unfold norm. apply Rle_trans with (sqrt (100 * 100)); [apply sqrt_le_1_alt; lra|]. rewrite sqrt_square; lra. }
      intros p [<-|[<-|[<-|[]]]]; apply Le; vunf; lra.
  - exists ws. split; auto. destruct (C111_names _ _ _ _ _ _ H) as (E & _ & _). split; [exact E|]. destruct (C111_walls _ _ _ _ _ _ H) as (t & Mv' & F).
    assert (t = V 0 0 1) as -> by (destruct Mv as [(A & _)|(A & _)], Mv' as [(B & ->)|(B & ->)]; auto; exfalso; destruct A as (_ & _ & A) || destruct B as (_ & _ & B); cbn [vz] in *; rewrite ?Rabs_R1 in *; lra).
    rewrite Co in F. unfold steps in F. cbn [combine tl] in F. inversion F as [|e1 w1 l1 r1 P1 F1]; subst. inversion F1 as [|e2 w2 l2 r2 P2 F2]; subst. inversion F2; subst. cbv zeta in P1, P2. cbn [map fst snd] in *. destruct P1 as (-> & _ & _ & _ & -> & _). destruct P2 as (-> & _ & _ & _ & -> & _). rewrite N1, N2, Rabs_pos_eq by lra.
    split; [|repeat f_equal; lra]. unfold wall_over. cbn [fst snd]. vunf. apply f_equal2; [|apply f_equal2; auto]; each_point.
Qed.

(** A vertical wall: corners, turned and then moved, area and normal, which
    without rotation is (0, 1, 0) for positive sizes. *)
Theorem C112_wall tr rv phi f w h name rp rw W : turned_by rv phi f -> unit rv \/ idle rv phi -> vertical_wall w h tr rv phi name rp rw = Ok W ->
  same_or name rw (fst W) /\ same_or name rp (fst (snd W)) /\ p_pts (snd (snd W)) = map (fun p => vadd (f p) tr) (upright 0 0 w h) /\
  p_area (snd (snd W)) = Rabs (w * h) /\ p_vn (snd (snd W)) = smul (w * h / Rabs (w * h)) (f (V 0 1 0)).
Proof. intros T U. exact (vwall_spec tr rv phi f T U w h name rp rw W). Qed.
(** The aperture is built in the same way, with its name, from its offset. *)
Theorem C112_aperture tr rv phi f w h name rp rw aw ah ox oz W q : turned_by rv phi f -> unit rv \/ idle rv phi ->
  wall_with_aperture w h tr rv phi name rp rw aw ah ox oz = Ok (W, q) ->
  vertical_wall w h tr rv phi name rp rw = Ok W /\ fst q = fst (snd W) ++ str_of "-sub" /\ p_pts (snd q) = map (fun p => vadd (f p) tr) (upright ox oz aw ah) /\
  p_area (snd q) = Rabs (aw * ah) /\ p_vn (snd q) = smul (aw * ah / Rabs (aw * ah)) (f (V 0 1 0)).
Proof. intros T U. exact (ap_spec tr rv phi f T U w h name rp rw aw ah ox oz W q). Qed.
(** It lies in the wall if and only if offset and size fit. *)
Theorem C112_inside tr rv phi w h name rp rw aw ah ox oz W q : unit rv \/ idle rv phi -> 0 < w -> 0 < h -> 0 <= aw -> 0 <= ah ->
  wall_with_aperture w h tr rv phi name rp rw aw ah ox oz = Ok (W, q) ->
  ((forall x, In x (p_pts (snd q)) -> in_para (p_pts (snd (snd W))) x) <-> 0 <= ox /\ ox + aw <= w /\ 0 <= oz /\ oz + ah <= h).
Proof. intros U. exact (ap_inside tr rv phi _ (turner_turned rv phi) U w h name rp rw aw ah ox oz W q). Qed.
(** Walls and apertures of reasonable size are built, wherever the aperture is. *)
Theorem C112_built tr rv phi w h name rp rw aw ah ox oz : unit rv \/ idle rv phi ->
  (forall n, In n [or_random name rp; or_random name rw] -> validate_name n = Ok n) -> wall_fits w h ox oz aw ah tr ->
  exists W q, wall_with_aperture w h tr rv phi name rp rw aw ah ox oz = Ok (W, q) /\ vertical_wall w h tr rv phi name rp rw = Ok W.
Proof.
  intros U N F. destruct (ap_made tr rv phi _ (turner_turned rv phi) U w h name rp rw aw ah ox oz N F) as (W & q & H). exists W, q. split; auto.
  apply (C112_aperture tr rv phi _ w h name rp rw aw ah ox oz W q (turner_turned rv phi) U H).
Qed.
(** Without area nothing is built; the default aperture has none. *)
Theorem C112_flat tr rv phi w h name rp rw aw ah ox oz : unit rv \/ idle rv phi ->
  (Rabs (w * h) <= 1 / 100000000 -> exists e, vertical_wall w h tr rv phi name rp rw = Err e) /\
  (Rabs (aw * ah) <= 1 / 100000000 -> exists e, wall_with_aperture w h tr rv phi name rp rw aw ah ox oz = Err e).
Proof. intros U. exact (conj (vwall_flat tr rv phi _ (turner_turned rv phi) U w h name rp rw) (ap_flat tr rv phi _ (turner_turned rv phi) U w h name rp rw aw ah ox oz)). Qed.
Theorem C112_default_refuted tr rv phi w h name rp rw ox oz : unit rv \/ idle rv phi -> exists e, wall_with_aperture w h tr rv phi name rp rw 0 0 ox oz = Err e.
Proof. intros U. apply (proj2 (C112_flat tr rv phi w h name rp rw 0 0 ox oz U)). rewrite Rmult_0_l, Rabs_R0. lra. Qed.
(** The axis has to have length 1. *)
Theorem C112_axis w h tr rv phi name rp rw aw ah ox oz : ~ idle rv phi -> 1 / 100000000 + 1 / 100000 < Rabs (norm rv - 1) ->
  vertical_wall w h tr rv phi name rp rw = Err AssertionError /\ wall_with_aperture w h tr rv phi name rp rw aw ah ox oz = Err AssertionError.
Proof. exact (vwall_axis w h tr rv phi name rp rw aw ah ox oz). Qed.
Print Assumptions C112_wall.
Print Assumptions C112_aperture.
Print Assumptions C112_inside.
Print Assumptions C112_built.
Print Assumptions C112_flat.
Print Assumptions C112_default_refuted.
Print Assumptions C112_axis.

(** The example at the end of walls.py, and the same with the aperture beside
    the wall. *)
Definition as_list (x z : R) : list vec := [V x 0 z; V x 0 (z + 1 / 2); V (x + 1) 0 (z + 1 / 2); V (x + 1) 0 z].
Lemma no_axis : idle (V 0 0 0) 0.
Proof. right. rewrite Rabs_R0. lra. Qed.
Lemma idle_turn : turned_by (V 0 0 0) 0 (fun v => v).
Proof. left. split; [exact no_axis|auto]. Qed.
Lemma small_fits ox : 0 <= ox <= 3 -> wall_fits 2 1 ox (1 / 4) 1 (1 / 2) (V 0 0 0).
Proof.
  intros H. exists (1 / 4). split; [lra|]. split; [intros x [<-|[<-|[<-|[<-|[]]]]]; lra|]. rewrite !Rabs_pos_eq by lra. split; [lra|]. split; [lra|]. unfold norm. replace (dot (V 0 0 0) (V 0 0 0)) with 0 by (vunf; ring). rewrite sqrt_0. lra.
Qed.
Example C112_example ox : 0 <= ox <= 3 -> exists W q, wall_with_aperture 2 1 (V 0 0 0) (V 0 0 0) 0 (Some (str_of "w")) [] [] 1 (1 / 2) ox (1 / 4) = Ok (W, q) /\
  fst q = str_of "w-sub" /\ p_pts (snd q) = as_list ox (1 / 4) /\ p_area (snd (snd W)) = 2 /\ p_vn (snd (snd W)) = V 0 1 0 /\
  ((forall x, In x (p_pts (snd q)) -> in_para (p_pts (snd (snd W))) x) <-> ox <= 1).
Proof.
  intros H. destruct (C112_built (V 0 0 0) (V 0 0 0) 0 2 1 (Some (str_of "w")) [] [] 1 (1 / 2) ox (1 / 4)) as (W & q & E & E'); [right; exact no_axis|intros n [<-|[<-|[]]]; reflexivity|apply small_fits; auto|].
  exists W, q. split; auto. destruct (C112_aperture _ _ _ _ _ _ _ _ _ _ _ _ _ _ _ idle_turn (or_intror no_axis) E) as (_ & Nq & Pq & _). destruct (C112_wall _ _ _ _ _ _ _ _ _ _ idle_turn (or_intror no_axis) E') as (_ & Nw & _ & Aw & Vw).
  cbn in Nw. rewrite Nw in Nq. split; [exact Nq|]. rewrite Rabs_pos_eq in Aw by lra. rewrite Rabs_pos_eq in Vw by lra. split; [rewrite Pq; unfold upright, as_list; cbn [map]; vunf; each_point|]. split; [rewrite Aw; ring|]. split; [rewrite Vw; vunf; f_equal; field|].
  rewrite (C112_inside (V 0 0 0) (V 0 0 0) 0 2 1 (Some (str_of "w")) [] [] 1 (1 / 2) ox (1 / 4) W q (or_intror no_axis) ltac:(lra) ltac:(lra) ltac:(lra) ltac:(lra) E). lra.
Qed.
