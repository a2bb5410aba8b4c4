(** A way that meets no face of a box does not leave it. *)
From Coq Require Import Ascii String Reals List ZArith Bool Arith Lia Lra Psatz Permutation Classical.
From Verif Require Import Prelude TreeModel VecModel VecProofs SimModel SimSpec GeomModel GeomSpec GeomProofs1 GeomProofs4 TriModel TriSpec PolyModel PolySpec PolyProofs1 PolyProofs2 SolidModel SolidSpec SolidProofs1 CrossSpec InsideSpec InsideProofs1 InsideProofs2 InsideProofs3 RoomSpec RoomProofs1 BoxProofs6 PlanSpec
  WindSpec LoopSpec ShellSpec ShellProofs6 ShellProofs8 HallSpec HallProofs2 LocSpec StaySpec StayProofs1 StayProofs2 StayProofs3 StayProofs4.
Import ListNotations.
Local Open Scope R_scope.

(** The first of several levels reached on the way from p to q. *)
Lemma first_level (p q : vec) (gs : list (vec * R)) : (forall n d, In (n, d) gs -> dot n p + d < 0) -> (exists n d, In (n, d) gs /\ 0 <= dot n q + d) ->
  exists s n d, 0 <= s <= 1 /\ In (n, d) gs /\ dot n (seg_point p q s) + d = 0 /\ forall n' d', In (n', d') gs -> dot n' (seg_point p q s) + d' <= 0.
Proof.
  assert (Lin : forall n d s, dot n (seg_point p q s) + d = (dot n p + d) + s * ((dot n q + d) - (dot n p + d))) by (intros n d s; unfold seg_point; clear; dvec n; dvec p; dvec q; vunf; ring).
  induction gs as [|(n, d) gs IH]; intros Hp (n0 & d0 & I0 & H0); [destruct I0|].
  assert (P0 : dot n p + d < 0) by (apply Hp; left; auto).
  destruct (classic (exists n d, In (n, d) gs /\ 0 <= dot n q + d)) as [Ex|Nx].
  - destruct (IH (fun n' d' I' => Hp n' d' (or_intror I')) Ex) as (s & n1 & d1 & Hs & I1 & E1 & A1). destruct (Rle_dec (dot n (seg_point p q s) + d) 0) as [L|L].
    + exists s, n1, d1. split; auto. split; [right; auto|]. split; auto. intros n' d' [E|I']; [injection E as <- <-; auto|auto].
    + apply Rnot_le_lt in L. rewrite Lin in L. set (g := dot n p + d) in *. set (g' := dot n q + d) in *. set (s' := - g / (g' - g)).
      assert (Pg : 0 < g' - g) by (destruct (Rle_lt_dec (g' - g) 0) as [X|X]; auto; exfalso; assert (s * (g' - g) <= 0) by (rewrite <- (Rmult_0_r s); apply Rmult_le_compat_l; lra); lra).
      assert (Es : s' * (g' - g) = - g) by (unfold s'; field; lra). assert (S0 : 0 <= s') by (apply ratio_pos; lra). assert (S1 : s' < s) by (apply (Rmult_lt_reg_r (g' - g)); auto; lra).
      exists s', n, d. split; [lra|]. split; [left; auto|]. split; [rewrite Lin; fold g g'; lra|]. intros n' d' [E|I']; [injection E as <- <-; rewrite Lin; fold g g'; lra|].
      specialize (A1 n' d' I'). specialize (Hp n' d' (or_intror I')). rewrite Lin in *. set (k := dot n' p + d') in *. set (k' := dot n' q + d' - k) in *. clearbody k k'. clear -A1 Hp S0 S1 Hs. destruct (Rle_dec k' 0); nra.
  - assert (H1 : 0 <= dot n q + d) by (destruct I0 as [E|I0]; [injection E as <- <-; auto|exfalso; eauto]). set (g := dot n p + d) in *. set (g' := dot n q + d) in *. set (s := - g / (g' - g)).
    assert (Es : s * (g' - g) = - g) by (unfold s; field; lra). assert (S0 : 0 <= s) by (apply ratio_pos; lra). assert (S1 : s <= 1) by (apply (Rmult_le_reg_r (g' - g)); lra).
    exists s, n, d. split; [lra|]. split; [left; auto|]. split; [rewrite Lin; fold g g'; lra|]. intros n' d' [E|I']; [injection E as <- <-; rewrite Lin; fold g g'; lra|].
    assert (K' : dot n' q + d' < 0) by (apply Rnot_le_lt; intros X; apply Nx; eauto). specialize (Hp n' d' (or_intror I')). rewrite Lin. set (k := dot n' p + d') in *. set (k' := dot n' q + d') in *. clearbody k k' s. clear -K' Hp S0 S1. nra.
Qed.
Section Box.
Context (x y z : R) (mv : vec) (F : box_fits x y z mv).
Notation pt i j k := (corner_of x y z mv i j k).
Lemma face_filled o u w n d k pts m a b : 0 < k -> cross u w = smul k n -> pts = rect o u w -> covers (pts, QT) n d -> 0 <= a <= 1 -> 0 <= b <= 1 -> m = vadd (vadd o (smul a u)) (smul b w) -> in_mesh (pts, QT) m.
Proof. intros K Cr -> Cv A B ->. exact (rect_filled _ _ _ _ _ _ _ K Cr Cv a b A B). Qed.
Lemma share v o l : 0 < l -> o <= v <= l + o -> 0 <= (v - o) / l <= 1 /\ (v - o) / l * l = v - o.
Proof. intros L H. split; [split; [apply ratio_pos; lra|apply (Rmult_le_reg_r l); auto; unfold Rdiv; rewrite Rmult_assoc, Rinv_l; lra]|field; lra]. Qed.
Ltac veq := unfold corner_of, rect; repeat (apply f_equal2; [apply vec_ext; unfold vadd; cbn [vx vy vz]; ring|]); reflexivity.
Lemma box_stays p p' : occupies (ABox x y z mv) p -> (forall f n d m, In (f, n, d) (box_sides x y z mv) -> on_segment p p' m -> ~ in_mesh f m) -> occupies (ABox x y z mv) p'.
Proof.
  intros (Px & Py & Pz) N. apply NNPP. intros No. destruct (box_pos x y z mv F) as (X & Y & Z).
  destruct (first_level p p' (box_planes x y z mv)) as (s & n & d & Hs & I & E & A).
  - unfold box_planes. intros n d I. repeat (destruct I as [I|I]; [injection I as <- <-; vunf; lra|]). destruct I.
  - apply NNPP. intros Nx. apply No. assert (G : forall n d, In (n, d) (box_planes x y z mv) -> dot n p' + d < 0) by (intros n d I; apply Rnot_le_lt; intros L; apply Nx; eauto). unfold box_planes in G.
    pose proof (G (V 0 0 (-1)) (vz mv) ltac:(simpl; auto)) as G1. pose proof (G (V 0 (-1) 0) (vy mv) ltac:(simpl; auto)) as G2. pose proof (G (V 1 0 0) (- (x + vx mv)) ltac:(simpl; auto)) as G3. pose proof (G (V 0 1 0) (- (y + vy mv)) ltac:(simpl; auto)) as G4. pose proof (G (V (-1) 0 0) (vx mv) ltac:(simpl; auto 7)) as G5. pose proof (G (V 0 0 1) (- (z + vz mv)) ltac:(simpl; auto 8)) as G6.
    cbn [occupies]. revert G1 G2 G3 G4 G5 G6. vunf. lra.
  - set (m := seg_point p p' s) in *. assert (Sg : on_segment p p' m) by (exists s; auto).
    assert (B : vx mv <= vx m <= x + vx mv /\ vy mv <= vy m <= y + vy mv /\ vz mv <= vz m <= z + vz mv).
    { unfold box_planes in A. pose proof (A (V 0 0 (-1)) (vz mv) ltac:(simpl; auto)) as G1. pose proof (A (V 0 (-1) 0) (vy mv) ltac:(simpl; auto)) as G2. pose proof (A (V 1 0 0) (- (x + vx mv)) ltac:(simpl; auto)) as G3. pose proof (A (V 0 1 0) (- (y + vy mv)) ltac:(simpl; auto)) as G4. pose proof (A (V (-1) 0 0) (vx mv) ltac:(simpl; auto 7)) as G5. pose proof (A (V 0 0 1) (- (z + vz mv)) ltac:(simpl; auto 8)) as G6. revert G1 G2 G3 G4 G5 G6. vunf. lra. }
    destruct B as (Bx & By & Bz). destruct (share _ _ _ X Bx) as (Sx & Ex), (share _ _ _ Y By) as (Sy & Ey), (share _ _ _ Z Bz) as (Sz & Ez). set (a := (vx m - vx mv) / x) in *. set (b := (vy m - vy mv) / y) in *. set (c := (vz m - vz mv) / z) in *.
    pose proof (proj1 (proj1 (box_shell x y z mv F))) as Cov.
    assert (H : forall f n d, In (f, n, d) (box_list x y z mv) -> in_mesh f m -> False) by (intros f' n' d' I' M; apply (N f' n' d' m); auto; rewrite box_sides_list; auto).
    assert (Go : forall o u w n d k pts a b, In ((pts, QT), n, d) (box_list x y z mv) -> 0 < k -> cross u w = smul k n -> pts = rect o u w -> 0 <= a <= 1 -> 0 <= b <= 1 -> m = vadd (vadd o (smul a u)) (smul b w) -> False).
    { intros o u w n' d' k pts a' b' I' K Cr Ep A' B' Em. apply (H _ _ _ I'). apply (face_filled o u w n' d' k pts m a' b'); auto. apply (Cov _ _ _ I'). }
    clearbody m. destruct m as [mx my mz]. cbn [vx vy vz] in *. unfold box_planes in I.
    destruct I as [I|[I|[I|[I|[I|[I|[]]]]]]]; injection I as <- <-; revert E; vunf; intros E.
    + apply (Go (pt 0 0 0) (V 0 y 0) (V x 0 0) (V 0 0 (-1)) (vz mv) (y * x) _ b a (or_introl eq_refl)); auto; [nra|vunf; f_equal; ring|veq|unfold corner_of; vunf; f_equal; lra].
    + apply (Go (pt 0 0 0) (V x 0 0) (V 0 0 z) (V 0 (-1) 0) (vy mv) (x * z) _ a c (or_intror (or_introl eq_refl))); auto; [nra|vunf; f_equal; ring|veq|unfold corner_of; vunf; f_equal; lra].
    + apply (Go (pt 1 0 0) (V 0 y 0) (V 0 0 z) (V 1 0 0) (- (x + vx mv)) (y * z) _ b c (or_intror (or_intror (or_introl eq_refl)))); auto; [nra|vunf; f_equal; ring|veq|unfold corner_of; vunf; f_equal; lra].
    + apply (Go (pt 0 1 0) (V 0 0 z) (V x 0 0) (V 0 1 0) (- (y + vy mv)) (z * x) _ c a (or_intror (or_intror (or_intror (or_introl eq_refl))))); auto; [nra|vunf; f_equal; ring|veq|unfold corner_of; vunf; f_equal; lra].
    + apply (Go (pt 0 0 0) (V 0 0 z) (V 0 y 0) (V (-1) 0 0) (vx mv) (z * y) _ c b (or_intror (or_intror (or_intror (or_intror (or_introl eq_refl)))))); auto; [nra|vunf; f_equal; ring|veq|unfold corner_of; vunf; f_equal; lra].
    + apply (Go (pt 0 0 1) (V x 0 0) (V 0 y 0) (V 0 0 1) (- (z + vz mv)) (x * y) _ a b (or_intror (or_intror (or_intror (or_intror (or_intror (or_introl eq_refl))))))); auto; [nra|vunf; f_equal; ring|veq|unfold corner_of; vunf; f_equal; lra].
Qed.
Lemma box_sides_of name ws : validate_name name = Ok name -> box x y z mv name = Ok ws -> sides_of ws = box_sides x y z mv.
Proof.
  intros Hn B. destruct (box_ok x y z mv F name Hn) as (ws' & B' & _ & _ & Ho & Hv & Ht & _). rewrite B in B'. apply Ok_inj in B'. subst ws'.
  rewrite box_sides_list. unfold outlines, normals in Ho, Hv. unfold box_outlines in Ho. destruct ws as [|w0 [|w1 [|w2 [|w3 [|w4 [|w5 [|w6 ws]]]]]]]; try discriminate. cbn [map repeat] in Ho, Hv, Ht. injection Ho as A0 A1 A2 A3 A4 A5. injection Hv as N0 N1 N2 N3 N4 N5. injection Ht as T0 T1 T2 T3 T4 T5.
  unfold sides_of. cbn [map]. rewrite A0, A1, A2, A3, A4, A5, N0, N1, N2, N3, N4, N5, T0, T1, T2, T3, T4, T5. unfold box_list. cbn [hd].
  assert (D : forall (pts : list vec) ts (n : vec) (d d' : R), d = d' -> (pts, ts, n, d) = (pts, ts, n, d') :> face * vec * R) by (intros; subst; auto).
  repeat (apply f_equal2; [apply D; unfold corner_of, box_point; vunf; ring|]). reflexivity.
Qed.
End Box.

Lemma shell_loose fs T : shell fs T -> loose_shell fs T.
Proof. intros (S & C). split; auto. exists (map fst (InsideSpec.solid_of fs)). split; auto. clear. induction (InsideSpec.solid_of fs); cbn; constructor; auto. Qed.
(** A room whose walls are met well is not left. *)
Lemma room_keeps r ws p p' : built r ws -> occupies r p -> (forall f n d m, In (f, n, d) (sides_of ws) -> on_segment p p' m -> ~ in_mesh f m) -> occupies r p'.
Proof.
  destruct r as [x y z mv|plan h t phi]; cbn [built].
  - intros (F & name & Vn & B) O N. apply (box_stays x y z mv F p p' O). rewrite <- (box_sides_of x y z mv F name ws Vn B). exact N.
  - intros (Hh & Sm & _ & tr & name & names & fn & cn & rf & rc & Mv & H) O N. exact (hall_keeps plan h tr phi name names fn cn rf rc ws t H Mv Sm Hh p p' O N).
Qed.
Lemma room_sound r ws : built r ws -> ok_faces (sides_of ws) /\ exists T, loose_shell (sides_of ws) T.
Proof.
  destruct r as [x y z mv|plan h t phi]; cbn [built].
  - intros (F & name & Vn & B). rewrite (box_sides_of x y z mv F name ws Vn B), box_sides_list. split; [exact (box_sound x y z mv F)|]. exists (concat (box_tris x y z mv)). apply shell_loose. apply box_shell; auto.
  - intros (Hh & Sm & Okf & tr & name & names & fn & cn & rf & rc & Mv & H). split; auto. destruct (plan_parts plan h tr phi name names fn cn rf rc ws t H Mv Sm) as (_ & _ & _ & _ & _ & _ & _ & _ & _ & _ & _ & _ & T & Sh). eauto.
Qed.
Lemma room_run polys transparent order_of mn mx s e grid sc fuel num pos vel en hs b r ws : RoomSpec.room polys transparent order_of mn mx s e grid sc -> 0 <= eps sc -> 0 < dt sc -> 0 < speed sc * dt sc <= s ->
  length vel = length pos -> length en = length pos -> length hs = length (absorbers sc) -> (forall v, In v vel -> norm v = speed sc) -> simulation_loop sc fuel num pos vel en hs = Ok b ->
  built r ws -> walled (sides_of ws) polys transparent ->
  forall k i j p p', (i <= j)%nat -> cell (b_pos b) i k p -> cell (b_pos b) j k p' -> travels_well sc b (sides_of ws) k i j -> occupies r p -> occupies r p'.
Proof.
  intros Rm Ep D0 Sp Lv Le Lh Nv E Bu Wl k i j p p' Lij C C' Tw O. destruct (room_sound r ws Bu) as (Okf & T & (Cov & _) & _).
  revert p' C' Tw. induction j as [|j IH]; intros p' C' Tw.
  - assert (i = 0%nat) by lia. subst i. destruct C as (r1 & A & B), C' as (r' & A' & B'). assert (p = p') as -> by congruence. exact O.
  - destruct (Nat.eq_dec i (S j)) as [->|Ne]. { destruct C as (r1 & A & B), C' as (r' & A' & B'). assert (p = p') as -> by congruence. exact O. }
    destruct (cell_before sc fuel num pos vel en hs b Ep Lv Le Lh E j k p' C') as (q & Cq).
    apply (room_keeps r ws q p' Bu); [apply IH; auto; [lia|intros l x y y' L; apply (Tw l); lia]|].
    intros f n d m I Sg. apply (unmet polys transparent order_of mn mx s e grid sc Rm fuel num pos vel en hs b Ep D0 Sp Lv Le Lh Nv E (sides_of ws) Wl Okf Cov j k q p' f n d m Cq C' I); auto. apply (Tw j); auto; lia.
Qed.
