(** Proofs: points in boxes; wrong answers for lines of sight through edges. *)
From Coq Require Import Ascii String Reals List Bool Arith Lia Lra.
From Verif Require Import Prelude TreeModel VecModel VecProofs GeomModel GeomSpec GeomProofs1 GeomProofs2 GeomProofs3 GeomProofs4 GeomProofs5 TriModel PolyModel PolySpec PolyProofs1 PolyProofs2 SolidModel SolidSpec SolidProofs1 SolidProofs3 CrossSpec CrossProofs1 InsideSpec InsideProofs1.
Import ListNotations.
Local Open Scope R_scope.

Definition QT : list tri := [(3, 0, 1); (3, 1, 2)]%nat.
Lemma rect_sound o u w n d a b m : unit n -> norm u = a -> norm w = b -> dot u w = 0 -> cross u w = smul (a * b) n -> dot n o + d = 0 -> 1 / 1000 <= m -> m <= a <= 5000 * m -> m <= b <= 5000 * m ->
  1 / 1000 <= Rabs (dot n sight) -> sound_face (rect o u w, QT) n d.
Proof.
  intros Un Na Nb P Cr Dn Hm Ha Hb Sg. assert (AB : 1 / 1000000 <= a * b) by nra.
  assert (Du : dot n u = 0). { assert (E : a * b * dot n u = 0) by (replace (a * b * dot n u) with (dot (smul (a * b) n) u) by (vunf; ring); rewrite <- Cr; vunf; ring). apply Rmult_integral in E. destruct E; [lra|auto]. }
  assert (Dw : dot n w = 0). { assert (E : a * b * dot n w = 0) by (replace (a * b * dot n w) with (dot (smul (a * b) n) w) by (vunf; ring); rewrite <- Cr; vunf; ring). apply Rmult_integral in E. destruct E; [lra|auto]. }
  assert (Ar : forall p q r, cross (vsub q p) (vsub r p) = cross u w \/ cross (vsub q p) (vsub r p) = vopp (cross u w) -> 2 * true_area p q r = a * b).
  { intros p q r H. unfold true_area. assert (norm (cross (vsub q p) (vsub r p)) = a * b); [|lra]. destruct H as [->| ->]; rewrite ?norm_opp, Cr, norm_smul, (unit_norm n Un), Rabs_pos_eq by nra; ring. }
  split; [exact Un|]. split.
  { unfold on_plane. cbn [fst rect]. intros q [<-|[<-|[<-|[<-|[]]]]]; rewrite ?dot_vadd_r, ?Du, ?Dw; lra. }
  split.
  { cbn [fst snd]. intros t [<-|[<-|[]]]; (do 3 eexists; split; [split; [reflexivity|split; reflexivity]|]); rewrite Ar; try lra; left; dvec o; dvec u; dvec w; vunf; f_equal; ring. }
  split; [exact Sg|]. exists o, (vadd o u), (vadd (vadd o u) w), [vadd o w]. split; [reflexivity|].
  assert (E0 : 2 * true_area (last (fst (rect o u w, QT)) o) o (vadd o u) = a * b) by (cbn [fst rect last]; apply Ar; left; dvec o; dvec u; dvec w; vunf; f_equal; ring).
  assert (E1 : 2 * true_area o (vadd o u) (vadd (vadd o u) w) = a * b) by (apply Ar; left; dvec o; dvec u; dvec w; vunf; f_equal; ring).
  split; [rewrite E0; lra|]. split; [rewrite E1; lra|]. unfold off_edge. rewrite E1.
  replace (dist o (vadd o u)) with a by (unfold dist; rewrite <- Na; f_equal; dvec o; dvec u; vunf; f_equal; ring).
  assert (D : b <= dist o (vadd (vadd o u) w) <= a + b).
  { unfold dist. replace (vsub (vadd (vadd o u) w) o) with (vadd u w) by (dvec o; dvec u; dvec w; vunf; f_equal; ring). assert (Q : dot (vadd u w) (vadd u w) = a * a + b * b) by (rewrite <- Na, <- Nb, !norm_sq; dvec u; dvec w; unfold dot, vadd in *; cbn [vx vy vz] in *; nra).
    unfold norm. rewrite Q. split; [rewrite <- (sqrt_square b) at 1 by lra; apply sqrt_le_1_alt; nra|]. rewrite <- (sqrt_square (a + b)) by lra. apply sqrt_le_1_alt. nra. }
  split; [|split; [lra|split; lra]]. set (e := dist o _) in *. assert (1 / 10000 * e < b) by lra. nra.
Qed.
Section Box.
Context (x y z : R) (mv : vec) (F : box_fits x y z mv).
Notation pt i j k := (corner_of x y z mv i j k).
Definition box_list : list (face * vec * R) :=
  [([pt 0 0 0; pt 0 1 0; pt 1 1 0; pt 1 0 0], QT, V 0 0 (-1), vz mv); ([pt 0 0 0; pt 1 0 0; pt 1 0 1; pt 0 0 1], QT, V 0 (-1) 0, vy mv); ([pt 1 0 0; pt 1 1 0; pt 1 1 1; pt 1 0 1], QT, V 1 0 0, - (x + vx mv));
   ([pt 0 1 0; pt 0 1 1; pt 1 1 1; pt 1 1 0], QT, V 0 1 0, - (y + vy mv)); ([pt 0 0 0; pt 0 0 1; pt 0 1 1; pt 0 1 0], QT, V (-1) 0 0, vx mv); ([pt 0 0 1; pt 1 0 1; pt 1 1 1; pt 0 1 1], QT, V 0 0 1, - (z + vz mv))].
Lemma rect_sound' pts o u w n d a b : pts = rect o u w -> (a = x \/ a = y \/ a = z) -> (b = x \/ b = y \/ b = z) -> unit n -> dot u u = a * a -> dot w w = b * b -> dot u w = 0 -> cross u w = smul (a * b) n -> dot n o + d = 0 -> 113 <= Rabs (dot n sight) -> sound_face (pts, QT) n d.
Proof.
  intros -> A B Un Eu Ew P Cr Dn Sg. destruct F as (m & M & Hx & Hy & Hz & _). assert (Ra : m <= a <= 5000 * m) by (destruct A as [->|[->| ->]]; auto). assert (Rb : m <= b <= 5000 * m) by (destruct B as [->|[->| ->]]; auto).
  apply (rect_sound o u w n d a b m); auto; try lra; apply norm_axis; auto; lra.
Qed.
Ltac veq := unfold corner_of, rect; repeat (apply f_equal2; [apply vec_ext; unfold vadd; cbn [vx vy vz]; ring|]); reflexivity.
Ltac side o u w a b := apply (rect_sound' _ o u w _ _ a b); [veq|auto|auto|unfold unit; vunf; ring|vunf; ring|vunf; ring|vunf; ring|vunf; f_equal; ring|unfold corner_of; vunf; ring|unfold sight; vunf; unfold Rabs; destruct (Rcase_abs _); lra].
Lemma box_sound : ok_faces box_list.
Proof.
  intros f n d [E|[E|[E|[E|[E|[E|[]]]]]]]; injection E as <- <- <-.
  - side (pt 0 0 0) (V 0 y 0) (V x 0 0) y x.
  - side (pt 0 0 0) (V x 0 0) (V 0 0 z) x z.
  - side (pt 1 0 0) (V 0 y 0) (V 0 0 z) y z.
  - side (pt 0 1 0) (V 0 0 z) (V x 0 0) z x.
  - side (pt 0 0 0) (V 0 0 z) (V 0 y 0) z y.
  - side (pt 0 0 1) (V x 0 0) (V 0 y 0) x y.
Qed.
Lemma box_solid name ws : validate_name name = Ok name -> box x y z mv name = Ok ws -> map fst (all_polys ws) = solid_of box_list.
Proof.
  intros Hn B. destruct (box_ok x y z mv F name Hn) as (ws' & B' & _ & _ & Ho & _ & Ht & _). rewrite B in B'. apply Ok_inj in B'. subst ws'. clear B.
  unfold outlines, box_outlines in Ho. unfold all_polys, solid_of, box_list. destruct ws as [|w0 [|w1 [|w2 [|w3 [|w4 [|w5 [|w6 ws]]]]]]]; try discriminate. cbn [map repeat] in *. injection Ho as A0 A1 A2 A3 A4 A5. injection Ht as T0 T1 T2 T3 T4 T5.
  cbn [map fst]. rewrite A0, A1, A2, A3, A4, A5, T0, T1, T2, T3, T4, T5. reflexivity.
Qed.
Definition in_box (p : vec) : Prop := vx mv < vx p < x + vx mv /\ vy mv < vy p < y + vy mv /\ vz mv < vz p < z + vz mv.
Lemma box_extent p : in_box p -> in_extent (concat (map fst (solid_of box_list))) p.
Proof.
  intros (Hx & Hy & Hz). cbn [solid_of box_list map fst concat app]. intros c Ic. split; [exists (pt 0 0 0)|exists (pt 1 1 1)]; (split; [simpl; auto 12|]); unfold corner_of; destruct Ic as [<-|[<-|[<-|[]]]]; cbn [vx vy vz]; lra.
Qed.
Lemma quad_within a b c d q u v w : In (u, v, w) (quad_triangles [a; b; c; d]) -> strictly_inside u v w q -> off_edges u v w q -> touches ([a; b; c; d], QT) q.
Proof.
  intros I S O. left. cbn [quad_triangles] in I. destruct I as [I|[I|[]]]; injection I as <- <- <-; [exists (3, 0, 1)%nat|exists (3, 1, 2)%nat]; do 3 eexists; (split; [simpl; auto|]); (split; [split; [reflexivity|split; reflexivity]|auto]).
Qed.
Lemma lower_passes p f n d k : In (f, n, d) box_list -> dot n sight = - k -> 0 < k -> dot n p + d < 0 -> ray_passes p f n d.
Proof.
  intros _ E K L. exists ((dot n p + d) / k). split; [unfold on_plane, ray; rewrite dot_vadd_r, dot_smul_r, E; field; lra|left]. unfold Rdiv. pose proof (Rinv_0_lt_compat k K). nra.
Qed.
Definition hi : vec := pt 1 1 1.
Lemma upper_passes p f n d co s : In (f, n, d) box_list -> on_plane n d (ray p s) -> In co [vx; vy; vz] -> co hi + 1 / 100 < co (ray p s) -> ray_passes p f n d.
Proof.
  intros I Q Ico L. exists s. split; auto. right. left. exists co. split; auto. left. destruct F as (m & M & Hx & Hy & Hz & _).
  assert (B : forall v, In v (fst f) -> co v <= co hi).
  { unfold box_list in I. destruct I as [I|[I|[I|[I|[I|[I|[]]]]]]]; injection I as <- _ _; cbn [fst]; intros v Iv; repeat (destruct Iv as [<-|Iv]; [unfold hi, corner_of; destruct Ico as [<-|[<-|[<-|[]]]]; cbn [vx vy vz]; lra|]); destruct Iv. }
  intros v Iv. specialize (B v Iv). lra.
Qed.
Lemma ray_coord p t : vx (ray p t) = vx p + 739 * t /\ vy (ray p t) = vy p + 239 * t /\ vz (ray p t) = vz p + 113 * t.
Proof. unfold ray, sight. vunf. repeat split; ring. Qed.
Lemma tri_bounds co a b c q lo : (co = vx \/ co = vy \/ co = vz) -> strictly_inside a b c q -> co a <= lo -> co b <= lo -> co c <= lo -> (co a < lo \/ co b < lo \/ co c < lo) -> co q < lo.
Proof.
  intros Ic (u & v & w & U & V_ & W & S & ->) A B C S1. unfold bary. replace (co (vadd (vadd (smul u a) (smul v b)) (smul w c))) with (u * co a + v * co b + w * co c) by (destruct Ic as [->|[->| ->]]; vunf; ring).
  assert (u = 1 - v - w) by lra. subst u. destruct S1 as [L|[L|L]]; nra.
Qed.
Lemma tri_const co a b c q k : (co = vx \/ co = vy \/ co = vz) -> strictly_inside a b c q -> co a = k -> co b = k -> co c = k -> co q = k.
Proof.
  intros Ic (u & v & w & _ & _ & _ & S & ->) A B C. unfold bary. replace (co (vadd (vadd (smul u a) (smul v b)) (smul w c))) with (u * co a + v * co b + w * co c) by (destruct Ic as [->|[->| ->]]; vunf; ring). rewrite A, B, C. replace k with (1 * k) at 4 by ring. rewrite <- S. ring.
Qed.
Lemma box_inside p t fc a b c : in_box p -> In fc [[pt 1 0 0; pt 1 1 0; pt 1 1 1; pt 1 0 1]; [pt 0 1 0; pt 0 1 1; pt 1 1 1; pt 1 1 0]; [pt 0 0 1; pt 1 0 1; pt 1 1 1; pt 0 1 1]] ->
  In (a, b, c) (quad_triangles fc) -> strictly_inside a b c (ray p t) -> off_edges a b c (ray p t) ->
  (forall s co, In co [vx; vy; vz] -> co (ray p s) = co hi -> s <> t -> exists co', In co' [vx; vy; vz] /\ co' hi + 1 / 100 < co' (ray p s)) ->
  solid_point_inside (solid_of box_list) p = Ok true.
Proof.
  intros Ib If It Si Oe Cl. pose proof F as (m & M & Hx & Hy & Hz & _). pose proof Ib as (Px & Py & Pz). destruct (ray_coord p t) as (Rx & Ry & Rz).
  assert (Lw0 : ray_passes p ([pt 0 0 0; pt 0 1 0; pt 1 1 0; pt 1 0 0], QT) (V 0 0 (-1)) (vz mv)) by (apply (lower_passes p _ _ _ 113); [simpl; auto|unfold sight; vunf; ring|lra|vunf; lra]).
  assert (Lw1 : ray_passes p ([pt 0 0 0; pt 1 0 0; pt 1 0 1; pt 0 0 1], QT) (V 0 (-1) 0) (vy mv)) by (apply (lower_passes p _ _ _ 239); [simpl; auto|unfold sight; vunf; ring|lra|vunf; lra]).
  assert (Lw4 : ray_passes p ([pt 0 0 0; pt 0 0 1; pt 0 1 1; pt 0 1 0], QT) (V (-1) 0 0) (vx mv)) by (apply (lower_passes p _ _ _ 739); [simpl; auto 6|unfold sight; vunf; ring|lra|vunf; lra]).
  assert (Ux : vx (ray p t) < vx hi -> ray_passes p ([pt 1 0 0; pt 1 1 0; pt 1 1 1; pt 1 0 1], QT) (V 1 0 0) (- (x + vx mv))).
  { intros L. set (s := (x + vx mv - vx p) / 739). destruct (ray_coord p s) as (Sx & Sy & Sz). assert (E : vx (ray p s) = vx hi) by (rewrite Sx; unfold s, hi, corner_of; cbn [vx]; field). destruct (Cl s vx ltac:(simpl; auto) E) as (co & Ico & B); [intros Es; rewrite Es in E; lra|].
    apply (upper_passes p _ _ _ co s); auto; [simpl; auto|]. unfold on_plane. replace (dot (V 1 0 0) (ray p s)) with (vx (ray p s)) by (vunf; ring). rewrite E. unfold hi, corner_of. cbn [vx]. ring. }
  assert (Uy : vy (ray p t) < vy hi -> ray_passes p ([pt 0 1 0; pt 0 1 1; pt 1 1 1; pt 1 1 0], QT) (V 0 1 0) (- (y + vy mv))).
  { intros L. set (s := (y + vy mv - vy p) / 239). destruct (ray_coord p s) as (Sx & Sy & Sz). assert (E : vy (ray p s) = vy hi) by (rewrite Sy; unfold s, hi, corner_of; cbn [vy]; field). destruct (Cl s vy ltac:(simpl; auto) E) as (co & Ico & B); [intros Es; rewrite Es in E; lra|].
    apply (upper_passes p _ _ _ co s); auto; [simpl; auto|]. unfold on_plane. replace (dot (V 0 1 0) (ray p s)) with (vy (ray p s)) by (vunf; ring). rewrite E. unfold hi, corner_of. cbn [vy]. ring. }
  assert (Uz : vz (ray p t) < vz hi -> ray_passes p ([pt 0 0 1; pt 1 0 1; pt 1 1 1; pt 0 1 1], QT) (V 0 0 1) (- (z + vz mv))).
  { intros L. set (s := (z + vz mv - vz p) / 113). destruct (ray_coord p s) as (Sx & Sy & Sz). assert (E : vz (ray p s) = vz hi) by (rewrite Sz; unfold s, hi, corner_of; cbn [vz]; field). destruct (Cl s vz ltac:(simpl; auto) E) as (co & Ico & B); [intros Es; rewrite Es in E; lra|].
    apply (upper_passes p _ _ _ co s); auto; [simpl; auto 7|]. unfold on_plane. replace (dot (V 0 0 1) (ray p s)) with (vz (ray p s)) by (vunf; ring). rewrite E. unfold hi, corner_of. cbn [vz]. ring. }
  assert (G : forall bs, Forall2 (fun x (b : bool) => let '(f, n, d) := x in if b then ray_meets p f n d else ray_passes p f n d) box_list bs -> Nat.odd (hits bs) = true -> solid_point_inside (solid_of box_list) p = Ok true)
    by (intros bs H O; apply (parity_odd box_list p bs); auto; [apply box_sound|discriminate|apply box_extent; auto]).
  destruct If as [<-|[<-|[<-|[]]]]; pose proof (quad_within _ _ _ _ _ _ _ _ It Si Oe) as W; cbn [quad_triangles] in It.
  - assert (Ex : vx (ray p t) = vx hi) by (apply (tri_const vx a b c); auto; destruct It as [It|[It|[]]]; injection It as <- <- <-; reflexivity).
    apply (G [false; false; true; false; false; false]); [|reflexivity]. repeat first [apply Forall2_nil|apply Forall2_cons]; auto.
    + exists t. split; [assert (vx hi = x + vx mv) by (unfold hi, corner_of; cbn [vx]; ring); lra|]. split; [|exact W]. unfold on_plane. replace (dot (V 1 0 0) (ray p t)) with (vx (ray p t)) by (vunf; ring). rewrite Ex. unfold hi, corner_of. cbn [vx]. ring.
    + apply Uy. apply (tri_bounds vy a b c); auto; destruct It as [It|[It|[]]]; injection It as <- <- <-; unfold hi, corner_of; cbn [vy]; lra.
    + apply Uz. apply (tri_bounds vz a b c); auto; destruct It as [It|[It|[]]]; injection It as <- <- <-; unfold hi, corner_of; cbn [vz]; lra.
  - assert (Ex : vy (ray p t) = vy hi) by (apply (tri_const vy a b c); auto; destruct It as [It|[It|[]]]; injection It as <- <- <-; reflexivity).
    apply (G [false; false; false; true; false; false]); [|reflexivity]. repeat first [apply Forall2_nil|apply Forall2_cons]; auto.
    + apply Ux. apply (tri_bounds vx a b c); auto; destruct It as [It|[It|[]]]; injection It as <- <- <-; unfold hi, corner_of; cbn [vx]; lra.
    + exists t. split; [assert (vy hi = y + vy mv) by (unfold hi, corner_of; cbn [vy]; ring); lra|]. split; [|exact W]. unfold on_plane. replace (dot (V 0 1 0) (ray p t)) with (vy (ray p t)) by (vunf; ring). rewrite Ex. unfold hi, corner_of. cbn [vy]. ring.
    + apply Uz. apply (tri_bounds vz a b c); auto; destruct It as [It|[It|[]]]; injection It as <- <- <-; unfold hi, corner_of; cbn [vz]; lra.
  - assert (Ex : vz (ray p t) = vz hi) by (apply (tri_const vz a b c); auto; destruct It as [It|[It|[]]]; injection It as <- <- <-; reflexivity).
    apply (G [false; false; false; false; false; true]); [|reflexivity]. repeat first [apply Forall2_nil|apply Forall2_cons]; auto.
    + apply Ux. apply (tri_bounds vx a b c); auto; destruct It as [It|[It|[]]]; injection It as <- <- <-; unfold hi, corner_of; cbn [vx]; lra.
    + apply Uy. apply (tri_bounds vy a b c); auto; destruct It as [It|[It|[]]]; injection It as <- <- <-; unfold hi, corner_of; cbn [vy]; lra.
    + exists t. split; [assert (vz hi = z + vz mv) by (unfold hi, corner_of; cbn [vz]; ring); lra|]. split; [|exact W]. unfold on_plane. replace (dot (V 0 0 1) (ray p t)) with (vz (ray p t)) by (vunf; ring). rewrite Ex. unfold hi, corner_of. cbn [vz]. ring.
Qed.
End Box.
