(** The triangles of rectangles and of level polygons fill them. *)
From Coq Require Import Ascii String Reals List ZArith Bool Arith Lia Lra Psatz Permutation Classical.
From Verif Require Import Prelude TreeModel VecModel VecProofs GeomModel GeomSpec GeomProofs1 TriModel TriSpec TriProofs2 PolyModel PolySpec SolidModel SolidSpec SolidProofs1 CrossSpec InsideSpec RoomSpec RoomProofs1 PlanSpec
  WindSpec WindProofs1 WindProofs2 WindProofs5 LoopSpec LoopProofs5 ShellSpec.
Import ListNotations.
Local Open Scope R_scope.

Section Rect.
Context (o u w n : vec) (d k : R) (ts : list tri) (K : 0 < k) (Cr : cross u w = smul k n) (Cv : covers (rect o u w, ts) n d).
Definition pt (x y : R) : vec := vadd (vadd o (smul x u)) (smul y w).
Lemma pt_bary xa ya xb yb xc yc a b c : a + b + c = 1 -> bary (pt xa ya) (pt xb yb) (pt xc yc) a b c = pt (a * xa + b * xb + c * xc) (a * ya + b * yb + c * yc).
Proof. intros S. replace a with (1 - b - c) by lra. unfold bary, pt. clear. dvec o; dvec u; dvec w. vunf. f_equal; ring. Qed.
Lemma pt_way xa ya xb yb m : on_way (pt xa ya) (pt xb yb) m = pt (xa + m * (xb - xa)) (ya + m * (yb - ya)).
Proof. unfold on_way, pt. clear. dvec o; dvec u; dvec w. vunf. f_equal; ring. Qed.
Lemma pt_seg xa ya xb yb m : seg_point (pt xa ya) (pt xb yb) m = pt (xa + m * (xb - xa)) (ya + m * (yb - ya)).
Proof. unfold seg_point, pt. clear. dvec o; dvec u; dvec w. vunf. f_equal; ring. Qed.
Lemma pt_area : dot n (cross u w) = k.
Proof. destruct Cv as (U & _). rewrite Cr, dot_smul_r. unfold unit in U. rewrite U. ring. Qed.
Lemma pt_inj x y x' y' : pt x y = pt x' y' -> x = x' /\ y = y'.
Proof.
  intros E. pose proof pt_area as A.
  assert (X : forall x y, dot n (cross (vsub (pt x y) o) w) = x * k) by (intros a b; rewrite <- A; unfold pt; clear; dvec o; dvec u; dvec w; dvec n; vunf; ring).
  assert (Y : forall x y, dot n (cross u (vsub (pt x y) o)) = y * k) by (intros a b; rewrite <- A; unfold pt; clear; dvec o; dvec u; dvec w; dvec n; vunf; ring).
  pose proof (X x y) as X1. pose proof (Y x y) as Y1. rewrite E, X in X1. rewrite E, Y in Y1. split; apply (Rmult_eq_reg_r k); lra.
Qed.
Lemma pt_corner v : In v (rect o u w) -> exists x y, (x = 0 \/ x = 1) /\ (y = 0 \/ y = 1) /\ v = pt x y.
Proof.
  intros [<-|[<-|[<-|[<-|[]]]]]; [exists 0, 0|exists 1, 0|exists 1, 1|exists 0, 1]; (split; [auto|split; [auto|]]); unfold pt; clear; dvec o; dvec u; dvec w; vunf; f_equal; ring.
Qed.
Lemma rect_list : rect o u w = [pt 0 0; pt 1 0; pt 1 1; pt 0 1].
Proof. unfold rect, pt. clear. dvec o; dvec u; dvec w. repeat (apply f_equal2; [vunf; f_equal; ring|]). reflexivity. Qed.
Lemma pt_outline q : on_outline (rect o u w) q -> exists x y, q = pt x y /\ (x = 0 \/ x = 1 \/ y = 0 \/ y = 1).
Proof.
  rewrite rect_list. intros (e & I & m & M & ->). unfold cyc_pairs in I. cbn in I. destruct I as [<-|[<-|[<-|[<-|[]]]]]; cbn [fst snd]; rewrite pt_seg; do 2 eexists; (split; [reflexivity|]); [right; right; left|right; left|right; right; right|left]; ring.
Qed.
Lemma outline_pt x y : 0 <= x <= 1 -> 0 <= y <= 1 -> (x = 0 \/ x = 1 \/ y = 0 \/ y = 1) -> on_outline (rect o u w) (pt x y).
Proof.
  intros Hx Hy D. rewrite rect_list. unfold on_outline, cyc_pairs. cbn [tl app combine fst snd]. destruct D as [->|[->|[->| ->]]].
  - exists (pt 0 1, pt 0 0). split; [cbn; auto|]. exists (1 - y). split; [lra|]. cbn [fst snd]. rewrite pt_seg. f_equal; ring.
  - exists (pt 1 0, pt 1 1). split; [cbn; auto|]. exists y. split; [lra|]. cbn [fst snd]. rewrite pt_seg. f_equal; ring.
  - exists (pt 0 0, pt 1 0). split; [cbn; auto|]. exists x. split; [lra|]. cbn [fst snd]. rewrite pt_seg. f_equal; ring.
  - exists (pt 1 1, pt 0 1). split; [cbn; auto|]. exists (1 - x). split; [lra|]. cbn [fst snd]. rewrite pt_seg. f_equal; ring.
Qed.
Lemma rect_filled x y : 0 <= x <= 1 -> 0 <= y <= 1 -> in_mesh (rect o u w, ts) (pt x y).
Proof.
  intros Hx Hy. pose proof (covers_tiled _ _ _ Cv) as Ti.
  destruct (classic (x = 0 \/ x = 1 \/ y = 0 \/ y = 1)) as [D|D]; [apply (outline_in_mesh _ n d _ Ti); apply outline_pt; auto|].
  assert (Ix : 0 < x < 1 /\ 0 < y < 1) by (assert (x <> 0 /\ x <> 1 /\ y <> 0 /\ y <> 1) by tauto; lra). clear D.
  apply NNPP. intros Nm. pose proof Cv as (Un & Pl & Tv & ds & Pm). cbn [fst snd] in *.
  assert (Ts : exists t0, In t0 ts) by (revert Pm; clear; intros Pm; destruct ts as [|t0 tr]; [apply Permutation_length in Pm; cbn in Pm; discriminate|exists t0; left; auto]). destruct Ts as (t0 & It0).
  destruct (Tv t0 It0) as (a & b & c & Vt & Po). assert (It : In a (rect o u w) /\ In b (rect o u w) /\ In c (rect o u w)) by (destruct t0 as ((i, j), l); destruct Vt as (V1 & V2 & V3); repeat split; eapply nth_error_In; eauto).
  destruct It as (Ia & Ib & Ic). apply pt_corner in Ia, Ib, Ic. destruct Ia as (xa & ya & Xa & Ya & Ea), Ib as (xb & yb & Xb & Yb & Eb), Ic as (xc & yc & Xc & Yc & Ec).
  assert (Ar : dot n (cross (vsub b a) (vsub c a)) = ((xb - xa) * (yc - ya) - (xc - xa) * (yb - ya)) * k) by (rewrite <- pt_area, Ea, Eb, Ec; unfold pt; clear; dvec o; dvec u; dvec w; dvec n; vunf; ring).
  assert (Nx : ~ (xb = xa /\ xc = xa)) by (intros (E & E'); rewrite Ar, E, E' in Po; apply (Rlt_irrefl 0); eapply Rlt_le_trans; [exact Po|right; ring]). assert (Ny : ~ (yb = ya /\ yc = ya)) by (intros (E & E'); rewrite Ar, E, E' in Po; apply (Rlt_irrefl 0); eapply Rlt_le_trans; [exact Po|right; ring]).
  set (xm := 1 / 3 * xa + 1 / 3 * xb + 1 / 3 * xc). set (ym := 1 / 3 * ya + 1 / 3 * yb + 1 / 3 * yc).
  assert (Bx : 0 < xm < 1) by (unfold xm; destruct Xa, Xb, Xc; subst; try lra; exfalso; apply Nx; lra).
  assert (By : 0 < ym < 1) by (unfold ym; destruct Ya, Yb, Yc; subst; try lra; exfalso; apply Ny; lra).
  assert (Mc : in_mesh (rect o u w, ts) (pt xm ym)).
  { exists t0, a, b, c. split; [exact It0|]. split; [exact Vt|]. exists (1 / 3), (1 / 3), (1 / 3). repeat split; try lra. rewrite Ea, Eb, Ec, pt_bary by lra. reflexivity. }
  assert (Pt : on_plane n d (pt x y)). { assert (Q : forall v, In v (rect o u w) -> dot n v + d = 0) by (intros v I; apply (Pl v I)). rewrite rect_list in Q. pose proof (Q (pt 0 0) ltac:(simpl; auto)) as Q0. pose proof (Q (pt 1 0) ltac:(simpl; auto)) as Q1. pose proof (Q (pt 0 1) ltac:(simpl; auto)) as Q2.
    unfold on_plane. assert (L : dot n (pt x y) = (1 - x - y) * dot n (pt 0 0) + x * dot n (pt 1 0) + y * dot n (pt 0 1)) by (unfold pt; clear; dvec o; dvec u; dvec w; dvec n; vunf; ring). rewrite L. replace (dot n (pt 0 0)) with (- d) by lra. replace (dot n (pt 1 0)) with (- d) by lra. replace (dot n (pt 0 1)) with (- d) by lra. ring. }
  destruct (exit_outline _ n d _ _ Ti Mc Pt Nm) as (m & M & O). cbn [fst] in O. rewrite pt_way in O. apply pt_outline in O. destruct O as (x' & y' & E & D). apply pt_inj in E. destruct E as (E1 & E2).
  assert (G : forall a b, 0 < a < 1 -> 0 < b < 1 -> 0 < a + m * (b - a) < 1) by (clear -M; intros a b A B; destruct (Rle_dec a b); split; nra). pose proof (G xm x Bx (proj1 Ix)). pose proof (G ym y By (proj2 Ix)). lra.
Qed.
End Rect.

(** Level polygons over an outline. *)
Lemma level_mesh (f : face) v d l z q u : covers f (V 0 0 v) d -> (v = 1 \/ v = -1) -> simple_outline (fst f) -> (fst f = l \/ fst f = rev l) -> (forall p, In p l -> vz p = z) -> vz q = z -> cross u ez <> vzero -> ~ on_outline l q ->
  (in_mesh f q <-> winding ez u q l <> 0%Z).
Proof.
  intros Cv Hv Sm Hl Zl Zq Nu No. assert (Zf : forall p, In p (fst f) -> vz p = z) by (intros p I; apply Zl; destruct Hl as [E|E]; rewrite E in I; auto; apply in_rev; auto).
  assert (Ed : d = - (v * z)). { destruct Cv as (_ & P & _). destruct Sm as (_ & L & _). assert (Ex : exists p, In p (fst f)) by (clear -L; destruct (fst f) as [|p r]; [cbn in L; lia|exists p; left; auto]). destruct Ex as (p & Ip). pose proof (P p Ip) as Q. rewrite <- (Zf p Ip). unfold on_plane in Q. revert Q. vunf. lra. }
  assert (Of : ~ on_outline (fst f) q) by (intros O; apply No; destruct Hl as [E|E]; rewrite E in O; auto; rewrite <- (rev_involutive l); apply outline_rev; auto).
  assert (Q : on_plane (V 0 0 v) d q) by (unfold on_plane; rewrite Ed, <- Zq; vunf; ring).
  assert (Nv : cross u (V 0 0 v) <> vzero) by (intros E; apply Nu; revert E; clear -Hv; unfold ez; dvec u; destruct Hv as [-> | ->]; vunf; intros E; injection E as E1 E2; f_equal; lra).
  pose proof (region_all f _ d Cv Sm q u Q Nv) as R. pose proof (winding_mesh f _ d u q Cv Q Nv) as (W0 & W1 & _).
  assert (Wz : winding (V 0 0 v) u q (fst f) = winding ez u q (fst f) \/ winding (V 0 0 v) u q (fst f) = (- winding ez u q (fst f))%Z).
  { destruct Hv as [Ev|Ev]; [left; rewrite Ev; auto|right]. replace (V 0 0 v) with (vopp ez) by (rewrite Ev; unfold ez; vunf; f_equal; lra). apply (winding_opp ez (- z)); auto; [unfold unit, ez; vunf; ring| |unfold on_plane, ez; vunf; lra]. intros p Ip. unfold on_plane, ez. pose proof (Zf p Ip). vunf. lra. }
  assert (W : winding ez u q (fst f) = winding ez u q l \/ winding ez u q (fst f) = (- winding ez u q l)%Z) by (destruct Hl as [-> | ->]; rewrite ?winding_rev; auto).
  split; [intros I; apply R in I; destruct I as [I|I]; [contradiction|]; lia|intros N; apply W1; lia].
Qed.
