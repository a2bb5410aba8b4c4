(** Boxes made by the code: which points are found inside. *)
From Coq Require Import Ascii String Reals List ZArith Bool Arith Lia Lra Psatz Permutation.
From Verif Require Import Prelude TreeModel VecModel VecProofs GeomModel GeomSpec GeomProofs1 TriModel TriSpec PolyModel PolySpec PolyProofs1 SolidModel SolidSpec SolidProofs1 SolidProofs3 CrossSpec InsideSpec InsideProofs1 InsideProofs2 InsideProofs3 RoomSpec
  WindSpec LoopSpec ShellSpec ShellProofs5 ShellProofs6 ShellProofs7.
Import ListNotations.
Local Open Scope R_scope.

Local Ltac pick := match goal with |- Permutation (?x :: ?l) ?r =>
  let rec go a b := lazymatch b with x :: ?t => (apply (Permutation_cons_app a t x)) | ?h :: ?t => go constr:(app a (cons h nil)) t end in
  let t := type of x in go constr:(@nil t) r end; cbn [app].
Lemma rect_covers o u w n d k : unit n -> cross u w = smul k n -> 0 < k -> dot n o + d = 0 -> covers (rect o u w, QT) n d.
Proof.
  intros U Cr K Dn.
  assert (Du : dot n u = 0). { assert (E : k * dot n u = 0) by (replace (k * dot n u) with (dot (smul k n) u) by (vunf; ring); rewrite <- Cr; vunf; ring). apply Rmult_integral in E. destruct E; [lra|auto]. }
  assert (Dw : dot n w = 0). { assert (E : k * dot n w = 0) by (replace (k * dot n w) with (dot (smul k n) w) by (vunf; ring); rewrite <- Cr; vunf; ring). apply Rmult_integral in E. destruct E; [lra|auto]. }
  assert (Pk : dot n (cross u w) = k) by (rewrite Cr; replace (dot n (smul k n)) with (k * dot n n) by (vunf; ring); rewrite (U : dot n n = 1); ring).
  split; [exact U|]. split. { unfold on_plane. cbn [fst rect]. intros q [<-|[<-|[<-|[<-|[]]]]]; rewrite ?dot_vadd_r, ?Du, ?Dw; lra. }
  split.
  - cbn [fst snd]. intros t [<-|[<-|[]]]; (do 3 eexists; split; [split; [reflexivity|split; reflexivity]|]).
    + replace (cross _ _) with (cross u w) by (dvec o; dvec u; dvec w; vunf; f_equal; ring). lra.
    + replace (cross _ _) with (cross u w) by (dvec o; dvec u; dvec w; vunf; f_equal; ring). lra.
  - exists [(1, 3)]%nat. cbn. repeat pick. apply Permutation_refl.
Qed.
Lemma rect_simple o u w n k : unit n -> cross u w = smul k n -> 0 < k -> simple_outline (rect o u w).
Proof.
  intros U Cr K. assert (Pk : dot n (cross u w) = k) by (rewrite Cr; replace (dot n (smul k n)) with (k * dot n n) by (vunf; ring); rewrite (U : dot n n = 1); ring).
  assert (Sc : strictly_convex n (rect o u w)).
  { unfold strictly_convex, rect, cyc_pairs. cbn [app combine]. intros a b c I Ic Na Nb.
    repeat (destruct I as [I|I]; [injection I as <- <-; repeat (destruct Ic as [<-|Ic]; [first [contradiction|unfold left_of; replace (cross _ _) with (cross u w) by (clear; dvec o; dvec u; dvec w; vunf; f_equal; ring); lra]|]); destruct Ic|]). destruct I. }
  apply (convex_simple n); [|cbn; lia|exact Sc].
  assert (X : forall p q : vec, vsub p q <> vzero -> q <> p) by (intros p q H E; apply H; rewrite E; dvec p; unfold vzero; vunf; f_equal; ring).
  assert (Nu : u <> vzero) by (intros E; rewrite E in Pk; replace (dot n (cross vzero w)) with 0 in Pk by (unfold vzero; vunf; ring); lra).
  assert (Nw : w <> vzero) by (intros E; rewrite E in Pk; replace (dot n (cross u vzero)) with 0 in Pk by (unfold vzero; vunf; ring); lra).
  assert (Ns : vadd u w <> vzero) by (intros E; assert (Y : dot n (cross (vadd u w) w) = k) by (rewrite <- Pk; vunf; ring); rewrite E in Y; replace (dot n (cross vzero w)) with 0 in Y by (unfold vzero; vunf; ring); lra).
  assert (Nm : vsub w u <> vzero) by (intros E; assert (Y : dot n (cross u (vsub w u)) = k) by (rewrite <- Pk; vunf; ring); rewrite E in Y; replace (dot n (cross u vzero)) with 0 in Y by (unfold vzero; vunf; ring); lra).
  assert (Y1 : vsub (vadd o u) o = u) by (dvec o; dvec u; vunf; f_equal; ring). assert (Y2 : vsub (vadd (vadd o u) w) o = vadd u w) by (dvec o; dvec u; dvec w; vunf; f_equal; ring). assert (Y3 : vsub (vadd o w) o = w) by (dvec o; dvec w; vunf; f_equal; ring).
  assert (Y4 : vsub (vadd (vadd o u) w) (vadd o u) = w) by (dvec o; dvec u; dvec w; vunf; f_equal; ring). assert (Y5 : vsub (vadd o w) (vadd o u) = vsub w u) by (dvec o; dvec u; dvec w; vunf; f_equal; ring). assert (Y6 : vsub (vadd o w) (vadd (vadd o u) w) = smul (-1) u) by (dvec o; dvec u; dvec w; vunf; f_equal; ring).
  assert (Nu' : smul (-1) u <> vzero) by (intros E; apply Nu; dvec u; unfold vzero in *; vunf; cbn in E; injection E as E1 E2 E3; f_equal; lra).
  unfold rect. repeat (apply NoDup_cons; [intros I; repeat (destruct I as [I|I]; [symmetry in I; revert I; apply X; congruence|]); destruct I|]). apply NoDup_nil.
Qed.
Section Box.
Context (x y z : R) (mv : vec) (F : box_fits x y z mv).
Notation pt i j k := (corner_of x y z mv i j k).
Lemma box_sides_list : box_sides x y z mv = box_list x y z mv.
Proof. reflexivity. Qed.
Lemma box_pos : 0 < x /\ 0 < y /\ 0 < z.
Proof. destruct F as (m & M & Hx & Hy & Hz & _). lra. Qed.
Lemma rect_face pts o u w n d k : pts = rect o u w -> unit n -> cross u w = smul k n -> 0 < k -> dot n o + d = 0 -> covers (pts, QT) n d /\ simple_outline (fst (pts, QT)).
Proof. intros -> U Cr K Dn. split; [apply (rect_covers o u w n d k); auto|apply (rect_simple o u w n k); auto]. Qed.
Ltac veq := unfold corner_of, rect; repeat (apply f_equal2; [apply vec_ext; unfold vadd; cbn [vx vy vz]; ring|]); reflexivity.
Ltac side o u w k := apply (rect_face _ o u w _ _ k); [veq|unfold unit; vunf; ring|vunf; f_equal; ring|destruct box_pos as (? & ? & ?); nra|unfold corner_of; vunf; ring].
Definition box_tris : list (list (vec * vec * vec)) := map quad_triangles (box_faces x y z mv).
Lemma box_shell : shell (box_list x y z mv) (concat box_tris).
Proof.
  split; [split|].
  - intros f n d [E|[E|[E|[E|[E|[E|[]]]]]]]; injection E as <- <- <-.
    + side (pt 0 0 0) (V 0 y 0) (V x 0 0) (y * x).
    + side (pt 0 0 0) (V x 0 0) (V 0 0 z) (x * z).
    + side (pt 1 0 0) (V 0 y 0) (V 0 0 z) (y * z).
    + side (pt 0 1 0) (V 0 0 z) (V x 0 0) (z * x).
    + side (pt 0 0 0) (V 0 0 z) (V 0 y 0) (z * y).
    + side (pt 0 0 1) (V x 0 0) (V 0 y 0) (x * y).
  - exists box_tris. split; [|reflexivity]. unfold box_tris, box_faces, solid_of, box_list. cbn [map fst snd quad_triangles]. repeat first [apply Forall2_nil|apply Forall2_cons; [repeat first [apply Forall2_nil|apply Forall2_cons; [split; [reflexivity|split; reflexivity]|]]|]].
  - exact (proj1 (box_shared x y z mv F)).
Qed.
Lemma box_convex : convex_solid (box_list x y z mv).
Proof.
  destruct box_pos as (X & Y & Z). split.
  - intros f n d v I Iv. assert (Bv : vx mv <= vx v <= x + vx mv /\ vy mv <= vy v <= y + vy mv /\ vz mv <= vz v <= z + vz mv).
    { unfold box_list, solid_of in Iv. cbn [map fst concat app] in Iv. repeat (destruct Iv as [<-|Iv]; [unfold corner_of; cbn [vx vy vz]; lra|]). destruct Iv. }
    destruct I as [E|[E|[E|[E|[E|[E|[]]]]]]]; injection E as <- <- <-; vunf; lra.
  - unfold box_list. cbn [map fst snd]. repeat (apply NoDup_cons; [intros I; repeat (destruct I as [I|I]; [injection I; intros; lra|]); destruct I|]). apply NoDup_nil.
Qed.
Lemma box_points name ws q bs : validate_name name = Ok name -> box x y z mv name = Ok ws -> seen_well q (box_sides x y z mv) bs ->
  vx mv < vx q < x + vx mv -> vy mv < vy q < y + vy mv -> vz mv < vz q < z + vz mv -> solid_point_inside (map fst (all_polys ws)) q = Ok true.
Proof.
  intros Hn B Sw Hx Hy Hz. rewrite (box_solid x y z mv F name ws Hn B). rewrite box_sides_list in Sw.
  apply (convex_inside _ _ q bs (box_sound x y z mv F) ltac:(discriminate) box_shell box_convex Sw). intros f n d [E|[E|[E|[E|[E|[E|[]]]]]]]; injection E as <- <- <-; vunf; lra.
Qed.
Lemma box_others name ws q : validate_name name = Ok name -> box x y z mv name = Ok ws ->
  vx q < vx mv \/ x + vx mv < vx q \/ vy q < vy mv \/ y + vy mv < vy q \/ vz q < vz mv \/ z + vz mv < vz q -> solid_point_inside (map fst (all_polys ws)) q = Ok false.
Proof.
  intros Hn B O. destruct box_pos as (X & Y & Z). rewrite (box_solid x y z mv F name ws Hn B). apply outside_extent; [discriminate|]. intros E.
  assert (G : forall co, In co [vx; vy; vz] -> co (pt 0 0 0) <= co q <= co (pt 1 1 1)).
  { intros co Ico. destruct (E co Ico) as ((a & Ia & La) & (b & Ib & Lb)). unfold box_list, solid_of in Ia, Ib. cbn [map fst concat app] in Ia, Ib. split.
    - eapply Rle_trans; [|exact La]. clear -Ia Ico X Y Z. repeat (destruct Ia as [<-|Ia]; [unfold corner_of; destruct Ico as [<-|[<-|[<-|[]]]]; cbn [vx vy vz]; lra|]). destruct Ia.
    - eapply Rle_trans; [exact Lb|]. clear -Ib Ico X Y Z. repeat (destruct Ib as [<-|Ib]; [unfold corner_of; destruct Ico as [<-|[<-|[<-|[]]]]; cbn [vx vy vz]; lra|]). destruct Ib. }
  pose proof (G vx ltac:(simpl; auto)) as G1. pose proof (G vy ltac:(simpl; auto)) as G2. pose proof (G vz ltac:(simpl; auto)) as G3. unfold corner_of in *. cbn [vx vy vz] in *. lra.
Qed.
End Box.
Lemma tetra_convex : convex_solid tetra_list.
Proof.
  destruct oblique_unit as (U & P & I0 & B). split.
  - intros f n d v I Iv. assert (Bv : vx v <= 10 /\ vy v <= 10 /\ vz v <= 10 /\ 20 <= vx v + vy v + vz v).
    { unfold tetra_list, solid_of in Iv. cbn [map fst concat app] in Iv. unfold tA, tB, tC, tD in Iv. repeat (destruct Iv as [<-|Iv]; [cbn [vx vy vz]; lra|]). destruct Iv. }
    destruct I as [E|[E|[E|[E|[]]]]]; injection E as <- <- <-; unfold oblique; vunf; try lra. nra.
  - unfold tetra_list. cbn [map fst snd]. unfold oblique. repeat (apply NoDup_cons; [intros I; repeat (destruct I as [I|I]; [injection I; intros; lra|]); destruct I|]). apply NoDup_nil.
Qed.
Lemma tetra_sorted : convex_solid tetra_list /\ (forall f n d, In (f, n, d) tetra_list -> dot n core + d < 0) /\ exists f n d, In (f, n, d) tetra_list /\ 0 < dot n notch + d.
Proof.
  destruct oblique_unit as (U & P & I0 & B). split; [exact tetra_convex|]. split.
  - intros f n d [E|[E|[E|[E|[]]]]]; injection E as <- <- <-; unfold oblique, core; vunf; lra.
  - exists ([tA; tD; tB], TT), oblique, (20 * / r3). split; [simpl; auto|]. unfold oblique, notch. vunf. lra.
Qed.
Definition mid : vec := V (1 / 2) (1 / 2) (1 / 2).
Lemma mid_seen : seen_well mid (box_sides 1 1 1 vzero) [false; false; true; false; false; false].
Proof.
  rewrite box_sides_list. repeat first [apply Forall2_nil|apply Forall2_cons].
  - exists (- (1 / 226)). split; [unfold on_plane, ray, sight, mid, vzero; vunf; lra|left; lra].
  - exists (- (1 / 478)). split; [unfold on_plane, ray, sight, mid, vzero; vunf; lra|left; lra].
  - exists (1 / 1478). split; [lra|]. exists (3, 1, 2)%nat, (corner_of 1 1 1 vzero 1 0 1), (corner_of 1 1 1 vzero 1 1 0), (corner_of 1 1 1 vzero 1 1 1). split; [simpl; auto|]. split; [split; [reflexivity|split; reflexivity]|].
    split; [|split; [|split]; apply off_edge_sq; unfold corner_of, ray, sight, mid, vzero; vunf; lra].
    set (q := ray mid (1 / 1478)). exists (1 - vy q), (1 - vz q), (vy q + vz q - 1). unfold q, bary, corner_of, ray, sight, mid, vzero. vunf. repeat (split; [lra|]). f_equal; lra.
  - exists (1 / 478). split; [unfold on_plane, ray, sight, mid, vzero; vunf; lra|]. right. left. exists vx. split; [simpl; auto|]. left. cbn [fst]. unfold corner_of, vzero. intros v Iv. repeat (destruct Iv as [<-|Iv]; [unfold ray, mid, sight; vunf; lra|]). destruct Iv.
  - exists (- (1 / 1478)). split; [unfold on_plane, ray, sight, mid, vzero; vunf; lra|left; lra].
  - exists (1 / 226). split; [unfold on_plane, ray, sight, mid, vzero; vunf; lra|]. right. left. exists vx. split; [simpl; auto|]. left. cbn [fst]. unfold corner_of, vzero. intros v Iv. repeat (destruct Iv as [<-|Iv]; [unfold ray, mid, sight; vunf; lra|]). destruct Iv.
Qed.
