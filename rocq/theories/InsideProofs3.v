(** Proofs: lines of sight through edges shared by two faces. *)
From Coq Require Import Ascii String Reals List Bool Arith Lia Lra.
From Verif Require Import Prelude TreeModel VecModel VecProofs GeomModel GeomSpec GeomProofs1 GeomProofs2 GeomProofs3 GeomProofs4 GeomProofs5 TriModel TriSpec TriProofs TriProofs2 TriProofs3 PolyModel PolySpec PolyProofs1 PolyProofs2 SolidModel SolidSpec SolidProofs1 SolidProofs3 CrossSpec CrossProofs1 InsideSpec InsideProofs1 InsideProofs2.
Import ListNotations.
Local Open Scope R_scope.

Lemma off_edge_sq a b q : let u := vsub b a in let v := vsub q a in let c := cross u v in
  1 / 100000000 * dot u u * dot v v < dot c c -> 1 / 10000 < dot u u -> 1 / 10000 < dot v v -> 1 / 1000000000000 < dot c c -> off_edge a b q.
Proof.
  intros u v c H U V_ C. unfold off_edge, true_area, dist. fold u v c. assert (L : forall w e, 0 <= e -> e * e < dot w w -> e < norm w) by (intros w e E0 E1; unfold norm; rewrite <- (sqrt_square e) by auto; apply sqrt_lt_1_alt; split; nra).
  pose proof (L u (1 / 100) ltac:(lra) ltac:(lra)). pose proof (L v (1 / 100) ltac:(lra) ltac:(lra)). pose proof (L c (1 / 1000000) ltac:(lra) ltac:(lra)).
  assert (1 / 10000 * norm u * norm v < norm c). { apply L; [pose proof (norm_pos u); pose proof (norm_pos v); nra|]. pose proof (norm_sq u) as S1. pose proof (norm_sq v) as S2. replace (1 / 10000 * norm u * norm v * (1 / 10000 * norm u * norm v)) with (1 / 100000000 * (norm u * norm u) * (norm v * norm v)) by field. rewrite S1, S2. exact H. }
  split; [lra|split; [lra|split; lra]].
Qed.
Lemma between_sq a b q k : 0 < k < 1 -> q = vadd a (smul k (vsub b a)) -> 1 / 10000 < dot (vsub q a) (vsub q a) -> between a b q.
Proof. intros K E D. exists k. split; [exact K|]. split; [exact E|]. unfold dist, norm. apply Rlt_trans with (1 / 100); [lra|]. rewrite <- (sqrt_square (1 / 100)) by lra. apply sqrt_lt_1_alt. lra. Qed.

(** A point in the unit box seen through a vertical edge. *)
Definition lost : vec := V (261 / 1000) (761 / 1000) (387 / 1000).
Lemma unit_fits : box_fits 1 1 1 vzero.
Proof. exists 1. split; [lra|]. split; [lra|]. split; [lra|]. split; [lra|]. unfold vzero. cbn [vx vy vz]. rewrite Rabs_R0. lra. Qed.
Ltac offe := apply off_edge_sq; unfold corner_of, ray, lost, sight, vzero; vunf; lra.
Lemma lost_seen : seen lost (box_list 1 1 1 vzero) [false; false; true; true; false; false].
Proof.
  assert (Lo : forall f n d k, In (f, n, d) (box_list 1 1 1 vzero) -> dot n sight = - k -> 0 < k -> dot n lost + d < 0 -> ray_passes lost f n d) by (intros f n d k; apply (lower_passes 1 1 1 vzero)).
    repeat first [apply Forall2_nil|apply Forall2_cons].
    + apply (Lo _ _ _ 113); [simpl; auto|unfold sight; vunf; ring|lra|unfold lost, vzero; vunf; lra].
    + apply (Lo _ _ _ 239); [simpl; auto|unfold sight; vunf; ring|lra|unfold lost, vzero; vunf; lra].
    + exists (1 / 1000). split; [lra|]. split; [unfold on_plane, ray, lost, sight, vzero; vunf; lra|]. right. exists (3, 1, 2)%nat. do 3 eexists. split; [simpl; auto|]. split; [split; [reflexivity|split; reflexivity]|].
      right. left. split; [offe|]. apply (between_sq _ _ _ (1 / 2)); [lra|unfold corner_of, ray, lost, sight, vzero; vunf; f_equal; lra|unfold corner_of, ray, lost, sight, vzero; vunf; lra].
    + exists (1 / 1000). split; [lra|]. split; [unfold on_plane, ray, lost, sight, vzero; vunf; lra|]. right. exists (3, 1, 2)%nat. do 3 eexists. split; [simpl; auto|]. split; [split; [reflexivity|split; reflexivity]|].
      right. right. split; [offe|]. split; [offe|]. apply (between_sq _ _ _ (1 / 2)); [lra|unfold corner_of, ray, lost, sight, vzero; vunf; f_equal; lra|unfold corner_of, ray, lost, sight, vzero; vunf; lra].
    + apply (Lo _ _ _ 739); [simpl; auto 6|unfold sight; vunf; ring|lra|unfold lost, vzero; vunf; lra].
    + apply (upper_passes 1 1 1 vzero unit_fits lost _ _ _ vx (613 / 113000)); [simpl; auto 7|unfold on_plane, ray, lost, sight, vzero; vunf; lra|simpl; auto|unfold hi, corner_of, ray, lost, sight, vzero; vunf; lra].
Qed.
Lemma lost_off f n d : In (f, n, d) (box_list 1 1 1 vzero) -> off_face lost f n d.
Proof.
  intros [E|[E|[E|[E|[E|[E|[]]]]]]]; injection E as <- <- <-; left; unfold lost, vzero; vunf; unfold Rabs; destruct (Rcase_abs _); lra.
Qed.
Lemma lost_in_box : solid_point_inside (solid_of (box_list 1 1 1 vzero)) lost = Ok false.
Proof. apply (parity_even (box_list 1 1 1 vzero) lost [false; false; true; true; false; false]); [apply (box_sound 1 1 1 vzero unit_fits)|discriminate|exact lost_seen|reflexivity|exact lost_off]. Qed.

(** Triangles as faces. *)
Lemma tri_make a b c n k : unit n -> cross (vsub b a) (vsub c a) = smul k n -> 1 / 1000 < k ->
  exists p, make_polygon [a; b; c] None None = Ok p /\ p_pts p = [a; b; c] /\ p_tri p = [(2, 0, 1)]%nat.
Proof.
  intros U Cr K. assert (Cr2 : cross (vsub a c) (vsub b c) = smul k n) by (rewrite <- Cr; dvec a; dvec b; dvec c; vunf; f_equal; ring).
  assert (N : normal c a b = Some n) by (apply (normal_parallel _ _ _ _ k); auto; lra).
  destruct (make_ok [a; b; c] c a b n [a; b; c] [(2, 0, 1)]%nat) as (p & E & E1 & E2 & _); auto.
  - exists n, (dot n a). split; [intros ->; unfold unit, dot, vzero in U; cbn in U; lra|].
    assert (P : forall v, dot (cross (vsub b a) (vsub c a)) v = 0 -> dot n v = 0). { intros v H. rewrite Cr in H. replace (dot (smul k n) v) with (k * dot n v) in H by (vunf; ring). apply Rmult_integral in H. destruct H; [lra|auto]. }
    assert (Q : forall q, dot (cross (vsub b a) (vsub c a)) (vsub q a) = 0 -> dot n q = dot n a). { intros q H. apply P in H. replace (dot n (vsub q a)) with (dot n q - dot n a) in H by (vunf; ring). lra. }
    intros q [<-|[<-|[<-|[]]]]; auto; apply Q; dvec a; dvec b; dvec c; vunf; ring.
  - change [(2, 0, 1)]%nat with (fan (length [a; b; c])). apply convex_fan; [simpl; lia|exact U|]. intros i x y z L Ex Ey Ez. destruct i as [|i]; [|simpl in L; lia]. cbn in Ex, Ey, Ez. injection Ex as <-. injection Ey as <-. injection Ez as <-.
    split; [exists k; split; [exact Cr2|lra]|]. intros j q J. simpl in J. lia.
  - exists p. auto.
Qed.
Lemma tri_sound a b c n d k : unit n -> cross (vsub b a) (vsub c a) = smul k n -> 1 / 1000 < k -> dot n a + d = 0 -> 1 / 1000 <= Rabs (dot n sight) -> off_edge a b c -> sound_face ([a; b; c], [(2, 0, 1)]%nat) n d.
Proof.
  intros U Cr K D Sg O. assert (P : forall v, dot (cross (vsub b a) (vsub c a)) v = 0 -> dot n v = 0). { intros v H. rewrite Cr in H. replace (dot (smul k n) v) with (k * dot n v) in H by (vunf; ring). apply Rmult_integral in H. destruct H; [lra|auto]. }
  assert (Q : forall q, dot (cross (vsub b a) (vsub c a)) (vsub q a) = 0 -> on_plane n d q). { intros q H. apply P in H. replace (dot n (vsub q a)) with (dot n q - dot n a) in H by (vunf; ring). unfold on_plane. lra. }
  assert (Ar : forall x y z, cross (vsub y x) (vsub z x) = cross (vsub b a) (vsub c a) -> 2 * true_area x y z = k) by (intros x y z E; unfold true_area; rewrite E, Cr, norm_smul, (unit_norm n U), Rabs_pos_eq; lra).
  split; [exact U|]. split; [cbn [fst]; intros q [<-|[<-|[<-|[]]]]; apply Q; dvec a; dvec b; dvec c; vunf; ring|]. split.
  { cbn [fst snd]. intros t [<-|[]]. do 3 eexists. split; [split; [reflexivity|split; reflexivity]|]. rewrite Ar; [lra|dvec a; dvec b; dvec c; vunf; f_equal; ring]. }
  split; [exact Sg|]. exists a, b, c, []. split; [reflexivity|]. cbn [fst last]. rewrite (Ar c a b), (Ar a b c); auto; [|dvec a; dvec b; dvec c; vunf; f_equal; ring]. split; [lra|]. split; [lra|exact O].
Qed.

(** A tetrahedron and a point outside it. *)
Definition tA : vec := V 0 10 10.
Definition tB : vec := V 10 0 10.
Definition tC : vec := V 10 10 10.
Definition tD : vec := V 10 10 0.
Definition tetra : list (list vec) := [[tB; tD; tC]; [tA; tC; tD]; [tA; tB; tC]; [tA; tD; tB]].
Definition ghost : vec := V (393 / 1000) (6893 / 1000) (3531 / 1000).
Definition r3 : R := sqrt 3.
Lemma r3_sq : r3 * r3 = 3 /\ 1 < r3 < 2.
Proof. assert (E : r3 * r3 = 3) by (apply sqrt_sqrt; lra). assert (0 <= r3) by apply sqrt_pos. split; [auto|]. split; nra. Qed.
Definition oblique : vec := V (- / r3) (- / r3) (- / r3).
Definition TT : list tri := [(2, 0, 1)]%nat.
Definition tetra_list : list (face * vec * R) :=
  [([tB; tD; tC], TT, V 1 0 0, -10); ([tA; tC; tD], TT, V 0 1 0, -10); ([tA; tB; tC], TT, V 0 0 1, -10); ([tA; tD; tB], TT, oblique, 20 * / r3)].
Lemma oblique_unit : unit oblique /\ 0 < / r3 /\ r3 * / r3 = 1 /\ 1 / 2 < / r3 < 1.
Proof.
  destruct r3_sq as (E & B). assert (I : r3 * / r3 = 1) by (apply Rinv_r; lra). assert (P : 0 < / r3) by (apply Rinv_0_lt_compat; lra). split; [|split; [auto|split; [auto|nra]]].
  unfold unit, oblique. vunf. set (i := / r3) in *. assert (Q : 3 * (i * i) = 1) by (rewrite <- E; replace (r3 * r3 * (i * i)) with ((r3 * i) * (r3 * i)) by ring; rewrite I; ring). lra.
Qed.
Ltac toff := apply off_edge_sq; unfold tA, tB, tC, tD, ray, ghost, sight; vunf; lra.
Lemma tetra_sound : ok_faces tetra_list.
Proof.
  destruct oblique_unit as (U & P & I & B). intros f n d [E|[E|[E|[E|[]]]]]; injection E as <- <- <-.
  - apply (tri_sound _ _ _ _ _ 100); [unfold unit; vunf; ring|unfold tA, tB, tC, tD; vunf; f_equal; ring|lra|unfold tA, tB, tC, tD; vunf; lra|unfold sight; vunf; unfold Rabs; destruct (Rcase_abs _); lra|toff].
  - apply (tri_sound _ _ _ _ _ 100); [unfold unit; vunf; ring|unfold tA, tB, tC, tD; vunf; f_equal; ring|lra|unfold tA, tB, tC, tD; vunf; lra|unfold sight; vunf; unfold Rabs; destruct (Rcase_abs _); lra|toff].
  - apply (tri_sound _ _ _ _ _ 100); [unfold unit; vunf; ring|unfold tA, tB, tC, tD; vunf; f_equal; ring|lra|unfold tA, tB, tC, tD; vunf; lra|unfold sight; vunf; unfold Rabs; destruct (Rcase_abs _); lra|toff].
  - apply (tri_sound _ _ _ _ _ (100 * r3)); [exact U|unfold tA, tB, tC, tD, oblique; vunf; f_equal; lra|destruct r3_sq; lra|unfold tA, tB, tC, tD, oblique; vunf; lra|unfold oblique, sight; vunf; unfold Rabs; destruct (Rcase_abs _); lra|toff].
Qed.
Lemma ghost_extent : in_extent (concat (map fst (solid_of tetra_list))) ghost.
Proof.
  cbn [solid_of tetra_list map fst concat app]. intros c [<-|[<-|[<-|[]]]]; split; unfold ghost.
    + exists tA. split; [simpl; auto 10|unfold tA; cbn [vx]; lra].
    + exists tB. split; [simpl; auto 10|unfold tB; cbn [vx]; lra].
    + exists tB. split; [simpl; auto 10|unfold tB; cbn [vy]; lra].
    + exists tD. split; [simpl; auto 10|unfold tD; cbn [vy]; lra].
    + exists tD. split; [simpl; auto 10|unfold tD; cbn [vz]; lra].
    + exists tB. split; [simpl; auto 10|unfold tB; cbn [vz]; lra].
Qed.
Lemma ghost_seen : seen ghost tetra_list [true; true; false; true].
Proof.
  destruct oblique_unit as (U & P & I & B). repeat first [apply Forall2_nil|apply Forall2_cons].
    + exists (13 / 1000). split; [lra|]. split; [unfold on_plane, ray, ghost, sight; vunf; lra|]. right. exists (2, 0, 1)%nat, tC, tB, tD. split; [simpl; auto|]. split; [split; [reflexivity|split; reflexivity]|].
      right. right. split; [toff|]. split; [toff|]. apply (between_sq _ _ _ (1 / 2)); [lra|unfold tC, tD, ray, ghost, sight; vunf; f_equal; lra|unfold tC, tD, ray, ghost, sight; vunf; lra].
    + exists (13 / 1000). split; [lra|]. split; [unfold on_plane, ray, ghost, sight; vunf; lra|]. right. exists (2, 0, 1)%nat, tD, tA, tC. split; [simpl; auto|]. split; [split; [reflexivity|split; reflexivity]|].
      right. right. split; [toff|]. split; [toff|]. apply (between_sq _ _ _ (1 / 2)); [lra|unfold tC, tD, ray, ghost, sight; vunf; f_equal; lra|unfold tC, tD, ray, ghost, sight; vunf; lra].
    + exists (6469 / 113000). split; [unfold on_plane, ray, ghost, sight; vunf; lra|]. right. left. exists vx. split; [simpl; auto|]. left. cbn [fst]. intros v [<-|[<-|[<-|[]]]]; unfold tA, tB, tC, ray, ghost, sight; vunf; lra.
    + exists (9183 / 1091000). split; [lra|]. split; [unfold on_plane, ray, ghost, sight, oblique; vunf; lra|]. left. exists (2, 0, 1)%nat, tB, tA, tD. split; [simpl; auto|]. split; [split; [reflexivity|split; reflexivity]|]. split.
      * set (q := ray ghost (9183 / 1091000)). exists (1 - vy q / 10), (1 - vx q / 10), (1 - vz q / 10). unfold q, ray, ghost, sight, bary, tA, tB, tD. vunf. repeat (split; [lra|]). f_equal; lra.
      * split; [toff|]. split; toff.
Qed.
Lemma ghost_in_tetra : solid_point_inside (solid_of tetra_list) ghost = Ok true.
Proof. apply (parity_odd tetra_list ghost [true; true; false; true]); [apply tetra_sound|discriminate|exact ghost_extent|exact ghost_seen|reflexivity]. Qed.
Lemma tetra_made : exists ps, mapM (fun pts => make_polygon pts None None) tetra = Ok ps /\ map (fun p => (p_pts p, p_tri p)) ps = solid_of tetra_list.
Proof.
  destruct oblique_unit as (U & P & I & B).
  destruct (tri_make tB tD tC (V 1 0 0) 100) as (q1 & E1 & P1 & T1); [unfold unit; vunf; ring|unfold tB, tC, tD; vunf; f_equal; ring|lra|].
  destruct (tri_make tA tC tD (V 0 1 0) 100) as (q2 & E2 & P2 & T2); [unfold unit; vunf; ring|unfold tA, tC, tD; vunf; f_equal; ring|lra|].
  destruct (tri_make tA tB tC (V 0 0 1) 100) as (q3 & E3 & P3 & T3); [unfold unit; vunf; ring|unfold tA, tB, tC; vunf; f_equal; ring|lra|].
  destruct (tri_make tA tD tB oblique (100 * r3)) as (q4 & E4 & P4 & T4); [exact U|unfold tA, tB, tD, oblique; vunf; f_equal; lra|destruct r3_sq; lra|].
  exists [q1; q2; q3; q4]. unfold tetra. cbn [mapM]. rewrite E1. cbn [rbind]. rewrite E2. cbn [rbind]. rewrite E3. cbn [rbind]. rewrite E4. cbn [rbind]. split; [reflexivity|]. cbn [map]. rewrite P1, P2, P3, P4, T1, T2, T3, T4. reflexivity.
Qed.
Lemma box_inside_made x y z mv name ws p t fc a b c : box_fits x y z mv -> validate_name name = Ok name -> box x y z mv name = Ok ws ->
  (vx mv < vx p < x + vx mv /\ vy mv < vy p < y + vy mv /\ vz mv < vz p < z + vz mv) ->
  let pt := corner_of x y z mv in
  In fc [[pt 1 0 0; pt 1 1 0; pt 1 1 1; pt 1 0 1]; [pt 0 1 0; pt 0 1 1; pt 1 1 1; pt 1 1 0]; [pt 0 0 1; pt 1 0 1; pt 1 1 1; pt 0 1 1]] ->
  In (a, b, c) (quad_triangles fc) -> strictly_inside a b c (ray p t) -> off_edges a b c (ray p t) ->
  (forall s co, In co [vx; vy; vz] -> co (ray p s) = co (pt 1 1 1) -> s <> t -> exists co', In co' [vx; vy; vz] /\ co' (pt 1 1 1) + 1 / 100 < co' (ray p s)) ->
  solid_point_inside (map fst (all_polys ws)) p = Ok true.
Proof. intros F Hn B I pt If It Si Oe Cl. rewrite (box_solid x y z mv F name ws Hn B). apply (box_inside x y z mv F p t fc a b c); auto. Qed.
Lemma interior_missed : exists x y z mv name ws p, box x y z mv name = Ok ws /\
  (vx mv + 1 / 10 < vx p < x + vx mv - 1 / 10 /\ vy mv + 1 / 10 < vy p < y + vy mv - 1 / 10 /\ vz mv + 1 / 10 < vz p < z + vz mv - 1 / 10) /\
  solid_point_inside (map fst (all_polys ws)) p = Ok false.
Proof.
  destruct (box_ok 1 1 1 vzero unit_fits (str_of "b") eq_refl) as (ws & E & _). exists 1, 1, 1, vzero, (str_of "b"), ws, lost. split; [exact E|]. split; [unfold vzero, lost; cbn [vx vy vz]; lra|].
  rewrite (box_solid 1 1 1 vzero unit_fits (str_of "b") ws eq_refl E). exact lost_in_box.
Qed.
Lemma exterior_accepted : exists pts ps p n k, mapM (fun l => make_polygon l None None) pts = Ok ps /\ (forall l v, In l pts -> In v l -> k <= dot n v) /\ dot n p < k - 9 /\
  solid_point_inside (map (fun q => (p_pts q, p_tri q)) ps) p = Ok true.
Proof.
  destruct tetra_made as (ps & E & S). exists tetra, ps, ghost, (V 1 1 1), 20. split; [exact E|]. split.
  { intros l v Il Iv. unfold tetra in Il. repeat (destruct Il as [<-|Il]; [repeat (destruct Iv as [<-|Iv]; [unfold tA, tB, tC, tD; vunf; lra|]); destruct Iv|]). destruct Il. }
  split; [unfold ghost; vunf; lra|]. rewrite S. exact ghost_in_tetra.
Qed.
