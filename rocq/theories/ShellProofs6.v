(** A tetrahedron seen from two points. *)
From Coq Require Import Reals List ZArith Bool Arith Lia Lra Psatz Permutation.
From Verif Require Import Prelude VecModel VecProofs GeomModel GeomSpec GeomProofs1 TriModel TriSpec PolyModel PolySpec SolidModel SolidSpec CrossSpec InsideSpec InsideProofs1 InsideProofs3 RoomSpec
  WindSpec LoopSpec LoopProofs7 ShellSpec ShellProofs5.
Import ListNotations.
Local Open Scope R_scope.

Definition tetra_mesh : list (vec * vec * vec) := [(tC, tB, tD); (tD, tA, tC); (tC, tA, tB); (tB, tA, tD)].
Local Ltac pick := match goal with |- Permutation (?x :: ?l) ?r =>
  let rec go a b := lazymatch b with x :: ?t => (apply (Permutation_cons_app a t x)) | ?h :: ?t => go constr:(app a (cons h nil)) t end in
  let t := type of x in go constr:(@nil t) r end; cbn [app].
Lemma tri_covers a b c n d k : unit n -> (forall q, In q [a; b; c] -> on_plane n d q) -> cross (vsub b a) (vsub c a) = smul k n -> 0 < k -> covers ([a; b; c], TT) n d.
Proof.
  intros U P Cr K. split; [exact U|]. split; [exact P|]. split.
  - intros t [<-|[]]. exists c, a, b. split; [split; [reflexivity|split; reflexivity]|]. replace (cross (vsub a c) (vsub b c)) with (cross (vsub b a) (vsub c a)) by (vunf; f_equal; ring). rewrite Cr. replace (dot n (smul k n)) with (k * dot n n) by (vunf; ring). rewrite (U : dot n n = 1). lra.
  - exists []. cbn. repeat pick. apply Permutation_refl.
Qed.
Lemma tetra_shell : shell tetra_list tetra_mesh.
Proof.
  destruct oblique_unit as (U & P & I & B). split; [split|].
  - intros f n d [E|[E|[E|[E|[]]]]]; injection E as <- <- <-.
    + split; [|apply (z_simple (1, 0, 0)%Z [] [(10, 0, 10); (10, 10, 0); (10, 10, 10)]%Z); reflexivity]. apply (tri_covers _ _ _ _ _ 100); [unfold unit; vunf; ring| |unfold tA, tB, tC, tD; vunf; f_equal; ring|lra]. intros q [<-|[<-|[<-|[]]]]; unfold on_plane, tA, tB, tC, tD; vunf; lra.
    + split; [|apply (z_simple (0, 1, 0)%Z [] [(0, 10, 10); (10, 10, 10); (10, 10, 0)]%Z); reflexivity]. apply (tri_covers _ _ _ _ _ 100); [unfold unit; vunf; ring| |unfold tA, tB, tC, tD; vunf; f_equal; ring|lra]. intros q [<-|[<-|[<-|[]]]]; unfold on_plane, tA, tB, tC, tD; vunf; lra.
    + split; [|apply (z_simple (0, 0, 1)%Z [] [(0, 10, 10); (10, 0, 10); (10, 10, 10)]%Z); reflexivity]. apply (tri_covers _ _ _ _ _ 100); [unfold unit; vunf; ring| |unfold tA, tB, tC, tD; vunf; f_equal; ring|lra]. intros q [<-|[<-|[<-|[]]]]; unfold on_plane, tA, tB, tC, tD; vunf; lra.
    + split; [|apply (z_simple (1, 1, 1)%Z [] [(0, 10, 10); (10, 10, 0); (10, 0, 10)]%Z); reflexivity]. apply (tri_covers _ _ _ _ _ (100 * r3)); [exact U| |unfold tA, tB, tC, tD, oblique; vunf; f_equal; lra|destruct r3_sq; lra]. intros q [<-|[<-|[<-|[]]]]; unfold on_plane, tA, tB, tC, tD, oblique; vunf; lra.
  - exists [[(tC, tB, tD)]; [(tD, tA, tC)]; [(tC, tA, tB)]; [(tB, tA, tD)]]. split; [|reflexivity]. repeat first [apply Forall2_nil|apply Forall2_cons; [repeat first [apply Forall2_nil|apply Forall2_cons; [split; [reflexivity|split; reflexivity]|]]|]].
  - unfold closed_surface, closed_edges, solid_of, tetra_list, cyc_pairs. cbn [map concat app combine fst snd]. generalize tA tB tC tD. clear. intros a b c d.
    repeat pick. apply Permutation_refl.
Qed.

Definition core : vec := V 8 8 8.
Definition notch : vec := V 9 1 (19 / 2).
Local Ltac coords := unfold core, notch, tA, tB, tC, tD, ray, sight, oblique in *; vunf.
Local Ltac off := apply off_edge_sq; coords; lra.
Lemma core_seen : seen_well core tetra_list [true; false; false; false].
Proof.
  destruct oblique_unit as (U & P & I & B). repeat first [apply Forall2_nil|apply Forall2_cons].
  - exists (2 / 739). split; [lra|]. exists (2, 0, 1)%nat, tC, tB, tD. split; [simpl; auto|]. split; [split; [reflexivity|split; reflexivity]|]. split; [|split; [off|split; off]].
    set (q := ray core (2 / 739)). exists (vy q / 10 + vz q / 10 - 1), (1 - vy q / 10), (1 - vz q / 10). unfold q, bary. coords. repeat (split; [lra|]). f_equal; lra.
  - exists (2 / 239). split; [unfold on_plane; coords; lra|]. right. left. exists vx. split; [simpl; auto|]. left. cbn [fst]. intros v [<-|[<-|[<-|[]]]]; coords; lra.
  - exists (2 / 113). split; [unfold on_plane; coords; lra|]. right. left. exists vx. split; [simpl; auto|]. left. cbn [fst]. intros v [<-|[<-|[<-|[]]]]; coords; lra.
  - exists (- (4 / 1091)). split; [unfold on_plane; coords; lra|]. left. lra.
Qed.
Lemma abs_far x : 1 / 10 <= x \/ x <= - (1 / 10) -> 1 / 10000000000000 <= Rabs x.
Proof. intros H. unfold Rabs. destruct (Rcase_abs x); lra. Qed.
Lemma core_off f n d : In (f, n, d) tetra_list -> off_face core f n d.
Proof. destruct oblique_unit as (U & P & I & B). intros [E|[E|[E|[E|[]]]]]; injection E as <- <- <-; left; apply abs_far; coords; lra. Qed.
Lemma notch_seen : seen_well notch tetra_list [true; false; false; true].
Proof.
  destruct oblique_unit as (U & P & I & B). repeat first [apply Forall2_nil|apply Forall2_cons].
  - exists (1 / 739). split; [lra|]. exists (2, 0, 1)%nat, tC, tB, tD. split; [simpl; auto|]. split; [split; [reflexivity|split; reflexivity]|]. split; [|split; [off|split; off]].
    set (q := ray notch (1 / 739)). exists (vy q / 10 + vz q / 10 - 1), (1 - vy q / 10), (1 - vz q / 10). unfold q, bary. coords. repeat (split; [lra|]). f_equal; lra.
  - exists (9 / 239). split; [unfold on_plane; coords; lra|]. right. left. exists vx. split; [simpl; auto|]. left. cbn [fst]. intros v [<-|[<-|[<-|[]]]]; coords; lra.
  - exists (1 / 226). split; [unfold on_plane; coords; lra|]. right. left. exists vx. split; [simpl; auto|]. left. cbn [fst]. intros v [<-|[<-|[<-|[]]]]; coords; lra.
  - exists (1 / 2182). split; [lra|]. exists (2, 0, 1)%nat, tB, tA, tD. split; [simpl; auto|]. split; [split; [reflexivity|split; reflexivity]|]. split; [|split; [off|split; off]].
    set (q := ray notch (1 / 2182)). exists (1 - vy q / 10), (1 - vx q / 10), (1 - vz q / 10). unfold q, bary. coords. repeat (split; [lra|]). f_equal; lra.
Qed.
Lemma notch_off f n d : In (f, n, d) tetra_list -> off_face notch f n d.
Proof. destruct oblique_unit as (U & P & I & B). intros [E|[E|[E|[E|[]]]]]; injection E as <- <- <-; left; apply abs_far; coords; lra. Qed.
Lemma core_way : outside tetra_mesh (V 20 9 9) /\ way tetra_mesh (V 20 9 9) core 1 1.
Proof.
  split; [exists (V 1 0 0); intros a b c [E|[E|[E|[E|[]]]]]; injection E as <- <- <-; coords; lra|].
  replace 1%Z with (0 - sense (vsub core (V 20 9 9)) (tC, tB, tD))%Z by (unfold sense; destruct (Rlt_dec _ _) as [L|L]; [exfalso; revert L; coords; lra|reflexivity]).
  apply (way_cross tetra_mesh (V 20 9 9) (V 20 9 9) core 0 0 [] (tC, tB, tD) [(tD, tA, tC); (tC, tA, tB); (tB, tA, tD)]); [constructor|reflexivity| |].
  - split; [coords; lra|]. exists (10 / 12). split; [lra|]. set (q := seg_point (V 20 9 9) core (10 / 12)). exists (vy q / 10 + vz q / 10 - 1), (1 - vy q / 10), (1 - vz q / 10). unfold q, bary, seg_point. coords. repeat (split; [lra|]). f_equal; lra.
  - intros t [<-|[<-|[<-|[]]]] m (s & Hs & ->) (x & y & z & X & Y & Z & Su & E); revert E; unfold bary, seg_point; coords; intros E; injection E as E1 E2 E3; lra.
Qed.
Lemma notch_way : outside tetra_mesh (V 9 (-5) (19 / 2)) /\ way tetra_mesh (V 9 (-5) (19 / 2)) notch 0 0.
Proof.
  split; [exists (V 0 (-1) 0); intros a b c [E|[E|[E|[E|[]]]]]; injection E as <- <- <-; coords; lra|].
  apply (way_free _ _ (V 9 (-5) (19 / 2))); [constructor|]. intros t [<-|[<-|[<-|[<-|[]]]]] m (s & Hs & ->) (x & y & z & X & Y & Z & Su & E); revert E; unfold bary, seg_point; coords; intros E; injection E as E1 E2 E3; lra.
Qed.

(** The tetrahedron without its side at y = 10. *)
Definition cup : list (face * vec * R) := [([tB; tD; tC], TT, V 1 0 0, -10); ([tA; tB; tC], TT, V 0 0 1, -10); ([tA; tD; tB], TT, oblique, 20 * / r3)].
Definition cup_mesh : list (vec * vec * vec) := [(tC, tB, tD); (tC, tA, tB); (tB, tA, tD)].
Lemma cup_in f n d : In (f, n, d) cup -> In (f, n, d) tetra_list.
Proof. intros [E|[E|[E|[]]]]; rewrite <- E; simpl; auto. Qed.
Lemma cup_open : ok_faces cup /\ sides cup cup_mesh /\ outside cup_mesh (V 8 20 8) /\ way cup_mesh (V 8 20 8) core 0 0 /\ seen_well core cup [true; false; false] /\ (forall f n d, In (f, n, d) cup -> off_face core f n d) /\ solid_point_inside (solid_of cup) core = Ok true.
Proof.
  assert (Ok1 : ok_faces cup) by (intros f n d I; apply tetra_sound; apply cup_in; auto). split; auto. split; [|split; [|split]].
  - split; [intros f n d I; apply tetra_shell; apply cup_in; auto|]. exists [[(tC, tB, tD)]; [(tC, tA, tB)]; [(tB, tA, tD)]]. split; [|reflexivity]. repeat first [apply Forall2_nil|apply Forall2_cons; [repeat first [apply Forall2_nil|apply Forall2_cons; [split; [reflexivity|split; reflexivity]|]]|]].
  - exists (V 0 1 0). intros a b c [E|[E|[E|[]]]]; injection E as <- <- <-; coords; lra.
  - apply (way_free _ _ (V 8 20 8)); [constructor|]. intros t [<-|[<-|[<-|[]]]] m (s & Hs & ->) (x & y & z & X & Y & Z & Su & E); revert E; unfold bary, seg_point; coords; intros E; injection E as E1 E2 E3; lra.
  - assert (Sw : seen_well core cup [true; false; false]). { pose proof core_seen as H. inversion H as [|? ? ? ? H1 H2]; subst. inversion H2 as [|? ? ? ? _ H3]; subst. constructor; auto. }
    split; auto. split; [intros f n d I; apply core_off; apply cup_in; auto|]. apply (parity_odd cup core [true; false; false]); auto; [discriminate| |apply seen_well_seen; auto].
    cbn [solid_of cup map fst concat app]. intros c [<-|[<-|[<-|[]]]]; split; coords.
    + exists tA. split; [simpl; auto 10|coords; lra].
    + exists tB. split; [simpl; auto 10|coords; lra].
    + exists tB. split; [simpl; auto 10|coords; lra].
    + exists tD. split; [simpl; auto 10|coords; lra].
    + exists tD. split; [simpl; auto 10|coords; lra].
    + exists tB. split; [simpl; auto 10|coords; lra].
Qed.
