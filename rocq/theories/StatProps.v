(** Theorem C113: mesh statistics. *)
From Coq Require Import ZArith Reals List Bool Arith Lia Lra.
From Verif Require Import Prelude VecModel VecProofs GeomModel GeomSpec GeomProofs1 TriModel MshModel MshSpec ContModel ContSpec StatModel StatSpec StatProofs.
Import ListNotations.
Local Open Scope R_scope.

(** The first element decides what the mesh is.  The numbers are those of the
    areas and edges of all faces, or of the volumes of all elements. *)
Theorem C113_numbers vs els s : mesh_stats vs els = Ok s -> exists e0 r, els = e0 :: r /\
  ((length e0 = 3%nat /\ exists areas edges sa se bins hist, Forall2 (has_area vs) els areas /\ Forall2 (has_edges vs) els edges /\
      summarises areas (s_max sa) (s_avg sa) (s_min sa) /\ summarises (concat edges) (s_max se) (s_avg se) (s_min se) /\
      histogram areas (s_min sa) (s_max sa) bins hist /\ s = Surface (length vs) (length els) sa se bins hist) \/
   (length e0 = 4%nat /\ exists vols sv bins hist, Forall2 (has_volume vs) els vols /\
      summarises vols (s_max sv) (s_avg sv) (s_min sv) /\ histogram vols (s_min sv) (s_max sv) bins hist /\ s = Volume (length vs) (length els) sv bins hist) \/
   (length e0 <> 3%nat /\ length e0 <> 4%nat /\ s = Unknown (length e0))).
Proof. exact (stats_cases vs els s). Qed.
Theorem C113_average l hi avg lo : summarises l hi avg lo -> lo <= avg <= hi.
Proof. exact (average_between l hi avg lo). Qed.
(** It succeeds if all corners exist, also with more corners than the first
    element has. *)
Theorem C113_surface vs e0 r : length e0 = 3%nat -> (exists areas, Forall2 (has_area vs) (e0 :: r) areas) -> exists s, mesh_stats vs (e0 :: r) = Ok s.
Proof. exact (stats_surface vs e0 r). Qed.
Theorem C113_volume vs e0 r : length e0 = 4%nat -> (exists vols, Forall2 (has_volume vs) (e0 :: r) vols) -> exists s, mesh_stats vs (e0 :: r) = Ok s.
Proof. exact (stats_volume vs e0 r). Qed.
(** The only exception is IndexError; an empty mesh raises it. *)
Theorem C113_fails vs els : (forall s, mesh_stats vs els <> Ok s) -> mesh_stats vs els = Err IndexError.
Proof. exact (stats_fail vs els). Qed.
Theorem C113_empty vs : mesh_stats vs [] = Err IndexError.
Proof. reflexivity. Qed.
(** The least area of a face is that of half a square of half the step. *)
Theorem C113_least_area delta : minimum_triangle_area delta = true_area (V 0 0 0) (V (delta / 2) 0 0) (V 0 (delta / 2) 0).
Proof.
  unfold minimum_triangle_area, true_area, norm. replace (dot _ _) with (delta ^ 2 / 4 * (delta ^ 2 / 4)) by (unfold cross, vsub, dot; cbn [vx vy vz]; field).
  rewrite sqrt_square by nra. field.
Qed.
Print Assumptions C113_numbers.
Print Assumptions C113_average.
Print Assumptions C113_surface.
Print Assumptions C113_volume.
Print Assumptions C113_fails.
Print Assumptions C113_empty.
Print Assumptions C113_least_area.

(** One triangle with sides 3, 4, 5, and the same with a tetrahedron among the
    faces, whose first three corners are used. *)
Definition three_four : list vec := [V 0 0 0; V 3 0 0; V 0 4 0; V 0 0 1].
Definition area_345 : R := triangle_area (V 0 0 0) (V 3 0 0) (V 0 4 0).
Lemma one_area r : has_area three_four (0 :: 1 :: 2 :: r)%nat area_345.
Proof. exists 0%nat, 1%nat, 2%nat, r, (V 0 0 0), (V 3 0 0), (V 0 4 0). repeat split. Qed.
Lemma sides r l : has_edges three_four (0 :: 1 :: 2 :: r)%nat l -> l = [3; 5; 4].
Proof.
  intros (i & j & k & r' & p & q & s & E & E1 & E2 & E3 & ->). injection E as <- <- <- <-. injection E1 as <-. injection E2 as <-. injection E3 as <-.
  assert (Sq : forall v k, 0 <= k -> dot v v = k * k -> norm v = k) by (intros v k K E; unfold norm; rewrite E; apply sqrt_square; auto).
  rewrite (Sq _ 3), (Sq _ 5), (Sq _ 4); auto; try lra; unfold vsub, dot; cbn [vx vy vz]; ring.
Qed.
Example C113_example r : exists sa se bins hist, mesh_stats three_four [[0; 1; 2]; 0 :: 1 :: 2 :: r]%nat = Ok (Surface 4 2 sa se bins hist) /\
  6 <= s_max sa <= 6 + 1 / 1000000 /\ s_min sa = s_max sa /\ s_avg sa = s_max sa /\ s_avg se = 4 /\ nth_error bins 0 = Some (s_min sa - 1 / 2) /\ nth_error hist 5 = Some 2%nat.
Proof.
  destruct (C113_surface three_four [0; 1; 2]%nat [0 :: 1 :: 2 :: r]%nat) as (s & H); [reflexivity|exists [area_345; area_345]; constructor; [apply one_area|constructor; [apply one_area|constructor]]|].
  destruct (C113_numbers _ _ _ H) as (e0 & r0 & E & K). injection E as <- <-. destruct K as [(_ & areas & edges & sa & se & bins & hist & Fa & Fe & Sa & Se & Hi & ->)|[(L & _)|(L & _)]]; [|discriminate|exfalso; apply L; reflexivity].
  exists sa, se, bins, hist. split; [exact H|]. assert (Ea : areas = [area_345; area_345]).
  { assert (U : forall r a, has_area three_four (0 :: 1 :: 2 :: r)%nat a -> a = area_345). { intros r1 a (i & j & k & r2 & p & q & t & E & E1 & E2 & E3 & ->). injection E as <- <- <- _. injection E1 as <-. injection E2 as <-. injection E3 as <-. reflexivity. }
    inversion Fa as [|x1 a1 l1 m1 H1 F1]; subst. inversion F1 as [|x2 a2 l2 m2 H2 F2]; subst. inversion F2; subst. rewrite (U _ _ H1), (U _ _ H2). reflexivity. }
  assert (Ee : edges = [[3; 5; 4]; [3; 5; 4]]). { inversion Fe as [|x1 a1 l1 m1 H1 F1]; subst. inversion F1 as [|x2 a2 l2 m2 H2 F2]; subst. inversion F2; subst. rewrite (sides _ _ H1), (sides _ _ H2). reflexivity. }
  subst areas edges. destruct Sa as (I1 & I2 & _ & A). destruct Se as (_ & _ & _ & B). assert (M1 : s_max sa = area_345) by (destruct I1 as [<-|[<-|[]]]; auto). assert (M2 : s_min sa = area_345) by (destruct I2 as [<-|[<-|[]]]; auto).
  assert (T : true_area (V 0 0 0) (V 3 0 0) (V 0 4 0) = 6). { unfold true_area, norm. replace (dot _ _) with (12 * 12) by (unfold cross, vsub, dot; cbn [vx vy vz]; ring). rewrite sqrt_square; lra. }
  split; [rewrite M1, <- T; apply triangle_area_bounds|]. split; [congruence|]. cbn [sum_of length concat app] in A, B. simpl INR in A, B. split; [lra|]. split; [lra|]. destruct Hi as (b & w & W & C & Lb & Nb & Lh & Nh & _). destruct C as [(C & _)|(_ & -> & ->)]; [lra|]. split.
  - destruct bins as [|x bins]; [discriminate|]. cbn [nth_error]. f_equal. rewrite (Nb 0%nat x eq_refl). cbn [INR]. lra.
  - destruct (nth_error hist 5) as [n|] eqn:E5; [|apply nth_error_None in E5; lia]. f_equal. pose proof (Nh 5%nat n E5) as Hm. assert (In5 : in_bin (s_min sa - 1 / 2) (1 / 10) 5 area_345) by (rewrite M2; split; [simpl INR; lra|left; simpl INR; lra]).
    inversion Hm as [|x l m P1 Hm1|x l m P1 Hm1]; subst; [|contradiction]. inversion Hm1 as [|x l m' P2 Hm2|x l m' P2 Hm2]; subst; [|contradiction]. inversion Hm2. reflexivity.
Qed.
