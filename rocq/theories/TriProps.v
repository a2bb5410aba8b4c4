(** Properties C51 and C52: ear clipping. *)
From Coq Require Import Reals List Bool Arith Lia Lra ZArith Permutation.
From Verif Require Import Prelude VecModel VecProofs GeomModel GeomSpec GeomProofs1 GeomProofs2 GeomProofs3 GeomProofs4 TriModel TriSpec TriProofs TriProofs2 TriProofs3.
Import ListNotations.
Local Open Scope R_scope.

(** Demonstration data: a dart with a reflex corner, listed clockwise. *)
Definition dart : list (Z * Z) := [(0, 0); (2, 1); (4, 0); (2, 5)]%Z.
Example dart_ok : triangulate_pts (map at_grid (rev dart)) ez1 = Ok (map at_grid dart, [(3, 0, 1); (3, 1, 2)]%nat).
Proof. exact (grid_triangulate (rev dart) dart _ eq_refl). Qed.

(** C51: structure of the result. *)
Theorem C51_result pts vn pts' ts : (3 <= length pts)%nat -> triangulate_pts pts vn = Ok (pts', ts) ->
  (pts' = pts \/ pts' = rev pts) /\ length ts = (length pts - 2)%nat /\
  (forall a b c, In (a, b, c) ts -> a <> b /\ b <> c /\ a <> c /\ (a < length pts)%nat /\ (b < length pts)%nat /\ (c < length pts)%nat) /\
  (forall v, (v < length pts)%nat -> exists a b c, In (a, b, c) ts /\ (v = a \/ v = b \/ v = c)) /\
  clipped (free_ear (ear_convex vn) ear_inside pts') (seq 0 (length pts)) ts.
Proof. exact (tri_structure pts vn pts' ts). Qed.
(** Every run ends with triangles or with TriangulationError. *)
Theorem C51_outcome pts vn : Rabs (norm vn - 1) < 1 / 10000000000000 ->
  (exists r, triangulate_pts pts vn = Ok r) \/ triangulate_pts pts vn = Err TriangulationError.
Proof. exact (fun U => proj2 (ear_not_fuel vn) U pts). Qed.
Theorem C51_bad_normal pts vn : (3 <= length pts)%nat -> 1 / 10000000000000 <= Rabs (norm vn - 1) ->
  (norm vn <= 1 / 100000000 -> triangulate_pts pts vn = Err TriangulationError) /\
  (1 / 100000000 < norm vn -> triangulate_pts pts vn = Err AssertionError).
Proof. exact (fun L N => tri_bad_normal pts vn N L). Qed.
(** Whatever the two predicates answer, the loop terminates. *)
Theorem C51_terminates {P} (convex : P -> P -> P -> result bool) (inside : P -> P -> P -> P -> result bool) z pts :
  (forall a b c, convex a b c <> Err OutOfFuel) -> (forall q a b c, inside q a b c <> Err OutOfFuel) -> triangulate convex inside z pts <> Err OutOfFuel.
Proof. exact (triangulate_fuel convex inside z pts). Qed.
(** Convex polygons are cut into the fan around the last vertex. *)
Theorem C51_convex pts vn : (3 <= length pts)%nat -> unit vn ->
  (forall i a b c, (i + 2 < length pts)%nat -> nth_error pts (length pts - 1) = Some a -> nth_error pts i = Some b -> nth_error pts (i + 1) = Some c ->
    (exists k, cross (vsub b a) (vsub c a) = smul k vn /\ 1 / 10000000000000 <= k) /\
    forall j q, (i + 1 < j < length pts - 1)%nat -> nth_error pts j = Some q ->
      in_plane_of a b c q /\ off_edges a b c q /\ far_from a q /\ far_from b q /\ far_from c q /\ ~ strictly_inside a b c q) ->
  triangulate_pts pts vn = Ok (pts, fan (length pts)).
Proof. exact (convex_fan pts vn). Qed.
(** Completeness fails: the counter of failed corners is never reset, so a
    simple polygon that can be ear-clipped is rejected in both attempts. *)
Theorem C51_simple_refuted : exists pts, simple_grid pts /\ 0 < dot (vector_area2 (map at_grid pts)) ez1 /\
  (exists ts, clipped (free_ear (ear_convex ez1) ear_inside (map at_grid pts)) (seq 0 (length pts)) ts) /\
  triangulate_pts (map at_grid pts) ez1 = Err TriangulationError.
Proof. exact (ex_intro _ heptagon (conj heptagon_simple (conj (eq_ind_r (fun x => 0 < x) (IZR_lt 0 19 eq_refl) heptagon_area) (conj (ex_intro _ _ heptagon_clipped) heptagon_rejected)))). Qed.
Example C51_ex : (3 <= length (map at_grid (rev dart)))%nat /\ exists r, triangulate_pts (map at_grid (rev dart)) ez1 = Ok r.
Proof. exact (conj (le_S _ _ (le_n 3)) (ex_intro _ _ dart_ok)). Qed.
Example C51_outcome_ex : Rabs (norm ez1 - 1) < 1 / 10000000000000 /\ 1 / 10000000000000 <= Rabs (norm vzero - 1).
Proof. rewrite (unit_norm _ ez1_unit), (proj2 (norm_zero vzero) eq_refl). split; [rewrite Rminus_diag_eq, Rabs_R0 by auto; lra|]. rewrite Rabs_left; lra. Qed.
Example C51_square : let sq := map at_grid [(0, 0); (3, 0); (3, 3); (0, 3)]%Z in
  forall i a b c, (i + 2 < length sq)%nat -> nth_error sq (length sq - 1) = Some a -> nth_error sq i = Some b -> nth_error sq (i + 1) = Some c ->
    (exists k, cross (vsub b a) (vsub c a) = smul k ez1 /\ 1 / 10000000000000 <= k) /\
    forall j q, (i + 1 < j < length sq - 1)%nat -> nth_error sq j = Some q ->
      in_plane_of a b c q /\ off_edges a b c q /\ far_from a q /\ far_from b q /\ far_from c q /\ ~ strictly_inside a b c q.
Proof.
  cbn [map length]. intros i a b c L Ea Eb Ec. destruct i as [|[|i]]; [| |lia]; cbn in Ea, Eb, Ec; inversion Ea; inversion Eb; inversion Ec; subst.
  - split; [exists 9; split; [unfold ez1, at_grid; cbn [fst snd]; vunf; f_equal; ring|lra]|]. intros j q J Eq. replace j with 2%nat in Eq by lia. cbn in Eq. inversion Eq; subst.
    change (V 0 3 0) with (at_grid (0, 3)%Z). change (V 0 0 0) with (at_grid (0, 0)%Z). change (V 3 0 0) with (at_grid (3, 0)%Z). change (V 3 3 0) with (at_grid (3, 3)%Z).
    split; [unfold in_plane_of, at_grid; vunf; cbn [fst snd]; ring|]. split; [split; [|split]; apply grid_off; try reflexivity; unfold orient; simpl; lia|].
    split; [apply grid_far; try reflexivity; congruence|]. split; [apply grid_far; try reflexivity; congruence|]. split; [apply grid_far; try reflexivity; congruence|].
    intros (x & y & z & X & Y & Z_ & S & E). unfold bary, at_grid in E. cbn [fst snd] in E. vunf. injection E as E1 E2 E3. lra.
  - split; [exists 9; split; [unfold ez1, at_grid; cbn [fst snd]; vunf; f_equal; ring|lra]|]. intros j q J. lia.
Qed.
Print Assumptions C51_result.
Print Assumptions C51_outcome.
Print Assumptions C51_bad_normal.
Print Assumptions C51_terminates.
Print Assumptions C51_convex.
Print Assumptions C51_simple_refuted.

(** C52: the triangles have the polygon as boundary.  No directed edge occurs
    twice; the edges are the polygon's edges and n - 3 diagonals, each in both
    directions. *)
Theorem C52_boundary pts vn pts' ts : (3 <= length pts)%nat -> triangulate_pts pts vn = Ok (pts', ts) -> NoDup (tri_edges ts) /\
  exists d, length d = (length pts - 3)%nat /\ Permutation (tri_edges ts) (cyc_pairs (seq 0 (length pts)) ++ both_ways d).
Proof. exact (tri_boundary pts vn pts' ts). Qed.
Theorem C52_vector_area pts vn pts' ts : (3 <= length pts)%nat -> triangulate_pts pts vn = Ok (pts', ts) ->
  fold_right vadd vzero (map (tri_vec pts') ts) = vector_area2 pts'.
Proof. exact (fun L H => tri_vector_area pts vn pts' ts H L). Qed.
Theorem C52_positive pts vn pts' ts : (3 <= length pts)%nat -> triangulate_pts pts vn = Ok (pts', ts) -> forall t, In t ts -> 0 < dot (tri_vec pts' t) vn.
Proof. exact (fun L H t I => proj1 (tri_positive pts vn pts' ts H L t I)). Qed.
(** The returned order of the points is the one that turns around vn. *)
Theorem C52_orientation pts vn pts' ts : (3 <= length pts)%nat -> triangulate_pts pts vn = Ok (pts', ts) ->
  0 < dot (vector_area2 pts') vn /\ (0 < dot (vector_area2 pts) vn -> pts' = pts) /\ (dot (vector_area2 pts) vn <= 0 -> pts' = rev pts /\ dot (vector_area2 pts) vn < 0).
Proof. exact (fun L H => conj (tri_orientation pts vn pts' ts H L) (tri_order pts vn pts' ts H L)). Qed.
Theorem C52_area pts vn pts' ts : (3 <= length pts)%nat -> triangulate_pts pts vn = Ok (pts', ts) ->
  polygon_area pts vn = Rsum (map (fun t => dot (tri_vec pts' t) vn / 2) ts) /\ polygon_area pts' vn = polygon_area pts vn.
Proof. exact (fun L H => tri_area_sum pts vn pts' ts H L). Qed.
(** For a plane polygon with unit normal this is the sum of the triangle areas. *)
Theorem C52_area_plane pts vn pts' ts c : (3 <= length pts)%nat -> triangulate_pts pts vn = Ok (pts', ts) -> unit vn -> (forall p, In p pts -> dot vn p = c) ->
  polygon_area pts vn = Rsum (map (fun t => norm (tri_vec pts' t) / 2) ts).
Proof. exact (fun L H U P => tri_area_true pts vn pts' ts c H L U P). Qed.
Example C52_ex : unit ez1 /\ (forall p, In p (map at_grid (rev dart)) -> dot ez1 p = 0) /\ dot (vector_area2 (map at_grid (rev dart))) ez1 = -16.
Proof.
  split; [apply ez1_unit|]. split; [intros p I; apply in_map_iff in I; destruct I as (q & <- & _); unfold at_grid, ez1; vunf; ring|].
  unfold vector_area2, dart, at_grid, ez1, cyc_pairs. cbn [rev app map combine fold_right fst snd]. vunf. ring.
Qed.
Print Assumptions C52_boundary.
Print Assumptions C52_vector_area.
Print Assumptions C52_positive.
Print Assumptions C52_orientation.
Print Assumptions C52_area.
Print Assumptions C52_area_plane.
