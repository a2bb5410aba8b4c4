(** Properties of rays that go from room to room through doors (C131). *)
From Coq Require Import Ascii String Reals List ZArith Bool Arith Lia Lra Permutation.
From Verif Require Import Prelude VecModel SimModel SimSpec VoxModel GeomModel GeomSpec GeomProofs1 TriModel PolyModel PolySpec SliceModel SliceSpec SolidModel SolidSpec InsideSpec InsideProofs1 RoomSpec
  WindSpec LoopSpec LoopProofs6 ShellSpec ShellProofs8 StaySpec StayProofs5 DoorSpec DoorProofs1 DoorProofs2 DoorProofs3.
Import ListNotations.
Local Open Scope R_scope.

Lemma solid_parts fs : closed_solid fs -> ok_faces fs /\ forall f n d, In (f, n, d) fs -> covers f n d /\ simple_outline (fst f).
Proof. intros (Okf & _ & T & ((Cov & _) & _)). auto. Qed.
Lemma found_same rs p bs bs' : found rs p bs -> found rs p bs' -> bs = bs'.
Proof. intros F. revert bs'. induction F as [|fs b rs bs E F IH]; intros bs' G; inversion G as [|? b' ? bs1 E' G']; subst; auto. f_equal; [congruence|auto]. Qed.

(** ** C131: rooms joined by doors *)
(** On a straight way that goes through some faces of a closed solid and keeps
    off the others, the answer of the test whether a point is inside changes
    exactly if the number of these faces is odd. *)
Theorem C131_way : forall fs p p' ps, closed_solid fs -> viewed fs p -> viewed fs p' -> passes fs p p' ps ->
  exists r, solid_point_inside (InsideSpec.solid_of fs) p = Ok r /\ solid_point_inside (InsideSpec.solid_of fs) p' = Ok (xorb r (Nat.odd (hits ps))).
Proof. intros fs p p' ps (Okf & Ne & T & Sh) ((bs & S1) & O1) ((bs' & S2) & O2). exact (way_answer fs T p p' bs bs' ps Okf Ne Sh S1 S2 O1 O2). Qed.
Print Assumptions C131_way.
(** If some faces of a closed solid are walls of the simulation and the others,
    the doors, need not be, a ray that goes n times through doors is on the other
    side exactly if n is odd. *)
Theorem C131_doors : forall polys transparent order_of mn mx s e grid sc fuel num pos vel en hs b ws doors fs, RoomSpec.room polys transparent order_of mn mx s e grid sc -> 0 <= eps sc -> 0 < dt sc -> 0 < speed sc * dt sc <= s ->
  length vel = length pos -> length en = length pos -> length hs = length (absorbers sc) -> (forall v, In v vel -> norm v = speed sc) -> simulation_loop sc fuel num pos vel en hs = Ok b ->
  walled ws polys transparent -> closed_solid fs -> Permutation fs (ws ++ doors) ->
  forall k i j n p p', cell (b_pos b) i k p -> cell (b_pos b) j k p' -> travels_well sc b ws k i j -> rides b doors k i j n -> viewed fs p -> viewed fs p' ->
  exists r, solid_point_inside (InsideSpec.solid_of fs) p = Ok r /\ solid_point_inside (InsideSpec.solid_of fs) p' = Ok (xorb r (Nat.odd n)).
Proof.
  intros polys transparent order_of mn mx s e grid sc fuel num pos vel en hs b ws doors fs Rm Ep D0 Sp Lv Le Lh Nv E Wl Cs P k i j n p p'. destruct (solid_parts fs Cs) as (Okf & Cov).
  assert (Sub : forall x, In x ws -> In x fs) by (intros x I; apply (Permutation_in x (Permutation_sym P)), in_or_app; auto).
  exact (door_answer polys transparent order_of mn mx s e grid sc Rm fuel num pos vel en hs b Ep D0 Sp Lv Le Lh Nv E ws Wl (fun f n d I => Okf f n d (Sub _ I)) (fun f n d I => Cov f n d (Sub _ I)) doors fs k i j n p p' Cs P).
Qed.
Print Assumptions C131_doors.
(** If closed solids are joined by doors, pairs of faces in the same place, and
    all other faces are walls, the number of solids a ray is found in stays odd or
    stays even. *)
Theorem C131_rooms : forall polys transparent order_of mn mx s e grid sc fuel num pos vel en hs b ws doors rs, RoomSpec.room polys transparent order_of mn mx s e grid sc -> 0 <= eps sc -> 0 < dt sc -> 0 < speed sc * dt sc <= s ->
  length vel = length pos -> length en = length pos -> length hs = length (absorbers sc) -> (forall v, In v vel -> norm v = speed sc) -> simulation_loop sc fuel num pos vel en hs = Ok b ->
  walled ws polys transparent -> Permutation (concat rs) (ws ++ both_sides doors) -> (forall x y, In (x, y) doors -> twins x y) ->
  forall k i j p p', (i <= j)%nat -> cell (b_pos b) i k p -> cell (b_pos b) j k p' -> travels_well sc b ws k i j -> doors_well b (both_sides doors) k i j ->
  (forall fs, In fs rs -> closed_solid fs /\ viewed fs p /\ viewed fs p') -> exists bs bs', found rs p bs /\ found rs p' bs' /\ Nat.odd (hits bs') = Nat.odd (hits bs).
Proof.
  intros polys transparent order_of mn mx s e grid sc fuel num pos vel en hs b ws doors rs Rm Ep D0 Sp Lv Le Lh Nv E Wl P Tw k i j p p' L C C' Wt Dw H.
  assert (Sub : forall x, In x ws -> exists fs, In fs rs /\ In x fs) by (intros x I; apply in_concat; apply (Permutation_in x (Permutation_sym P)), in_or_app; auto).
  apply (rooms_count polys transparent order_of mn mx s e grid sc Rm fuel num pos vel en hs b Ep D0 Sp Lv Le Lh Nv E ws Wl) with (doors := doors) (k := k) (i := i) (j := j); auto;
    intros f n d I; destruct (Sub _ I) as (fs & I1 & I2); destruct (H fs I1) as (Cs & _); destruct (solid_parts fs Cs) as (Okf & Cov); auto.
Qed.
Print Assumptions C131_rooms.
(** So a ray found in one room is found in one room later, if rooms do not
    overlap there: it leaves a room only into another one. *)
Theorem C131_stays : forall polys transparent order_of mn mx s e grid sc fuel num pos vel en hs b ws doors rs, RoomSpec.room polys transparent order_of mn mx s e grid sc -> 0 <= eps sc -> 0 < dt sc -> 0 < speed sc * dt sc <= s ->
  length vel = length pos -> length en = length pos -> length hs = length (absorbers sc) -> (forall v, In v vel -> norm v = speed sc) -> simulation_loop sc fuel num pos vel en hs = Ok b ->
  walled ws polys transparent -> Permutation (concat rs) (ws ++ both_sides doors) -> (forall x y, In (x, y) doors -> twins x y) ->
  forall k i j p p' bs bs', (i <= j)%nat -> cell (b_pos b) i k p -> cell (b_pos b) j k p' -> travels_well sc b ws k i j -> doors_well b (both_sides doors) k i j ->
  (forall fs, In fs rs -> closed_solid fs /\ viewed fs p /\ viewed fs p') -> found rs p bs -> hits bs = 1%nat -> found rs p' bs' -> (hits bs' <= 1)%nat -> hits bs' = 1%nat.
Proof.
  intros polys transparent order_of mn mx s e grid sc fuel num pos vel en hs b ws doors rs Rm Ep D0 Sp Lv Le Lh Nv E Wl P Tw k i j p p' bs bs' L C C' Wt Dw H F H1 F' H2.
  destruct (C131_rooms polys transparent order_of mn mx s e grid sc fuel num pos vel en hs b ws doors rs Rm Ep D0 Sp Lv Le Lh Nv E Wl P Tw k i j p p' L C C' Wt Dw H) as (b1 & b2 & A & B & O).
  rewrite (found_same rs p b1 bs A F), (found_same rs p' b2 bs' B F'), H1 in O. destruct (hits bs') as [|[|m]]; [discriminate O|reflexivity|lia].
Qed.
Print Assumptions C131_stays.
(** Faces with the same outline, begun anywhere and in either sense, are in the
    same place, however they are triangulated. *)
Theorem C131_twins : forall f n d f' n' d', covers f n d -> covers f' n' d' -> simple_outline (fst f) -> simple_outline (fst f') -> (n' = n /\ d' = d \/ n' = vopp n /\ d' = - d) ->
  rotation_of (fst f) (fst f') \/ reverse_loop (fst f) (fst f') -> twins (f, n, d) (f', n', d').
Proof.
  intros f n d f' n' d' C C' S S' H R q. cbn [fst]. split; [exact (same_place f n d f' n' d' C C' S H R q)|]. apply (same_place f' n' d' f n d C' C S'); [|apply loop_sym; auto].
  destruct H as [(-> & ->)|(-> & ->)]; [auto|right]. split; [destruct n; vunf; f_equal; ring|ring].
Qed.
Print Assumptions C131_twins.

(** Two boxes side by side with the wall between them transparent: a ray leaves
    the western one through it and is in the eastern one. *)
Example C131_example : exists grid sc b, RoomSpec.room flat_polys [2; 10]%nat (fun l => l) vzero (V 8 4 4) 1 (1 / 1000) grid sc /\ 0 <= eps sc /\ 0 < dt sc /\ 0 < speed sc * dt sc <= 1 /\ absorbers sc = [] /\ norm ahead = speed sc /\
  simulation_loop sc 5 1 [here] [ahead] [1] [] = Ok b /\ walled walls_we flat_polys [2; 10]%nat /\ Permutation (concat [west; east]) (walls_we ++ both_sides [(door_w, door_e)]) /\ twins door_w door_e /\
  cell (b_pos b) 0 0 here /\ cell (b_pos b) 1 0 there /\ travels_well sc b walls_we 0 0 1 /\ doors_well b (both_sides [(door_w, door_e)]) 0 0 1 /\
  (forall fs, In fs [west; east] -> closed_solid fs /\ viewed fs here /\ viewed fs there) /\ found [west; east] here [true; false] /\ found [west; east] there [false; true].
Proof.
  destruct flat_room as (grid & sc & b & Rm & Ep & D0 & Sp & Ab & Nv & Hs & Bp). exists grid, sc, b. do 7 (split; [assumption|]). split; [exact we_walled|]. split; [exact both_perm|]. split; [exact doors_twins|].
  assert (C0 : cell (b_pos b) 0 0 here) by (rewrite Bp; exists [here]; split; reflexivity). assert (C1 : cell (b_pos b) 1 0 there) by (rewrite Bp; exists [there]; split; reflexivity).
  split; [exact C0|]. split; [exact C1|]. split; [apply we_travels; auto|]. split; [apply we_doors; auto|].
  assert (Vw : forall fs, In fs [west; east] -> closed_solid fs /\ viewed fs here /\ viewed fs there) by (intros fs I; split; [destruct I as [<-|[<-|[]]]; [exact west_solid|exact east_solid]|split; apply we_viewed; auto]).
  split; [exact Vw|].
  assert (Dw : Permutation west ((firstn 2 west ++ skipn 3 west) ++ [door_w])) by (change west with (firstn 2 west ++ door_w :: skipn 3 west) at 1; rewrite <- app_assoc; apply Permutation_app_head; apply (Permutation_app_comm [door_w])).
  assert (De : Permutation east ((firstn 4 east ++ skipn 5 east) ++ [door_e])) by (change east with (firstn 4 east ++ door_e :: skipn 5 east) at 1; rewrite <- app_assoc; apply Permutation_app_head; apply (Permutation_app_comm [door_e])).
  assert (Sub : forall x, In x (firstn 2 west ++ skipn 3 west) \/ In x (firstn 4 east ++ skipn 5 east) -> In x walls_we) by (intros x; unfold walls_we; rewrite !in_app_iff; tauto).
  assert (G : forall fs q bs, closed_solid fs -> seen_well q fs bs -> viewed fs q -> Nat.odd (hits bs) = false -> solid_point_inside (InsideSpec.solid_of fs) q = Ok false).
  { intros fs q bs (Okf & Ne & _) S (_ & O) H. apply (parity_even fs q bs); auto. apply ShellProofs5.seen_well_seen; auto. }
  assert (X : forall fs ws d, In fs [west; east] -> Permutation fs (ws ++ [d]) -> (forall x, In x ws -> In x walls_we) -> goes_through d here there -> exists r, solid_point_inside (InsideSpec.solid_of fs) here = Ok r /\ solid_point_inside (InsideSpec.solid_of fs) there = Ok (negb r)).
  { intros fs ws d I P S T. destruct (Vw fs I) as (Cs & V1 & V2).
    destruct (C131_doors flat_polys [2; 10]%nat (fun l => l) vzero (VecModel.V 8 4 4) 1 (1 / 1000) grid sc 5 1 [here] [ahead] [1] [] b ws [d] fs) with (k := 0%nat) (i := 0%nat) (j := 1%nat) (n := 1%nat) (p := here) (p' := there) as (r & A & B); auto.
    - rewrite Ab. reflexivity.
    - intros v [<-|[]]. exact Nv.
    - intros f n0 d0 If. apply we_walled with (n := n0) (d := d0). auto.
    - intros l x q q' L Cq Cq' Ix. apply (we_travels sc b 0 0 1 Bp l); auto.
    - apply (rides_step b [d] 0 0 0 0 here there [true]); auto; [constructor|]. constructor; [exact T|constructor].
    - exists r. split; [exact A|]. rewrite B. destruct r; reflexivity. }
  destruct (X west _ _ (or_introl eq_refl) Dw (fun x I => Sub x (or_introl I)) through_w) as (r1 & A1 & B1). destruct (X east _ _ (or_intror (or_introl eq_refl)) De (fun x I => Sub x (or_intror I)) through_e) as (r2 & A2 & B2).
  pose proof (G west there _ west_solid there_west (proj2 (proj2 (Vw west (or_introl eq_refl)))) eq_refl) as W. pose proof (G east here _ east_solid here_east (proj1 (proj2 (Vw east (or_intror (or_introl eq_refl))))) eq_refl) as Ea.
  rewrite W in B1. rewrite Ea in A2. injection B1 as B1. injection A2 as A2. destruct r1; [|discriminate B1]. subst r2.
  split; repeat constructor; assumption.
Qed.
(** Their wall between is a pair of faces with reversed outlines. *)
Example C131_twins_example : covers (fst (fst door_w)) (V 1 0 0) (- (4 + 0)) /\ covers (fst (fst door_e)) (V (-1) 0 0) 4 /\ simple_outline (fst (fst (fst door_w))) /\ simple_outline (fst (fst (fst door_e))).
Proof. destruct doors_in as (I1 & I2). destruct (all_cover _ _ _ I1) as (_ & C1 & S1). destruct (all_cover _ _ _ I2) as (_ & C2 & S2). auto. Qed.
