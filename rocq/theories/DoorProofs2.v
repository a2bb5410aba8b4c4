(** Runs through doors. *)
From Coq Require Import Ascii String Reals List ZArith Bool Arith Lia Lra Permutation Classical.
From Verif Require Import Prelude TreeModel VecModel VecProofs SimModel SimSpec VoxModel GeomModel GeomSpec GeomProofs1 TriModel PolyModel PolySpec SliceModel SliceSpec SolidModel SolidSpec CrossSpec InsideSpec RoomSpec RoomProofs1 RoomProofs3 BoxProofs6
  WindSpec LoopSpec LoopProofs5 LoopProofs6 ShellSpec ShellProofs4 ShellProofs5 ShellProofs9 StaySpec StayProofs2 DoorSpec DoorProofs1.
Import ListNotations.
Local Open Scope R_scope.

Lemma cell_same (m : list (list vec)) i k p q : cell m i k p -> cell m i k q -> p = q.
Proof. intros (r & A & B) (r' & A' & B'). congruence. Qed.
(** Going through and keeping off exclude each other. *)
Lemma through_on x p p' : goes_through x p p' -> ~ keeps_off x p p'.
Proof. destruct x as ((f, n), d). intros (_ & s & t & a & b & c & S & It & Ve & Si) K. apply (K (seg_point p p' s)); [exists s; split; auto; lra|]. exists t, a, b, c. split; auto. split; auto. apply (LoopProofs5.strictly_in a b c); auto. Qed.
Lemma passes_app l1 l2 p p' b1 b2 : passes l1 p p' b1 -> passes l2 p p' b2 -> passes (l1 ++ l2) p p' (b1 ++ b2).
Proof. apply Forall2_app. Qed.
Lemma passes_off l p p' : (forall x, In x l -> keeps_off x p p') -> exists bs, passes l p p' bs /\ hits bs = 0%nat.
Proof. induction l as [|x l IH]; intros H; [exists []; split; [constructor|auto]|]. destruct IH as (bs & A & B); [intros; apply H; right; auto|]. exists (false :: bs). split; [constructor; auto; apply H; left; auto|exact B]. Qed.
Lemma passes_some l p p' : (forall x, In x l -> goes_through x p p' \/ keeps_off x p p') -> exists bs, passes l p p' bs.
Proof. induction l as [|x l IH]; intros H; [exists []; constructor|]. destruct IH as (bs & A); [intros; apply H; right; auto|]. destruct (H x (or_introl eq_refl)); [exists (true :: bs)|exists (false :: bs)]; constructor; auto. Qed.
Lemma passes_perm l l' p p' bs : Permutation l l' -> passes l p p' bs -> exists bs', passes l' p p' bs' /\ hits bs' = hits bs.
Proof.
  intros P. revert bs. induction P as [|x l l' P IH|x y l|l l' l'' P1 IH1 P2 IH2]; intros bs H.
  - exists bs. auto.
  - inversion H as [|? b ? bs0 Hx Ht]; subst. destruct (IH bs0 Ht) as (bs' & A & B). exists (b :: bs'). split; [constructor; auto|]. unfold hits in *. destruct b; cbn [filter length]; lia.
  - inversion H as [|? b ? bs0 Hx Ht]; subst. inversion Ht as [|? c ? bs1 Hy Hz]; subst. exists (c :: b :: bs1). split; [repeat constructor; auto|]. unfold hits. destruct b, c; reflexivity.
  - destruct (IH1 bs H) as (b1 & A1 & H1). destruct (IH2 b1 A1) as (b2 & A2 & H2). exists b2. split; auto. lia.
Qed.
(** Doors are gone through on both sides. *)
Lemma doors_even doors p p' bs : (forall x y, In (x, y) doors -> twins x y) -> passes (both_sides doors) p p' bs -> Nat.odd (hits bs) = false.
Proof.
  revert bs. induction doors as [|(x, y) ds IH]; intros bs Tw H; unfold both_sides in *; cbn [flat_map app fst snd] in H.
  - inversion H. reflexivity.
  - inversion H as [|? b ? bs0 Hx Ht]; subst. inversion Ht as [|? c ? bs1 Hy Hz]; subst. assert (E : Nat.odd (hits bs1) = false) by (apply IH; auto; intros; apply Tw; right; auto).
    assert (b = c). { pose proof (Tw x y (or_introl eq_refl)) as W. destruct b, c; auto; exfalso.
      - apply (through_on x p p' Hx). intros m Sg Im. apply (Hy m Sg). apply W; auto.
      - apply (through_on y p p' Hy). intros m Sg Im. apply (Hx m Sg). apply W; auto. }
    subst c. unfold hits in *. destruct b; cbn [filter length]; auto.
Qed.
Lemma passes_split rs p p' bs : passes (concat rs) p p' bs -> exists bss, Forall2 (fun fs b => passes fs p p' b) rs bss /\ bs = concat bss.
Proof.
  revert bs. induction rs as [|fs rs IH]; intros bs H; cbn [concat] in H; [inversion H; exists []; auto|]. apply Forall2_app_inv_l in H. destruct H as (b1 & b2 & H1 & H2 & ->). destruct (IH b2 H2) as (bss & A & ->). exists (b1 :: bss). split; [constructor; auto|auto].
Qed.

Lemma hits_odd x l : Nat.odd (hits (x :: l)) = xorb x (Nat.odd (hits l)).
Proof. unfold hits. destruct x; cbn [filter length]; [rewrite Nat.odd_succ, <- Nat.negb_odd; reflexivity|]. rewrite xorb_false_l. reflexivity. Qed.
(** Whole rides. *)
Lemma rides_worth b fs T T' k i j n p p' z : sides fs T -> Forall2 same3 T T' -> proper_mesh T' -> closed_mesh T' -> rides b fs k i j n -> cell (b_pos b) i k p -> cell (b_pos b) j k p' -> worth T' p z ->
  exists z', worth T' p' z' /\ Z.odd z' = xorb (Z.odd z) (Nat.odd n).
Proof.
  intros Sd S Pr Cl R C C' W. revert p' C'. induction R as [|j n q q' bs R IH Cq Cq' H]; intros p' C'.
  - rewrite (cell_same _ _ _ _ _ C' C). exists z. split; auto. cbn. rewrite xorb_false_r. auto.
  - rewrite (cell_same _ _ _ _ _ C' Cq'). destruct (IH q Cq) as (z1 & W1 & E1). destruct (step_worth T T' fs q q' bs z1 Sd S Pr Cl H W1) as (z' & W' & E). exists z'. split; auto. rewrite E, E1, Nat.odd_add. apply xorb_assoc.
Qed.
Lemma rides_answer b fs k i j n p p' : closed_solid fs -> rides b fs k i j n -> cell (b_pos b) i k p -> cell (b_pos b) j k p' -> viewed fs p -> viewed fs p' ->
  exists r, solid_point_inside (solid_of fs) p = Ok r /\ solid_point_inside (solid_of fs) p' = Ok (xorb r (Nat.odd n)).
Proof.
  intros (Okf & Ne & T & Sh) R C C' ((bs & S1) & O1) ((bs' & S2) & O2). destruct (loose_mesh fs T Sh) as (T' & S & Pr & Cl). destruct Sh as (Sd & _).
  destruct (answer fs T T' p bs 0%Z Okf Ne Sd S Pr Cl S1 O1) as ((z & W) & _). destruct (rides_worth b fs T T' k i j n p p' z Sd S Pr Cl R C C' W) as (z' & W' & E).
  exists (Z.odd z). split; [apply (answer fs T T' p bs z); auto|]. rewrite <- E. apply (answer fs T T' p' bs' z'); auto.
Qed.
Lemma rides_end b fs k i j n : rides b fs k i j n -> (i <= j)%nat.
Proof. intros R. induction R; lia. Qed.

Section Run.
Context (polys : list face) (transparent : list nat) (order_of : list nat -> list nat) (mn mx : vec) (s e : R) (grid : dict (Z * Z * Z) (list nat)) (sc : scene).
Context (Rm : RoomSpec.room polys transparent order_of mn mx s e grid sc) (fuel num : nat) (pos vel : list vec) (en hs : list R) (b : buffers).
Context (Ep : 0 <= eps sc) (D0 : 0 < dt sc) (Sp : 0 < speed sc * dt sc <= s) (Lv : length vel = length pos) (Le : length en = length pos) (Lh : length hs = length (absorbers sc)) (Nv : forall v, In v vel -> norm v = speed sc).
Context (E : simulation_loop sc fuel num pos vel en hs = Ok b).
Context (ws : list (face * vec * R)) (Wl : walled ws polys transparent) (Okf : ok_faces ws) (Cov : forall f n d, In (f, n, d) ws -> covers f n d /\ simple_outline (fst f)).

Lemma walls_off k i j l p p' x : travels_well sc b ws k i j -> (i <= l < j)%nat -> cell (b_pos b) l k p -> cell (b_pos b) (S l) k p' -> In x ws -> keeps_off x p p'.
Proof.
  intros Tw L C C' I m Sg. destruct x as ((f, n), d). cbn [fst]. apply (unmet polys transparent order_of mn mx s e grid sc Rm fuel num pos vel en hs b Ep D0 Sp Lv Le Lh Nv E ws Wl Okf Cov l k p p' f n d m C C' I); auto. apply (Tw l); auto.
Qed.
Lemma rides_all doors fs k i j n : Permutation fs (ws ++ doors) -> travels_well sc b ws k i j -> rides b doors k i j n -> rides b fs k i j n.
Proof.
  intros P Tw R. revert Tw. induction R as [|j n q q' bs R IH Cq Cq' H]; intros Tw; [constructor|]. pose proof (rides_end _ _ _ _ _ _ R) as Lij.
  assert (Off : forall x, In x ws -> keeps_off x q q') by (intros x I; apply (walls_off k i (S j) j q q' x Tw); auto; lia). destruct (passes_off ws q q' Off) as (b0 & A0 & H0).
  destruct (passes_perm _ _ _ _ _ (Permutation_sym P) (passes_app _ _ _ _ _ _ A0 H)) as (b1 & A1 & H1). rewrite hits_app, H0 in H1. cbn [Nat.add] in H1. rewrite <- H1. apply (rides_step b fs k i j n q q'); auto. apply IH. intros l x y y' L. apply (Tw l); lia.
Qed.
Lemma door_answer doors fs k i j n p p' : closed_solid fs -> Permutation fs (ws ++ doors) -> cell (b_pos b) i k p -> cell (b_pos b) j k p' -> travels_well sc b ws k i j -> rides b doors k i j n -> viewed fs p -> viewed fs p' ->
  exists r, solid_point_inside (solid_of fs) p = Ok r /\ solid_point_inside (solid_of fs) p' = Ok (xorb r (Nat.odd n)).
Proof. intros Cs P C C' Tw R V1 V2. apply (rides_answer b fs k i j n p p'); auto. apply (rides_all doors); auto. Qed.

(** All rooms together. *)
Lemma rooms_ride rs doors k i j p' : Permutation (concat rs) (ws ++ both_sides doors) -> (forall x y, In (x, y) doors -> twins x y) -> (i <= j)%nat -> cell (b_pos b) j k p' -> travels_well sc b ws k i j -> doors_well b (both_sides doors) k i j ->
  exists ns, Forall2 (fun fs n => rides b fs k i j n) rs ns /\ Nat.odd (fold_right Nat.add 0%nat ns) = false.
Proof.
  intros P Tw L. revert p'. induction j as [|j IH]; intros p' C' Wt Dw.
  - assert (i = 0%nat) by lia. subst i. exists (map (fun _ => 0%nat) rs). clear. induction rs as [|fs rs (A & B)]; cbn [map fold_right]; split; auto; constructor; auto. constructor.
  - destruct (Nat.eq_dec i (S j)) as [->|Ne].
    { exists (map (fun _ => 0%nat) rs). clear. induction rs as [|fs rs (A & B)]; cbn [map fold_right]; split; auto; constructor; auto. constructor. }
    destruct (cell_before sc fuel num pos vel en hs b Ep Lv Le Lh E j k p' C') as (q & Cq).
    destruct (IH ltac:(lia) q Cq) as (ns & F & Od); [intros l x y y' Ll; apply (Wt l); lia|intros l x y y' Ll; apply (Dw l); lia|].
    assert (Off : forall x, In x ws -> keeps_off x q p') by (intros x I; apply (walls_off k i (S j) j q p' x Wt); auto; lia). destruct (passes_off ws q p' Off) as (b0 & A0 & H0).
    destruct (passes_some (both_sides doors) q p') as (b1 & A1); [intros x I; apply (Dw j); auto; lia|]. pose proof (doors_even doors q p' b1 Tw A1) as H1.
    destruct (passes_perm _ _ _ _ _ (Permutation_sym P) (passes_app _ _ _ _ _ _ A0 A1)) as (b2 & A2 & H2). rewrite hits_app, H0 in H2. cbn [Nat.add] in H2. destruct (passes_split rs q p' b2 A2) as (bss & G & ->).
    rewrite <- H2 in H1. clear -F Od G H1 Cq C'.
    assert (X : exists ms, Forall2 (fun fs n => rides b fs k i (S j) n) rs ms /\ fold_right Nat.add 0%nat ms = (fold_right Nat.add 0 ns + hits (concat bss))%nat).
    { clear Od H1. revert bss G. induction F as [|fs n rs ns R F IH]; intros bss G; inversion G as [|? bs ? bss' G1 G2]; subst; [exists []; split; [constructor|reflexivity]|]. destruct (IH bss' G2) as (ms & A & B). exists ((n + hits bs)%nat :: ms). split; [constructor; auto; apply (rides_step b fs k i j n q p'); auto|].
      cbn [fold_right concat]. rewrite hits_app, B. lia. }
    destruct X as (ms & A & B). exists ms. split; auto. rewrite B, Nat.odd_add, Od, H1. reflexivity.
Qed.
Lemma rooms_count rs doors k i j p p' : Permutation (concat rs) (ws ++ both_sides doors) -> (forall x y, In (x, y) doors -> twins x y) -> (i <= j)%nat -> cell (b_pos b) i k p -> cell (b_pos b) j k p' -> travels_well sc b ws k i j -> doors_well b (both_sides doors) k i j ->
  (forall fs, In fs rs -> closed_solid fs /\ viewed fs p /\ viewed fs p') -> exists bs bs', found rs p bs /\ found rs p' bs' /\ Nat.odd (hits bs') = Nat.odd (hits bs).
Proof.
  intros P Tw L C C' Wt Dw V. destruct (rooms_ride rs doors k i j p' P Tw L C' Wt Dw) as (ns & F & Od). clear P.
  assert (X : exists bs bs', found rs p bs /\ found rs p' bs' /\ Nat.odd (hits bs') = xorb (Nat.odd (hits bs)) (Nat.odd (fold_right Nat.add 0%nat ns))).
  { clear Od. induction F as [|fs n rs ns R F IH]; [exists [], []; repeat split; constructor|]. destruct IH as (bs & bs' & A & B & D); [intros; apply V; right; auto|]. destruct (V fs (or_introl eq_refl)) as (Cs & V1 & V2).
    destruct (rides_answer b fs k i j n p p' Cs R C C' V1 V2) as (r & R1 & R2). exists (r :: bs), (xorb r (Nat.odd n) :: bs'). split; [constructor; auto|]. split; [constructor; auto|].
    rewrite !hits_odd, D. cbn [fold_right]. rewrite Nat.odd_add. generalize (Nat.odd n) (Nat.odd (hits bs)) (Nat.odd (fold_right Nat.add 0%nat ns)). intros [|] [|] [|]; destruct r; auto. }
  destruct X as (bs & bs' & A & B & D). exists bs, bs'. split; auto. split; auto. rewrite D, Od. apply xorb_false_r.
Qed.
End Run.
