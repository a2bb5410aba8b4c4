(** Proofs: rays of the simulation of a building with doors. *)
From Coq Require Import Reals ZArith Ascii String List Arith Bool Lia Permutation Classical.
From Verif Require Import Prelude TreeModel TreeSpec VecModel SimModel SimSpec GeomModel GeomSpec PolyModel PolySpec SliceSpec InsideSpec RoomSpec WindSpec LoopSpec ShellSpec StaySpec DoorSpec DoorProofs1 DoorProofs2 LoopProofs6 GeomProofs1 TransModel TransSpec TransProofs1.
Import ListNotations.

Definition ends {A} (d : A * A) : list A := [fst d; snd d].
Lemma pairing {A} (D : A -> A -> Prop) : (forall x y, D x y -> D y x) -> (forall x, ~ D x x) -> (forall x y z, D x y -> D x z -> y = z) ->
  forall n L, length L <= n -> NoDup L -> (forall x y, In x L -> D x y -> In y L) ->
  exists ws ps, Permutation L (ws ++ flat_map ends ps) /\ (forall x, In x ws -> ~ exists y, D x y) /\ forall x y, In (x, y) ps -> D x y.
Proof.
  intros Sy Ir Fu. induction n as [|n IH]; intros L Ln N C.
  - destruct L; [|simpl in Ln; lia]. exists [], []. split; [constructor|split; simpl; tauto].
  - destruct L as [|x L]; [exists [], []; split; [constructor|split; simpl; tauto]|]. inversion N as [|? ? Nx N']; subst. cbn [length] in Ln. destruct (classic (exists y, D x y)) as [(y & Dy)|Nd].
    + assert (Iy : In y L) by (destruct (C x y (or_introl eq_refl) Dy) as [<-|I]; auto; destruct (Ir x Dy)). destruct (in_split _ _ Iy) as (u & v & ->).
      destruct (IH (u ++ v)) as (ws & ps & P & W & Q).
      * rewrite app_length in *. cbn [length] in Ln. lia.
      * apply NoDup_remove_1 in N'. exact N'.
      * intros a c Ia Dc. assert (Ia' : In a (u ++ y :: v)) by (apply in_app_iff in Ia; apply in_app_iff; cbn [In]; tauto). assert (a <> y) by (intros ->; apply (NoDup_remove_2 _ _ _ N' Ia)). assert (a <> x) by (intros ->; auto).
        destruct (C a c (or_intror Ia') Dc) as [<-|I]; [exfalso; apply H, (Fu x); auto|]. apply in_app_iff in I. apply in_app_iff. cbn [In] in I. destruct I as [I|[<-|I]]; auto. exfalso. apply H0, (Fu y); auto.
      * exists ws, ((x, y) :: ps). split; [|split; [exact W|intros a c [E|I]; [injection E as <- <-; exact Dy|auto]]]. cbn [flat_map ends fst snd app].
        apply Permutation_trans with (x :: y :: u ++ v); [apply perm_skip, Permutation_sym, Permutation_middle|]. apply Permutation_trans with (x :: y :: ws ++ flat_map ends ps); [do 2 apply perm_skip; exact P|].
        apply (Permutation_trans (l' := x :: ws ++ y :: flat_map ends ps)); [apply perm_skip|]; apply Permutation_middle.
    + destruct (IH L) as (ws & ps & P & W & Q); [lia|auto|intros a c Ia Dc; destruct (C a c (or_intror Ia) Dc) as [<-|I]; auto; exfalso; apply Nd; eauto|].
      exists (x :: ws), ps. split; [cbn [app]; apply perm_skip; exact P|]. split; auto. intros a [<-|I]; auto.
Qed.

Section Building.
  Context (h : heap) (b : oid) (geo : oid -> face * vec * R) (Un : one_each h b geo).
  Notation inside := (inside_of h KPolygon b).

  Lemma split_doors ids : NoDup (concat ids) -> (forall i, In i (concat ids) <-> inside i) ->
    exists ws ps, Permutation (concat (map (map geo) ids)) (map geo ws ++ both_sides (map (fun d => (geo (fst d), geo (snd d))) ps)) /\
      (forall i, In i ws -> inside i /\ ~ exists j, divides h b geo i j) /\ forall i j, In (i, j) ps -> divides h b geo i j.
  Proof.
    intros N I. destruct (pairing (divides h b geo)) with (n := length (concat ids)) (L := concat ids) as (ws & ps & P & Hw & Hp); auto.
    - intros x y (A & B & C & O & z & Z1 & Z2). split; [auto|]. split; [auto|]. split; [auto|]. split; [apply opposite_sym; auto|]. exists z. auto.
    - intros x (_ & _ & C & _). auto.
    - intros x y z (A & B & C & O & _) (_ & B' & C' & O' & _). apply (Un x); auto.
    - intros x y _ (_ & B & _). apply I, B.
    - exists ws, ps. split; [|split; auto].
      + rewrite <- concat_map. apply (Permutation_map geo) in P. rewrite map_app in P. replace (both_sides _) with (map geo (flat_map ends ps)); auto. unfold both_sides. clear. induction ps as [|d ps IH]; auto. cbn [flat_map map ends app fst snd]. rewrite IH. reflexivity.
      + intros i Iw. split; auto. apply I. apply (Permutation_in i (Permutation_sym P)), in_or_app. auto.
  Qed.
  Lemma opposite_twins x y : opposite x y -> (exists fs, closed_solid fs /\ In x fs) -> (exists fs, closed_solid fs /\ In y fs) -> twins x y.
  Proof.
    destruct x as ((f, n), d), y as ((f', n'), d'). intros (Ro & Nn) (fs & (_ & _ & T & ((Cov & _) & _)) & Ix) (fs' & (_ & _ & T' & ((Cov' & _) & _)) & Iy). unfold corners, facing_way in *. cbn [fst snd] in *.
    destruct (Cov _ _ _ Ix) as (C1 & S1), (Cov' _ _ _ Iy) as (C2 & S2). assert (D : d' = (- d)%R).
    { destruct C1 as (_ & P1 & _), C2 as (_ & P2 & _), S1 as (_ & L3 & _). destruct (fst f) as [|p r] eqn:E; [simpl in L3; lia|]. assert (Ip : In p (fst f')). { destruct Ro as (u & v & Er & ->). assert (Ip : In p (u ++ v)) by (rewrite <- Er; apply in_rev; rewrite rev_involutive; left; auto). apply in_app_iff in Ip. apply in_app_iff. tauto. }
      pose proof (P1 p (or_introl eq_refl)) as A. pose proof (P2 p Ip) as B. unfold on_plane in A, B. rewrite Nn in B. destruct n, p. revert A B. vunf. intros. Lra.lra. }
    subst d' n'. intros q. cbn [fst]. split; [apply (same_place f n d f' (vopp n) (- d)%R C1 C2 S1); auto|]. apply (same_place f' (vopp n) (- d)%R f n d C2 C1 S2); [right; split; [destruct n; vunf; f_equal; ring|ring]|apply loop_sym; auto].
  Qed.
End Building.
