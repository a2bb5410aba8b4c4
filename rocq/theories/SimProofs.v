(** Proofs about the simulation: one step. *)
From Coq Require Import Reals List Bool Arith Lra Lia Psatz.
From Verif Require Import Prelude MeshModel VecModel VecProofs SimModel SimSpec.
Import ListNotations.
Local Open Scope R_scope.

Section S.
  Context (sc : scene) (Eps : 0 <= eps sc).

  Lemma outside_true p : outside sc p = true -> left_box sc p.
  Proof.
    unfold outside, left_box. intros H. repeat (apply orb_true_iff in H; destruct H as [H|H]); rbool; unfold Rgt; tauto.
  Qed.
  Lemma outside_false p : outside sc p = false -> ~ left_box sc p.
  Proof. unfold outside, left_box. intros H. rbool. lra. Qed.

  Lemma total_snoc ps k : total_surf sc (ps ++ [k]) = total_surf sc ps + surf sc k.
  Proof. unfold total_surf. rewrite map_app, Rsum_app. simpl. ring. Qed.

  (** The small steps of one ray. *)
  Definition inv (r0 : ray) (st : rstate) : Prop :=
    match fst st with
    | Start => snd st = r0
    | Loop t =>
        let r := snd st in
        eps sc < r_en r0 /\ r_pos r = r_pos r0 /\ t = target sc (r_pos r0) (r_vel r) /\
        ((left_box sc (r_pos r0) /\ r = with_energy r0 0) \/
         (~ left_box sc (r_pos r0) /\ exists ps, bounces sc (r_pos r0) (r_vel r0) ps (r_vel r) /\
            r_en r = r_en r0 - total_surf sc ps /\ eps sc < r_en r /\
            r_dpos r = match ps with [] => r_dpos r0 | _ => smul (dt sc) (r_vel r) end))
    | Done => outcome sc r0 (snd st)
    end.

  Lemma inv_step r0 st : inv r0 st -> inv r0 (micro sc st).
  Proof.
    destruct st as ([|t|], r); unfold inv, micro; cbn [fst snd].
    - intros ->. destruct (Rleb (r_en r0) (eps sc)) eqn:E; rbool; cbn [fst snd].
      + apply out_dead; auto.
      + split; auto. split; auto. split; auto. rewrite (proj2 (Rltb_true 0 (r_en r0))) by lra. cbn [andb].
        destruct (outside sc (r_pos r0)) eqn:O.
        * left. split; [apply outside_true; auto|]. reflexivity.
        * right. split; [apply outside_false; auto|]. exists []. cbn [r_vel r_en r_dpos]. split; [constructor|].
          split; [unfold total_surf, Rsum; simpl; ring|]. split; [lra|auto].
    - intros (A & P & T & H).
      assert (X : forall b : bool, left_box sc (r_pos r0) /\ r = with_energy r0 0 ->
         (b && Rltb (eps sc) (r_en r))%bool = false /\ (Rltb (eps sc) (r_en r) && b)%bool = false).
      { intros b (_ & ->). cbn [with_energy r_en]. rewrite (proj2 (Rltb_false (eps sc) 0)) by lra. rewrite andb_false_r. auto. }
      destruct t as [k|].
      + destruct (dist_lt sc (r_pos r) (Some k) && Rltb (eps sc) (r_en r))%bool eqn:B.
        * destruct H as [H|(NL & ps & Bo & En & Al & Dp)].
          { exfalso. destruct (X (dist_lt sc (r_pos r) (Some k)) H) as (X1 & _). congruence. }
          apply andb_true_iff in B. destruct B as (B1 & _). cbn [dist_lt] in B1. apply Rltb_true in B1. rewrite P in B1.
          destruct (Rleb (r_en r - surf sc k) (eps sc)) eqn:E; rbool; cbn [fst snd].
          -- apply (out_spent sc r0 _ ps k); cbn [r_vel r_en r_dpos r_pos]; auto; try lra.
             rewrite total_snoc. lra.
          -- unfold reflect. cbn [r_pos r_vel r_en r_dpos]. split; auto. split; auto. split; [rewrite P; auto|]. right. split; auto.
             exists (ps ++ [k]). split.
             { apply (bounces_snoc sc (r_pos r0) (r_vel r0) ps (r_vel r) k); auto. }
             rewrite total_snoc. split; [lra|]. split; [lra|]. destruct (ps ++ [k]) eqn:Z; [destruct ps; discriminate|]. auto.
        * destruct (Rltb (eps sc) (r_en r) && dist_gt sc (r_pos r) (Some k))%bool eqn:G; cbn [fst snd].
          -- destruct H as [H|(NL & ps & Bo & En & Al & Dp)].
             { exfalso. destruct (X (dist_gt sc (r_pos r) (Some k)) H) as (_ & X2). congruence. }
             apply andb_true_iff in G. destruct G as (_ & G). cbn [dist_gt] in G. apply Rltb_true in G. rewrite P in G.
             apply (out_moved sc r0 _ ps); cbn [r_vel r_en r_dpos r_pos]; auto.
             ++ right. exists k. auto.
             ++ rewrite P. auto.
          -- destruct H as [(L & ->)|(NL & ps & Bo & En & Al & Dp)].
             { apply out_left; auto. }
             rewrite (proj2 (Rltb_true (eps sc) (r_en r))) in B, G by auto. rewrite andb_true_r in B. cbn [andb] in G.
             cbn [dist_lt dist_gt] in B, G. apply Rltb_false in B, G. rewrite P in B, G.
             apply (out_stalled sc r0 r ps k); auto. unfold reflection_dist in B, G. unfold rdist. lra.
      + destruct (Rltb (eps sc) (r_en r) && dist_gt sc (r_pos r) None)%bool eqn:G; cbn [fst snd].
        * destruct H as [H|(NL & ps & Bo & En & Al & Dp)].
          { exfalso. destruct (X (dist_gt sc (r_pos r) None) H) as (_ & X2). congruence. }
          apply (out_moved sc r0 _ ps); cbn [r_vel r_en r_dpos r_pos]; auto. rewrite P. auto.
        * destruct H as [(L & ->)|(NL & ps & Bo & En & Al & Dp)].
          { apply out_left; auto. }
          exfalso. rewrite (proj2 (Rltb_true (eps sc) (r_en r))) in G by auto. discriminate.
    - auto.
  Qed.

  Lemma inv_iter r0 n : inv r0 (Nat.iter n (micro sc) (Start, r0)).
  Proof. induction n; [reflexivity|]. simpl. apply inv_step. auto. Qed.

  Lemma step_outcome fuel r r' : step_ray sc fuel r = Ok r' -> outcome sc r r'.
  Proof.
    unfold step_ray. pose proof (inv_iter r fuel) as I. destruct (Nat.iter fuel (micro sc) (Start, r)) as ([|t|], x); try discriminate.
    intros E. inversion E; subst. exact I.
  Qed.

  (** Absorbers. *)
  Lemma check_spec abs : forall hits r hs r', length hits = length abs -> check_absorbers sc abs hits r = (hs, r') ->
    length hs = length abs /\
    ((exists sn a, nth_error abs sn = Some a /\ dot (vsub (r_pos r) a) (vsub (r_pos r) a) < radius sc * radius sc /\
        (forall j b, (j < sn)%nat -> nth_error abs j = Some b -> ~ dot (vsub (r_pos r) b) (vsub (r_pos r) b) < radius sc * radius sc) /\
        r' = with_energy r 0 /\ forall j h, nth_error hits j = Some h -> nth_error hs j = Some (if (j =? sn)%nat then h + r_en r else h)) \/
     ((forall j b, nth_error abs j = Some b -> ~ dot (vsub (r_pos r) b) (vsub (r_pos r) b) < radius sc * radius sc) /\ r' = r /\ hs = hits)).
  Proof.
    induction abs as [|a abs IH]; intros [|h hits] r hs r' L E; try discriminate; cbn [check_absorbers] in E.
    - inversion E; subst. split; auto. right. split; auto. intros [|j]; discriminate.
    - destruct (Rltb (dot (vsub (r_pos r) a) (vsub (r_pos r) a)) (radius sc * radius sc)) eqn:W; rbool.
      + destruct (check_absorbers sc abs hits (mkRay (r_pos r) (r_vel r) (r_dpos r) 0)) as (hs1, r1) eqn:E1.
        inversion E; subst. simpl in L. assert (L' : length hits = length abs) by lia.
        destruct (IH hits _ hs1 r' L' E1) as (L1 & D). split; [simpl; lia|]. left. exists 0%nat, a. split; auto. split; auto.
        split; [intros; lia|]. destruct D as [(sn & b & Es & Ws & Ms & -> & Hs)|(_ & -> & ->)].
        * split; [reflexivity|]. intros [|j] x Ex; [simpl in *; inversion Ex; auto|]. simpl in Ex |- *. rewrite (Hs j x Ex).
          destruct (j =? sn)%nat; auto. cbn [r_en]. f_equal. ring.
        * split; [reflexivity|]. intros [|j] x Ex; [simpl in *; inversion Ex; auto|]. simpl in Ex |- *. auto.
      + destruct (check_absorbers sc abs hits r) as (hs1, r1) eqn:E1.
        inversion E; subst. simpl in L. assert (L' : length hits = length abs) by lia.
        destruct (IH hits _ hs1 r' L' E1) as (L1 & D). split; [simpl; lia|].
        destruct D as [(sn & b & Es & Ws & Ms & -> & Hs)|(Ms & -> & ->)].
        * left. exists (S sn), b. split; auto. split; auto. split.
          { intros [|j] c Lj Ec; [simpl in Ec; inversion Ec; subst; lra|]. apply (Ms j c); [lia|auto]. }
          split; auto. intros [|j] x Ex; [simpl in *; inversion Ex; auto|]. simpl in Ex |- *. apply Hs. auto.
        * right. split; [|auto]. intros [|j] c Ec; [simpl in Ec; inversion Ec; subst; lra|]. apply (Ms j c). auto.
  Qed.

  Lemma absorb_spec rays : forall hits rs hs, length hits = length (absorbers sc) -> absorb sc rays hits = (rs, hs) ->
    length hs = length (absorbers sc) /\ Forall2 (absorbed sc) rays rs /\
    forall sn h, nth_error hits sn = Some h -> exists xs, Forall2 (credit sc sn) rays xs /\ nth_error hs sn = Some (h + Rsum xs).
  Proof.
    induction rays as [|r rays IH]; intros hits rs hs L E; cbn [absorb] in E.
    - inversion E; subst. split; auto. split; [constructor|]. intros sn h Eh. exists []. split; [constructor|]. rewrite Eh. f_equal. unfold Rsum. simpl. ring.
    - destruct (Rleb (r_en r) (eps sc)) eqn:D; rbool.
      + destruct (absorb sc rays hits) as (rs1, hs1) eqn:E1. inversion E; subst.
        destruct (IH hits rs1 hs L E1) as (L1 & F & C). split; auto. split.
        { constructor; auto. right. split; auto. lra. }
        intros sn h Eh. destruct (C sn h Eh) as (xs & Fx & Ex). exists (0 :: xs). split.
        { constructor; auto. right. split; auto. lra. }
        rewrite Ex, Rsum_cons. f_equal. ring.
      + destruct (check_absorbers sc (absorbers sc) hits r) as (hits1, r1) eqn:Ec.
        destruct (absorb sc rays hits1) as (rs1, hs1) eqn:E1. inversion E; subst.
        destruct (check_spec (absorbers sc) hits r hits1 r1 L Ec) as (L1 & D').
        destruct (IH hits1 rs1 hs L1 E1) as (L2 & F & C). split; auto. split.
        { constructor; auto. destruct D' as [(sn & a & Es & Ws & _ & -> & _)|(Ms & -> & _)].
          - left. split; auto. split; auto. exists sn, a. auto.
          - right. split; auto. intros (_ & sn & a & Es & Ws). apply (Ms sn a Es Ws). }
        intros sn h Eh. destruct D' as [(s0 & a & Es & Ws & Mn & -> & Hs)|(Ms & -> & ->)].
        * specialize (Hs sn h Eh). destruct (C sn _ Hs) as (xs & Fx & Ex). rewrite Ex.
          assert (FW : first_within sc (r_pos r) s0).
          { split; [exists a; auto|]. intros j Lj (b & Eb & Wb). apply (Mn j b Lj Eb Wb). }
          destruct (Nat.eqb_spec sn s0) as [->|Ne].
          -- exists (r_en r :: xs). rewrite Rsum_cons. split; [|f_equal; ring]. constructor; auto. left. auto.
          -- exists (0 :: xs). rewrite Rsum_cons. split; [|f_equal; ring]. constructor; auto. right. split; auto.
             intros (_ & W & M). destruct (lt_eq_lt_dec sn s0) as [[X|X]|X]; [|auto|].
             ++ destruct FW as (_ & M0). apply (M0 sn X W).
             ++ apply (M s0 X). exists a. auto.
        * destruct (C sn h Eh) as (xs & Fx & Ex). exists (0 :: xs). rewrite Rsum_cons, Ex. split; [|f_equal; ring]. constructor; auto.
          right. split; auto. intros (_ & (b & Eb & Wb) & _). apply (Ms sn b Eb Wb).
  Qed.

  Lemma mapM_forall {X Y} (f : X -> result Y) l l' : mapM f l = Ok l' -> Forall2 (fun x y => f x = Ok y) l l'.
  Proof.
    revert l'. induction l as [|x l IH]; intros l' E; simpl in E; [inversion E; constructor|].
    destruct (f x) as [y|] eqn:F; [|discriminate]. cbn [rbind] in E. destruct (mapM f l) as [ys|]; [|discriminate].
    cbn [rbind] in E. inversion E; subst. constructor; auto.
  Qed.

  Lemma step_rays fuel s s' : length (s_hits s) = length (absorbers sc) -> sim_step sc fuel s = Ok s' ->
    length (s_hits s') = length (absorbers sc) /\
    (exists rs, Forall2 (absorbed sc) (s_rays s) rs /\ Forall2 (outcome sc) rs (s_rays s')) /\
    forall sn, (sn < length (absorbers sc))%nat -> exists xs, Forall2 (credit sc sn) (s_rays s) xs /\ nth_error (s_hits s') sn = Some (Rsum xs).
  Proof.
    intros L E. unfold sim_step in E. destruct (absorb sc (s_rays s) (map (fun _ => 0) (s_hits s))) as (rs, hs) eqn:A.
    destruct (mapM (step_ray sc fuel) rs) as [rs2|] eqn:M; [|discriminate]. cbn [rbind] in E. inversion E; subst. cbn [s_hits s_rays].
    destruct (absorb_spec (s_rays s) (map (fun _ => 0) (s_hits s)) rs hs) as (L1 & F & C); [rewrite map_length; auto|auto|].
    split; auto. split.
    - exists rs. split; auto. apply mapM_forall in M. clear - M Eps. induction M; constructor; auto. eapply step_outcome; eauto.
    - intros sn Ls. destruct (C sn 0) as (xs & Fx & Ex).
      + rewrite nth_error_map. destruct (nth_error (s_hits s) sn) eqn:N; [reflexivity|]. apply nth_error_None in N. lia.
      + exists xs. split; auto. rewrite Ex. f_equal. ring.
  Qed.
End S.
