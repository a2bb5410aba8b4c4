(** A small scene for the examples: a box from 0 to 10 with two reflecting
    walls x = 0 and x = 10 and one absorber. *)
From Coq Require Import Reals List Bool Arith Lra.
From Verif Require Import Prelude MeshModel VecModel VecProofs SimModel SimSpec SimProofs SimProofs2.
Import ListNotations.
Local Open Scope R_scope.

Definition demo_target (p v : vec) : option nat :=
  if Rltb 0 (vx v) then Some 1%nat else if Rltb (vx v) 0 then Some 0%nat else None.
Definition demo_dist (p : vec) (k : nat) : R := match k with O => vx p | _ => 10 - vx p end.
Definition demo_normal (k : nat) : vec := match k with O => V 1 0 0 | _ => V (-1) 0 0 end.
Definition demo : scene :=
  mkScene demo_target demo_dist demo_normal (fun _ => 1 / 10) (V 0 0 0) (V 10 10 10) [V 7 5 5] (1 / 2) (1 / 1000) 1 1.

Definition at_x (x v e : R) : ray := mkRay (V x 5 5) (V v 0 0) (V v 0 0) e.

Ltac unf := cbn -[Rltb Rleb Rplus Rminus Rmult Rdiv Ropp Rinv micro];
          unfold demo_target, demo_dist, demo_normal, dot, vsub, vadd, smul, dist_lt, dist_gt, reflection_dist, outside, reflect;
          cbn -[Rltb Rleb Rplus Rminus Rmult Rdiv Ropp Rinv micro].
Ltac decide1 :=
  match goal with
  | |- context [Rltb ?a ?b] => first [ rewrite (proj2 (Rltb_true a b)) by lra | rewrite (proj2 (Rltb_false a b)) by lra ]
  | |- context [Rleb ?a ?b] => first [ rewrite (proj2 (Rleb_true a b)) by lra | rewrite (proj2 (Rleb_false a b)) by lra ]
  end.
Ltac step1 := match goal with |- context [micro demo (?ph, ?r)] => unfold micro at 1 end.
Ltac crunch := unf; repeat (decide1; unf).
Ltac peel := repeat match goal with |- context [micro demo (?ph, ?r)] => let x := fresh in let E := fresh in
   remember (micro demo (ph, r)) as x eqn:E; unfold micro in E; revert E; crunch; intros ->; crunch end.

Ltac run_step := unfold sim_step, step_ray, at_x; crunch; peel; repeat (first [lra | progress f_equal]).

(** The ray flies from x = 8 towards x = 10, is reflected, and ends in the
    absorber. *)
Lemma demo_step1 : sim_step demo 5 (mkSim [at_x 8 1 1] [0]) = Ok (mkSim [at_x 9 1 1] [0]).
Proof. run_step. Qed.
Lemma demo_step2 : sim_step demo 5 (mkSim [at_x 9 1 1] [0]) = Ok (mkSim [at_x 8 (-1) (9 / 10)] [0]).
Proof. run_step. Qed.
Lemma demo_step3 : sim_step demo 5 (mkSim [at_x 8 (-1) (9 / 10)] [0]) = Ok (mkSim [at_x 7 (-1) (9 / 10)] [0]).
Proof. run_step. Qed.
Lemma demo_step4 : sim_step demo 5 (mkSim [at_x 7 (-1) (9 / 10)] [0]) = Ok (mkSim [at_x 7 (-1) 0] [9 / 10]).
Proof. run_step. Qed.

Definition demo_buffers : buffers :=
  mkBuf [[V 8 5 5]; [V 9 5 5]; [V 8 5 5]; [V 7 5 5]; [V 7 5 5]] [[1]; [1]; [9 / 10]; [9 / 10]; [0]] [[0]; [0]; [0]; [0]; [9 / 10]].
Lemma demo_run : simulation_loop demo 5 4 [V 8 5 5] [V 1 0 0] [1] [0] = Ok demo_buffers.
Proof.
  rewrite loop_trace. replace (mkSim (init_rays demo [V 8 5 5] [V 1 0 0] [1]) [0]) with (mkSim [at_x 8 1 1] [0]).
  - cbn [trace]. rewrite demo_step1. cbn [rbind]. rewrite demo_step2. cbn [rbind]. rewrite demo_step3. cbn [rbind]. rewrite demo_step4. reflexivity.
  - unfold init_rays, at_x. simpl. unfold smul. simpl. repeat f_equal; ring.
Qed.

(** A corridor narrower than the reflection distance, without absorption. *)
Definition corridor : scene :=
  mkScene demo_target (fun p k => match k with O => vx p | _ => 1 - vx p end) demo_normal (fun _ => 0) (V 0 0 0) (V 1 1 1) [] (1 / 2) (1 / 1000) 1 1.
Lemma corridor_bounces ps v : bounces corridor (V (1 / 2) (1 / 2) (1 / 2)) (V 1 0 0) ps v -> v = V 1 0 0 \/ v = V (-1) 0 0.
Proof.
  intros B. induction B as [|ps v1 k B IH T D]; auto. destruct IH as [-> | ->]; unfold corridor in T; cbn [target] in T; unfold demo_target in T; cbn [vx] in T.
  - rewrite (proj2 (Rltb_true 0 1)) in T by lra. inversion T; subst. right. unfold mirror. cbn. unfold dot, vsub, smul. cbn. f_equal; lra.
  - rewrite (proj2 (Rltb_false 0 (-1))) in T by lra. rewrite (proj2 (Rltb_true (-1) 0)) in T by lra. inversion T; subst. left. unfold mirror. cbn. unfold dot, vsub, smul. cbn. f_equal; lra.
Qed.
