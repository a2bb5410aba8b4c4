(** Basic facts about numbers and vectors. *)
From Coq Require Import Reals List Bool Lra Psatz.
From Verif Require Import VecModel.
Import ListNotations.
Local Open Scope R_scope.

Lemma Rltb_true x y : Rltb x y = true <-> x < y.
Proof. unfold Rltb. destruct (Rlt_dec x y); split; intros; auto; try discriminate; contradiction. Qed.
Lemma Rltb_false x y : Rltb x y = false <-> y <= x.
Proof. unfold Rltb. destruct (Rlt_dec x y); split; intros; auto; try discriminate; lra. Qed.
Lemma Rleb_true x y : Rleb x y = true <-> x <= y.
Proof. unfold Rleb. destruct (Rle_dec x y); split; intros; auto; try discriminate; contradiction. Qed.
Lemma Rleb_false x y : Rleb x y = false <-> y < x.
Proof. unfold Rleb. destruct (Rle_dec x y); split; intros; auto; try discriminate; lra. Qed.
Lemma Reqb_true x y : Reqb x y = true <-> x = y.
Proof. unfold Reqb. destruct (Req_EM_T x y); split; intros; auto; try discriminate; contradiction. Qed.
Lemma Reqb_false x y : Reqb x y = false <-> x <> y.
Proof. unfold Reqb. destruct (Req_EM_T x y); split; intros; auto; try discriminate; contradiction. Qed.

(** Turns boolean comparisons in the context into inequalities. *)
Ltac rbool :=
  repeat match goal with
  | H : Rltb _ _ = true |- _ => apply Rltb_true in H
  | H : Rltb _ _ = false |- _ => apply Rltb_false in H
  | H : Rleb _ _ = true |- _ => apply Rleb_true in H
  | H : Rleb _ _ = false |- _ => apply Rleb_false in H
  | H : Reqb _ _ = true |- _ => apply Reqb_true in H
  | H : Reqb _ _ = false |- _ => apply Reqb_false in H
  | H : (_ && _)%bool = true |- _ => apply andb_true_iff in H; destruct H
  | H : (_ || _)%bool = false |- _ => apply orb_false_iff in H; destruct H
  end.

(** Decides a comparison in the goal. *)
Ltac rdecide :=
  repeat match goal with
  | |- context [Rltb ?a ?b] =>
      first [ rewrite (proj2 (Rltb_true a b)) by (simpl; lra) | rewrite (proj2 (Rltb_false a b)) by (simpl; lra) ]
  | |- context [Rleb ?a ?b] =>
      first [ rewrite (proj2 (Rleb_true a b)) by (simpl; lra) | rewrite (proj2 (Rleb_false a b)) by (simpl; lra) ]
  | |- context [Reqb ?a ?b] =>
      first [ rewrite (proj2 (Reqb_true a b)) by (simpl; lra) | rewrite (proj2 (Reqb_false a b)) by (simpl; lra) ]
  end.

Lemma vec_ext a b : vx a = vx b -> vy a = vy b -> vz a = vz b -> a = b.
Proof. destruct a, b; simpl; intros; subst; auto. Qed.

Ltac vring := apply vec_ext; simpl; ring.
Ltac vfield := apply vec_ext; simpl; field.

Lemma dot_comm a b : dot a b = dot b a.
Proof. unfold dot. ring. Qed.
Lemma dot_pos a : 0 <= dot a a.
Proof. unfold dot. nra. Qed.
Lemma norm_pos a : 0 <= norm a.
Proof. apply sqrt_pos. Qed.
Lemma norm_sq a : norm a * norm a = dot a a.
Proof. apply sqrt_sqrt, dot_pos. Qed.
Lemma dot_zero a : dot a a = 0 <-> a = vzero.
Proof.
  split; [|intros ->; unfold dot; simpl; ring]. destruct a as [x y z]; unfold dot; simpl. intros E.
  assert (x = 0) by nra. assert (y = 0) by nra. assert (z = 0) by nra. subst. reflexivity.
Qed.
Lemma norm_zero a : norm a = 0 <-> a = vzero.
Proof. rewrite <- dot_zero, <- norm_sq. split; intros E; [rewrite E; ring|]. pose proof (norm_pos a). nra. Qed.
Lemma norm_smul k a : norm (smul k a) = Rabs k * norm a.
Proof.
  unfold norm. replace (dot (smul k a) (smul k a)) with (k * k * dot a a) by (unfold dot; simpl; ring).
  rewrite sqrt_mult by (try apply dot_pos; nra). f_equal. apply sqrt_Rsqr_abs.
Qed.

Lemma Rsum_app l m : Rsum (l ++ m) = Rsum l + Rsum m.
Proof. induction l as [|x l IH]; simpl; [unfold Rsum; simpl; ring|]. change (Rsum (x :: l ++ m)) with (x + Rsum (l ++ m)). rewrite IH. unfold Rsum. simpl. ring. Qed.
Lemma Rsum_cons x l : Rsum (x :: l) = x + Rsum l.
Proof. reflexivity. Qed.
