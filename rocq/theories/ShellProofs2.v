(** The signed number of triangles of a closed mesh in a direction does not depend on the direction. *)
From Coq Require Import Reals List ZArith Bool Arith Lia Lra Psatz Permutation.
From Verif Require Import Prelude VecModel VecProofs GeomModel GeomSpec GeomProofs1 PolySpec WindSpec ShellProofs1.
Import ListNotations.
Local Open Scope R_scope.

Definition trip (x y z : vec) : R := dot x (cross y z).
Definition sg (x : R) : bool := Rltb 0 x.
Definition sgb (a b c d : bool) : Z := if a && b && c && d then 1%Z else if a || b || c || d then 0%Z else (-1)%Z.
Definition sg4 (a b c d : R) : Z := sgb (sg a) (sg b) (sg c) (sg d).
(** Whether the ray from the origin in direction r meets the triangle, and from which side. *)
Definition chi (r x y z : vec) : Z := sg4 (trip r x y) (trip r y z) (trip r z x) (trip x y z).

Lemma sg_opp x : x <> 0 -> sg (- x) = negb (sg x).
Proof. intros N. unfold sg. destruct (Rltb 0 x) eqn:E; [apply Rltb_true in E; apply Rltb_false; lra|apply Rltb_false in E; apply Rltb_true; lra]. Qed.
Lemma sg_mul x y : x <> 0 -> y <> 0 -> sg (x * y) = eqb (sg x) (sg y).
Proof.
  intros X Y. unfold sg. destruct (Rltb 0 x) eqn:E, (Rltb 0 y) eqn:F; cbn [eqb]; try apply Rltb_true in E; try apply Rltb_false in E; try apply Rltb_true in F; try apply Rltb_false in F; try (apply Rltb_true; nra); apply Rltb_false; nra.
Qed.
Lemma sg_three x y z : x <> 0 -> y <> 0 -> z <> 0 -> x + y + z = 0 -> sg x && sg y && sg z = false /\ sg x || sg y || sg z = true.
Proof.
  intros X Y Z E. unfold sg. destruct (Rltb 0 x) eqn:A, (Rltb 0 y) eqn:B, (Rltb 0 z) eqn:C; auto; try apply Rltb_true in A; try apply Rltb_false in A; try apply Rltb_true in B; try apply Rltb_false in B; try apply Rltb_true in C; try apply Rltb_false in C; lra.
Qed.
Definition mix (a b c : bool) : bool := negb (a && b && c) && (a || b || c).
Lemma sg_rel d e f x y z : d <> 0 -> e <> 0 -> f <> 0 -> x <> 0 -> y <> 0 -> z <> 0 -> d * x + e * y + f * z = 0 -> mix (eqb (sg d) (sg x)) (eqb (sg e) (sg y)) (eqb (sg f) (sg z)) = true.
Proof.
  intros D E F X Y Z H. destruct (sg_three (d * x) (e * y) (f * z)) as (A & B); auto; try (apply Rmult_integral_contrapositive; auto). rewrite !sg_mul in A, B by auto. unfold mix. rewrite A, B. auto.
Qed.
Lemma sign_table (d0 d1 d2 d3 oa ob oc ab bc ca : bool) :
  mix (eqb (negb d1) oa) (eqb (negb d2) ob) (eqb (negb d3) oc) = true -> mix (eqb (negb d0) oa) (eqb (negb d2) ab) (eqb (negb d3) (negb ca)) = true ->
  mix (eqb (negb d0) ob) (eqb d1 ab) (eqb (negb d3) bc) = true -> mix (eqb (negb d0) oc) (eqb d1 (negb ca)) (eqb d2 bc) = true ->
  sgb ab bc ca d0 = (sgb ob bc (negb oc) d1 + sgb oc ca (negb oa) d2 + sgb oa ab (negb ob) d3 + sgb d0 (negb d1) (negb d2) (negb d3))%Z.
Proof. destruct d0, d1, d2, d3, oa, ob, oc, ab, bc, ca; cbn; intros A B C D; try discriminate; reflexivity. Qed.

Definition tau (o x y z : vec) : Z := sg4 (trip x y z) (- trip o y z) (- trip o z x) (- trip o x y).
Lemma tetra r o x y z : trip x y z <> 0 -> trip o x y <> 0 -> trip o y z <> 0 -> trip o z x <> 0 -> trip r x y <> 0 -> trip r y z <> 0 -> trip r z x <> 0 -> trip r o x <> 0 -> trip r o y <> 0 -> trip r o z <> 0 ->
  chi r x y z = (chi r o y z + chi r o z x + chi r o x y + tau o x y z)%Z.
Proof.
  intros D0 D3 D1 D2 AB BC CA OA OB OC. unfold chi, tau, sg4.
  replace (trip r z o) with (- trip r o z) by (unfold trip; vunf; ring). replace (trip r x o) with (- trip r o x) by (unfold trip; vunf; ring). replace (trip r y o) with (- trip r o y) by (unfold trip; vunf; ring).
  pose proof (sg_rel (- trip o y z) (- trip o z x) (- trip o x y) (trip r o x) (trip r o y) (trip r o z)) as R1.
  pose proof (sg_rel (- trip x y z) (- trip o z x) (- trip o x y) (trip r o x) (trip r x y) (- trip r z x)) as R2.
  pose proof (sg_rel (- trip x y z) (trip o y z) (- trip o x y) (trip r o y) (trip r x y) (trip r y z)) as R3.
  pose proof (sg_rel (- trip x y z) (trip o y z) (trip o z x) (trip r o z) (- trip r z x) (trip r y z)) as R4.
  assert (NZ : forall k, k <> 0 -> - k <> 0) by (intros k K; lra).
  rewrite !sg_opp in * by auto. apply sign_table; [apply R1|apply R2|apply R3|apply R4]; auto; unfold trip; dvec r; dvec o; dvec x; dvec y; dvec z; vunf; ring.
Qed.
Lemma chi_flip r x y z : trip r x y <> 0 -> trip r y z <> 0 -> trip r z x <> 0 -> trip x y z <> 0 -> chi r x z y = (- chi r x y z)%Z.
Proof.
  intros A B C D. unfold chi, sg4. replace (trip r x z) with (- trip r z x) by (unfold trip; vunf; ring). replace (trip r z y) with (- trip r y z) by (unfold trip; vunf; ring). replace (trip r y x) with (- trip r x y) by (unfold trip; vunf; ring). replace (trip x z y) with (- trip x y z) by (unfold trip; vunf; ring).
  rewrite !sg_opp by auto. destruct (sg (trip r z x)), (sg (trip r y z)), (sg (trip r x y)), (sg (trip x y z)); reflexivity.
Qed.


Lemma Zsum_cons x l : zsum (x :: l) = (x + zsum l)%Z. Proof. reflexivity. Qed.
Lemma Zsum_app l m : zsum (l ++ m) = (zsum l + zsum m)%Z.
Proof. induction l as [|x l IH]; cbn [app]; [cbn; lia|]. rewrite !Zsum_cons, IH. lia. Qed.
Lemma Zsum_perm l m : Permutation l m -> zsum l = zsum m.
Proof. induction 1; rewrite ?Zsum_cons; auto; lia. Qed.
(** The contributions of the edges of a closed mesh cancel. *)
Lemma closed_cancel (g : vec * vec -> Z) es : closed_edges es -> (forall a b, In (a, b) es -> g (b, a) = (- g (a, b))%Z) -> zsum (map g es) = 0%Z.
Proof.
  intros C F. pose proof (Zsum_perm _ _ (Permutation_map g C)) as P. rewrite map_map in P. cbn [fst snd] in P.
  assert (Q : zsum (map (fun x => g (snd x, fst x)) es) = (- zsum (map g es))%Z).
  { clear P C. induction es as [|(a, b) es IH]; [reflexivity|]. cbn [map]. rewrite !Zsum_cons, IH by (intros; apply F; right; auto). cbn [fst snd]. rewrite (F a b) by (left; auto). lia. }
  lia.
Qed.

Definition total (T : list (vec * vec * vec)) (q r : vec) : Z := zsum (map (fun t => let '(a, b, c) := t in chi r (vsub a q) (vsub b q) (vsub c q)) T).
(** Points off all planes of triangles; directions off all planes through q and an edge. *)
Definition gen_pt (T : list (vec * vec * vec)) (q : vec) : Prop := forall a b c, In (a, b, c) T -> trip (vsub a q) (vsub b q) (vsub c q) <> 0.
Definition gen_dir (T : list (vec * vec * vec)) (q r : vec) : Prop := forall a b, In (a, b) (mesh_edges T) -> trip r (vsub a q) (vsub b q) <> 0.
Lemma mesh_edges_cons a b c T : mesh_edges ((a, b, c) :: T) = [(a, b); (b, c); (c, a)] ++ mesh_edges T.
Proof. reflexivity. Qed.
Lemma mesh_edges_in a b c T : In (a, b, c) T -> In (a, b) (mesh_edges T) /\ In (b, c) (mesh_edges T) /\ In (c, a) (mesh_edges T).
Proof. intros I. unfold mesh_edges. repeat split; apply in_concat; exists [(a, b); (b, c); (c, a)]; (split; [apply in_map_iff; exists (a, b, c); auto|simpl; auto]). Qed.
Lemma mesh_edges_inv a b T : In (a, b) (mesh_edges T) -> exists c, In (a, b, c) T \/ In (c, a, b) T \/ In (b, c, a) T.
Proof.
  unfold mesh_edges. intros I. apply in_concat in I. destruct I as (l & Il & I). apply in_map_iff in Il. destruct Il as (((x, y), z) & <- & It). destruct I as [E|[E|[E|[]]]]; inversion E; subst; [exists z|exists x|exists y]; auto.
Qed.
Lemma trip_cross x y z : trip x y z <> 0 -> cross y z <> vzero /\ cross x y <> vzero /\ cross z x <> vzero.
Proof.
  intros N. split; [|split]; intros E; apply N.
  - unfold trip. rewrite E. vunf. ring.
  - replace (trip x y z) with (dot z (cross x y)) by (unfold trip; vunf; ring). rewrite E. vunf. ring.
  - replace (trip x y z) with (dot y (cross z x)) by (unfold trip; vunf; ring). rewrite E. vunf. ring.
Qed.
Lemma cross_swap_zero a b : cross a b = vzero -> cross b a = vzero.
Proof. intros E. replace (cross b a) with (smul (-1) (cross a b)) by (vunf; f_equal; ring). rewrite E. vunf. f_equal; ring. Qed.
Lemma total_split T q r o :
  gen_pt T q -> gen_dir T q r -> (forall a b, In (a, b) (mesh_edges T) -> trip o (vsub a q) (vsub b q) <> 0) -> (forall a b, In (a, b) (mesh_edges T) -> trip r o (vsub a q) <> 0) ->
  total T q r = (zsum (map (fun e => chi r o (vsub (fst e) q) (vsub (snd e) q)) (mesh_edges T)) + zsum (map (fun t => let '(a, b, c) := t in tau o (vsub a q) (vsub b q) (vsub c q)) T))%Z.
Proof.
  induction T as [|((a, b), c) T IH]; intros G D O Q; [reflexivity|]. rewrite mesh_edges_cons in *. unfold total in *. cbn [map app]. rewrite !Zsum_cons. cbn [fst snd].
  rewrite IH.
  - assert (G0 := G a b c (or_introl eq_refl)). rewrite (tetra r o (vsub a q) (vsub b q) (vsub c q)); [lia|exact G0| | | | | | | | |]; solve [apply O; simpl; auto | apply D; rewrite mesh_edges_cons; simpl; auto | apply (Q _ b); simpl; auto | apply (Q _ c); simpl; auto | apply (Q _ a); simpl; auto].
  - intros x y z I. apply G. right. auto.
  - intros x y I. apply D. rewrite mesh_edges_cons. apply in_or_app. auto.
  - intros x y I. apply O. apply in_or_app. auto.
  - intros x y I. apply (Q x y). apply in_or_app. auto.
Qed.
Lemma total_dir T q r r' : closed_edges (mesh_edges T) -> gen_pt T q -> gen_dir T q r -> gen_dir T q r' -> total T q r = total T q r'.
Proof.
  intros C G D D'.
  set (N := flat_map (fun e => [(cross (vsub (fst e) q) (vsub (snd e) q), 0); (cross (vsub (fst e) q) r, 0); (cross (vsub (fst e) q) r', 0)]) (mesh_edges T)).
  destruct (generic_point [] N vzero) as (o & _ & O).
  - apply pos_nil.
  - intros f I. unfold N in I. apply in_flat_map in I. destruct I as ((a, b) & Ie & I). cbn [fst snd] in I. destruct I as [<-|[<-|[<-|[]]]]; cbn [fst].
    + apply (trip_cross r). apply D. auto.
    + intros E. destruct (trip_cross _ _ _ (D a b Ie)) as (_ & X & _). apply X. apply cross_swap_zero. auto.
    + intros E. destruct (trip_cross _ _ _ (D' a b Ie)) as (_ & X & _). apply X. apply cross_swap_zero. auto.
  - assert (O1 : forall a b, In (a, b) (mesh_edges T) -> trip o (vsub a q) (vsub b q) <> 0).
    { intros a b I. assert (X := O (cross (vsub a q) (vsub b q), 0)). unfold trip. rewrite dot_comm. unfold aff in X. cbn [fst snd] in X. rewrite Rplus_0_r in X. apply X. unfold N. apply in_flat_map. exists (a, b). split; auto. simpl. auto. }
    assert (O2 : forall a b, In (a, b) (mesh_edges T) -> trip r o (vsub a q) <> 0).
    { intros a b I. assert (X := O (cross (vsub a q) r, 0)). replace (trip r o (vsub a q)) with (dot (cross (vsub a q) r) o) by (unfold trip; vunf; ring). unfold aff in X. cbn [fst snd] in X. rewrite Rplus_0_r in X. apply X. unfold N. apply in_flat_map. exists (a, b). split; auto. simpl. auto. }
    assert (O3 : forall a b, In (a, b) (mesh_edges T) -> trip r' o (vsub a q) <> 0).
    { intros a b I. assert (X := O (cross (vsub a q) r', 0)). replace (trip r' o (vsub a q)) with (dot (cross (vsub a q) r') o) by (unfold trip; vunf; ring). unfold aff in X. cbn [fst snd] in X. rewrite Rplus_0_r in X. apply X. unfold N. apply in_flat_map. exists (a, b). split; auto. simpl. auto. }
    assert (Bk : forall a b, In (a, b) (mesh_edges T) -> In (b, a) (mesh_edges T)).
    { intros a b I. apply (Permutation_in _ (Permutation_sym C)). apply in_map_iff. exists (a, b). auto. }
    assert (Cn : forall s, gen_dir T q s -> (forall a b, In (a, b) (mesh_edges T) -> trip s o (vsub a q) <> 0) -> zsum (map (fun e => chi s o (vsub (fst e) q) (vsub (snd e) q)) (mesh_edges T)) = 0%Z).
    { intros s Ds Os. apply closed_cancel; auto. intros a b I. cbn [fst snd]. apply chi_flip; [apply (Os a b); auto|apply Ds; auto| |apply O1; auto].
      intros E. apply (Os b a (Bk a b I)). replace (trip s o (vsub b q)) with (- trip s (vsub b q) o) by (unfold trip; vunf; ring). lra. }
    rewrite (total_split T q r o), (total_split T q r' o), !Cn by auto. reflexivity.
Qed.
