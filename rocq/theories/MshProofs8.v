(** Volumes of whole meshes; two tetrahedra as an example. *)
From Coq Require Import Ascii String Reals List Bool Arith Lia Lra Sorted.
From Verif Require Import Prelude TreeModel MeshModel VecModel GeomModel TriModel PolyModel VecProofs GeomSpec GeomProofs1 GeomProofs2 MshModel MshSpec MshProofs MshProofs2 MshProofs3 MshProofs4 MshProofs5 MshProofs6 MshProofs7.
Import ListNotations.

Lemma purge_ragged {A} (vs : list A) els e1 e2 : In e1 els -> In e2 els -> length e1 <> length e2 -> purge_mesh vs els = Err ValueError.
Proof.
  intros I1 I2 N. unfold purge_mesh. destruct (rectangular els) eqn:R; auto. exfalso. apply N. apply (proj1 (rectangular_spec els) R); auto.
Qed.
Lemma four_moved {A} (vs vs' : list A) e e' : points_of vs e = points_of vs' e' -> four_points vs e = four_points vs' e'.
Proof.
  intros P. destruct (four_err vs e) as [(l & L)|L].
  - rewrite L. symmetry. apply four_spec. apply four_spec in L. eapply corners_moved; eauto.
  - rewrite L. destruct (four_err vs' e') as [(l & L')|L']; [|congruence]. exfalso.
    apply four_spec in L'. assert (Q : corners4 vs e l) by (eapply corners_moved; [symmetry; exact P|auto]). apply four_spec in Q. congruence.
Qed.
Lemma total_moved vs vs' els els' : map (points_of vs) els = map (points_of vs') els' -> total_volume vs els = total_volume vs' els'.
Proof.
  intros H. unfold total_volume. f_equal. revert els' H. induction els as [|e els IH]; intros [|e' els'] H; try discriminate; auto.
  cbn [map] in H. injection H as H1 H2. cbn [mapM]. rewrite (IH els') by auto. unfold element_volume at 1 3. rewrite (four_moved vs vs' e e') by auto. reflexivity.
Qed.
Lemma total_spec vs els v : total_volume vs els = Ok v <-> exists l, Forall2 (has_volume vs) els l /\ v = fold_right Rplus 0%R l.
Proof.
  unfold total_volume. assert (S : forall l a, fold_left Rplus l a = (a + fold_right Rplus 0 l)%R).
  { induction l as [|x l IH]; intros a; cbn; [lra|]. rewrite IH. lra. }
  split.
  - intros H. destruct (mapM (element_volume vs) els) as [l|] eqn:M; cbn [rbind] in H; [|discriminate]. injection H as <-. exists l.
    split; [|rewrite S; lra]. apply mapM_forall2 in M. clear -M. induction M; constructor; auto. apply volume_spec. auto.
  - intros (l & F & ->). assert (M : mapM (element_volume vs) els = Ok l).
    { apply mapM_forall2. clear -F. induction F; constructor; auto. apply volume_spec. auto. }
    rewrite M. cbn [rbind]. rewrite S. f_equal. lra.
Qed.

(** ** Two tetrahedra *)
Definition duo : list vec := map fan_point (seq 0 5).
Definition duo_elements : list element := [[0; 1; 2; 3]; [1; 2; 3; 4]].
Definition duo_boundary : list vec := map fan_point (seq 1 4).
Lemma duo_corners : all_corners duo duo_elements.
Proof. apply corners_map. intros e [<-|[<-|[]]]; eexists; apply four_spec; reflexivity. Qed.
Lemma duo_neighbors : find_neighbors_wrap duo duo_elements = Ok [[1]; [0]].
Proof.
  destruct (wrap_spec exactly exactly_equivalence duo duo_elements) as (nb & N & W).
  - apply duo_corners.
  - discriminate.
  - intros e1 e2 [<-|[<-|[]]] [<-|[<-|[]]]; reflexivity.
  - intros p q P Q. apply in_map_iff in P, Q. destruct P as (a & <- & _), Q as (b & <- & _). rewrite fan_same. split; intros E.
    + apply Nat.eqb_eq in E. subst. unfold close_points. rewrite !Rminus_diag_eq, Rabs_R0 by reflexivity. unfold GEOM_ATOL. lra.
    + apply Nat.eqb_neq in E. pose proof (fan_far a b E) as F. unfold far_points, GEOM_ATOL in *. lra.
  - intros e l I L. apply four_spec in L. unfold duo in L. rewrite four_map in L.
    destruct I as [<-|[<-|[]]].
    + assert (F : four_points (seq 0 5) [0; 1; 2; 3] = Ok [0; 1; 2; 3]) by reflexivity. rewrite F in L. assert (l = map fan_point [0; 1; 2; 3]) as -> by congruence. cbn [map].
      repeat (constructor; [repeat (constructor; [rewrite fan_same; reflexivity|]); constructor|]). constructor.
    + assert (F : four_points (seq 0 5) [1; 2; 3; 4] = Ok [1; 2; 3; 4]) by reflexivity. rewrite F in L. assert (l = map fan_point [1; 2; 3; 4]) as -> by congruence. cbn [map].
      repeat (constructor; [repeat (constructor; [rewrite fan_same; reflexivity|]); constructor|]). constructor.
  - rewrite W. unfold duo in N. rewrite (neighbors_map fan_point Nat.eqb exactly fan_same) in N.
    + vm_compute in N. injection N as <-. reflexivity.
    + intros e [<-|[<-|[]]]; eexists; apply four_spec; reflexivity.
Qed.
Lemma isin_fan n ns : existsb (exactly (fan_point n)) (map fan_point ns) = existsb (Nat.eqb n) ns.
Proof. apply any_map. apply fan_same. Qed.
Lemma where_fan ns ms : where_in exactly (map fan_point ns) (map fan_point ms) = map fst (filter (fun x => existsb (Nat.eqb (snd x)) ms) (enumerate ns)).
Proof.
  unfold where_in, isin, enumerate. rewrite map_length. generalize (seq 0 (length ns)) as ks. induction ns as [|n ns IH]; intros [|k ks]; auto.
  cbn [map combine filter snd]. rewrite isin_fan. destruct (existsb (Nat.eqb n) ms); cbn [map]; rewrite IH; reflexivity.
Qed.
Lemma duo_invalid : get_invalid_points duo duo_elements (where_in exactly duo duo_boundary) (minimum_tetra_volume 1) = Ok [].
Proof.
  unfold duo, duo_boundary. rewrite where_fan. set (rs := map fst _). assert (R : rs = [1; 2; 3; 4]) by reflexivity. rewrite R. clear rs R. fold duo.
  destruct (invalid_spec duo duo_elements [1; 2; 3; 4] (minimum_tetra_volume 1) duo_corners) as (l & L & _ & M).
  - intros i Li N. destruct i as [|i]; [exists [0; 1; 2; 3]; split; left; auto|]. exfalso. apply N. cbn in Li. cbn [In]. lia.
  - rewrite L. f_equal. destruct l as [|i l]; auto. exfalso. destruct (proj1 (M i) (or_introl eq_refl)) as (Li & N & B).
    assert (i = 0) as -> by (cbn in Li; cbn [In] in N; lia).
    assert (E : forall e v, In e duo_elements -> In 0 e -> has_volume duo e v -> v = tetrahedron_volume (V 0 0 0) (V 1 0 0) (V 0 1 0) (V 0 0 1)).
    { intros e v [<-|[<-|[]]] I H; [|cbn in I; lia]. apply volume_spec in H. unfold element_volume in H. cbn in H. congruence. }
    pose proof (volume_bounds (V 0 0 0) (V 1 0 0) (V 0 1 0) (V 0 0 1)) as Vb. pose proof (min_volume_bounds 1 ltac:(lra)) as Mb.
    replace (det3 (V 0 0 0) (V 1 0 0) (V 0 1 0) (V 0 0 1)) with 1%R in Vb by (unfold det3, dot, cross, vsub; cbn; ring). rewrite Rabs_R1 in Vb.
    destruct B as [(e1 & e2 & v1 & v2 & I1 & I2 & J1 & J2 & V1 & V2 & G)|(e & v & I & J & V1 & G)].
    + rewrite (E e1 v1), (E e2 v2) in G by auto. lra.
    + rewrite (E e v) in G by auto. lra.
Qed.
Lemma duo_purge : purge_mesh duo duo_elements = Ok (duo, duo_elements).
Proof.
  apply purge_same; [reflexivity|]. intros i L. cbn in L. destruct i as [|i]; [exists [0; 1; 2; 3]; split; [left|left]; auto|].
  exists [1; 2; 3; 4]. split; [right; left; auto|]. cbn [In]. lia.
Qed.
Lemma duo_mesh n : tetrahedralize exactly (fun _ _ => Ok duo_elements) (fun _ => Ok true) (S n) duo_boundary duo 1 duo = Ok (duo, duo_elements).
Proof.
  unfold tetrahedralize. cbn [mesh_loop rbind].
  assert (Z : numbers_where (zero_volume duo) duo_elements = Ok []).
  { assert (T : exists ns, numbers_where (zero_volume duo) duo_elements = Ok ns).
    { unfold numbers_where. destruct (mapM_some (zero_volume duo) duo_elements) as (bs & ->); [|cbn [rbind]; eauto].
      intros e I. unfold zero_volume. destruct (volume_total duo e (duo_corners e I)) as (v & ->). cbn [rbind]. eauto. }
    destruct T as (ns & T). rewrite T. f_equal. eapply zero_none; eauto. }
  rewrite Z. cbn [rbind]. rewrite drop_none, duo_purge. cbn [rbind fst snd]. rewrite duo_invalid. cbn [rbind].
  assert (O : numbers_where (outside (fun _ => Ok true) duo) duo_elements = Ok []) by reflexivity.
  cbn [fst snd]. rewrite O. cbn [rbind]. rewrite drop_none, duo_purge. cbn [rbind]. unfold final_checks.
  replace (length (nodup eq_dec (concat duo_elements)) =? length duo) with true by reflexivity. cbn [negb].
  replace (forallb (fun p => isin exactly p duo) duo) with true.
  2: { symmetry. apply forallb_forall. intros p P. apply existsb_exists. exists p. split; auto. apply exactly_eq. reflexivity. }
  cbn [negb]. unfold count_neighbors. rewrite duo_neighbors. cbn [rbind map length forallb Nat.ltb Nat.leb andb negb].
  unfold duo_elements at 1. cbn [combine map]. unfold interior_count, duo, duo_boundary. rewrite where_fan. reflexivity.
Qed.
