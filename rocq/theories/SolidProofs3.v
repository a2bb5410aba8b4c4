(** Boxes: the statements about the returned solid. *)
From Coq Require Import Ascii String Reals List Bool Arith Lia Lra Permutation.
From Verif Require Import Prelude TreeModel VecModel VecProofs GeomModel GeomSpec GeomProofs1 GeomProofs2 GeomProofs3 GeomProofs4 TriModel PolyModel PolySpec PolyProofs1 SolidModel SolidSpec SolidProofs1 SolidProofs2.
Import ListNotations.
Local Open Scope R_scope.

Definition box_normals : list vec := [V 0 0 (-1); V 0 (-1) 0; V 1 0 0; V 0 1 0; V (-1) 0 0; V 0 0 1].
Lemma box_outward x y z mv : 0 <= x -> 0 <= y -> 0 <= z -> Forall2 (outward (concat (box_faces x y z mv))) (box_faces x y z mv) box_normals.
Proof.
  intros X Y Z. assert (H : forall q, In q (concat (box_faces x y z mv)) -> vx mv <= vx q <= x + vx mv /\ vy mv <= vy q <= y + vy mv /\ vz mv <= vz q <= z + vz mv).
  { unfold box_faces, corner_of. cbn [concat app]. intros q I. repeat (destruct I as [<-|I]; [cbn [vx vy vz]; lra|]). destruct I. }
  unfold box_faces at 2, corner_of, box_normals. repeat first [apply Forall2_nil|apply Forall2_cons]; intros p q Ip Iq; apply H in Iq; repeat (destruct Ip as [<-|Ip]; [vunf; lra|]); destruct Ip.
Qed.
Lemma box_flat x y z mv name ws : box_fits x y z mv -> validate_name name = Ok name -> box x y z mv name = Ok ws -> exists cs, Forall2 flat_face (all_polys ws) cs.
Proof.
  intros F Hn B. destruct (box_ok x y z mv F name Hn) as (ws' & B' & _ & _ & Ho & Hv & _). rewrite B in B'. apply Ok_inj in B'. subst ws'.
  assert (M : Forall (fun w : wall_t => exists pts0, make_polygon pts0 None None = Ok (snd (snd w))) ws).
  { unfold box in B. repeat match type of B with
      | rbind (named_polygon ?n ?pts) _ = _ => let E := fresh "E" in let q := fresh "q" in destruct (named_polygon n pts) as [q|] eqn:E; [cbn [rbind] in B; apply named_made in E|discriminate]
      | rbind (make_wall ?n ?q) _ = _ => change (make_wall n q) with (@Ok wall_t (n, q)) in B; cbn [rbind] in B end.
    unfold make_solid in B. rewrite Hn in B. cbn [rbind] in B. vm_compute in B. apply Ok_inj in B. subst ws. repeat constructor; cbn [snd]; eexists; eassumption. }
  exists (map (fun p => let '(pts, _, vn) := p in match pts with [] => 0 | q :: _ => dot vn q end) (all_polys ws)).
  unfold outlines, normals in Ho, Hv. unfold box_outlines in Ho. destruct ws as [|w0 [|w1 [|w2 [|w3 [|w4 [|w5 [|w6 ws]]]]]]]; try discriminate. cbn [map] in Ho, Hv. injection Ho as A0 A1 A2 A3 A4 A5. injection Hv as N0 N1 N2 N3 N4 N5.
  unfold all_polys. cbn [map]. rewrite !Forall_cons_iff in M. destruct M as ((r0 & M0) & (r1 & M1) & (r2 & M2) & (r3 & M3) & (r4 & M4) & (r5 & M5) & _).
  assert (G : forall (p : polygon) r n a b c d, make_polygon r None None = Ok p -> p_pts p = [a; b; c; d] -> p_vn p = n -> unit n -> dot n b = dot n a -> dot n c = dot n a -> dot n d = dot n a ->
    flat_face (p_pts p, p_tri p, p_vn p) (match p_pts p with [] => 0 | q :: _ => dot (p_vn p) q end)).
  { intros p r n a b c d Mp Pp Np U E1 E2 E3. destruct (made_triangulated _ _ Mp) as (T & _ & L). rewrite Pp, Np in *. split; auto. split; [intros q [<-|[<-|[<-|[<-|[]]]]]; auto|]. exists r. split; auto. }
  repeat constructor; (eapply G; [eassumption|eassumption|eassumption|unfold unit|..]); unfold box_point; vunf; ring.
Qed.
Lemma box_correct x y z mv name : box_fits x y z mv -> validate_name name = Ok name -> exists ws vol, box x y z mv name = Ok ws /\
  map fst ws = [str_of "floor"; str_of "wall_0"; str_of "wall_1"; str_of "wall_2"; str_of "wall_3"; str_of "ceiling"] /\
  outlines ws = box_faces x y z mv /\ normals ws = box_normals /\ map (fun w => p_area (snd (snd w))) ws = [y * x; x * z; y * z; z * x; z * y; x * y] /\
  solid_volume (all_polys ws) = Ok vol /\ Rabs (vol - x * y * z) <= 1 / 1000000.
Proof.
  intros F Hn. destruct (box_ok x y z mv F name Hn) as (ws & B & Nm & _ & Ho & Hv & Ht & Ha). destruct (box_volume_ok x y z mv ws Ho Ht) as (vol & Hvol).
  exists ws, vol. repeat (split; auto). apply (box_volume x y z mv F ws vol); auto.
Qed.
Lemma box_shared x y z mv : box_fits x y z mv -> closed_surface (box_faces x y z mv) /\ NoDup (concat (map cyc_pairs (box_faces x y z mv))) /\ length (concat (map cyc_pairs (box_faces x y z mv))) = 24%nat.
Proof. intros F. split; [apply (box_closed x y z mv)|split; [apply (box_edges_nodup x y z mv F)|reflexivity]]. Qed.
Lemma far_unit_box : ~ (forall x y z mv, 0 < x -> 0 < y -> 0 < z -> exists ws, box x y z mv (str_of "b") = Ok ws).
Proof.
  intros H. destruct (H 1 1 1 (V 1000000 0 0)) as (ws & E); try lra. rewrite far_box in E; try lra; [discriminate|]. cbn [vx]. rewrite Rabs_pos_eq; lra.
Qed.
Lemma total_sum vols : total_volume vols = fold_right Rplus 0 vols.
Proof. unfold total_volume. rewrite fold_plus, Rplus_0_l. auto. Qed.
