(** How a mesh grows part by part. *)
From Coq Require Import Ascii String Reals List Bool Arith Lia.
From Verif Require Import Prelude VecModel GeomModel TriModel TriProofs MshModel MshSpec ContModel ContSpec.
Import ListNotations.
Local Open Scope nat_scope.

Fixpoint ranges (n : nat) (ls : list nat) : list (list nat) :=
  match ls with [] => [] | l :: r => seq n l :: ranges (n + l) r end.
Definition total (ls : list nat) : nat := fold_right plus 0 ls.
(** A part as vertices and elements. *)
Definition piece : Type := (list vec * list element)%type.
Fixpoint shifted (n : nat) (ps : list piece) : list element :=
  match ps with [] => [] | p :: r => map (map (fun x => x + n)) (snd p) ++ shifted (n + length (fst p)) r end.
Definition vlens (ps : list piece) : list nat := map (fun p => length (fst p)) ps.
Definition elens (ps : list piece) : list nat := map (fun p => length (snd p)) ps.
Definition dsets {B} (d : dict str B) (l : list (str * B)) : dict str B := fold_left (fun d kv => dset d (fst kv) (snd kv)) l d.
Definition assemble (d0 : mesh_data) (us : list str) (ps : list piece) : mesh_data :=
  MD (md_vs d0 ++ concat (map fst ps)) (dsets (md_vown d0) (combine us (ranges (length (md_vs d0)) (vlens ps))))
     (md_els d0 ++ shifted (length (md_vs d0)) ps) (dsets (md_eown d0) (combine us (ranges (length (md_els d0)) (elens ps)))) (md_sizes d0).

Lemma total_app a b : total (a ++ b) = total a + total b.
Proof. unfold total. rewrite fold_right_app. induction a; simpl; [reflexivity|]. lia. Qed.
Lemma ranges_app n a b : ranges n (a ++ b) = ranges n a ++ ranges (n + total a) b.
Proof.
  revert n. induction a as [|x a IH]; intros n; simpl; [f_equal; lia|]. rewrite IH. unfold total. cbn [fold_right]. do 3 f_equal. lia.
Qed.
Lemma shifted_app n a b : shifted n (a ++ b) = shifted n a ++ shifted (n + total (vlens a)) b.
Proof.
  revert n. induction a as [|x a IH]; intros n; simpl; [f_equal; lia|]. rewrite IH, <- app_assoc. unfold total, vlens. cbn [map fold_right]. do 3 f_equal. lia.
Qed.
Lemma ranges_length n ls : length (ranges n ls) = length ls.
Proof. revert n. induction ls; intros; simpl; auto. Qed.
Lemma combine_app {X Y} (a : list X) (b : list Y) a' b' : length a = length b -> combine (a ++ a') (b ++ b') = combine a b ++ combine a' b'.
Proof. revert b. induction a as [|x a IH]; intros [|y b]; simpl; try discriminate; auto. intros E. f_equal. apply IH. lia. Qed.
Lemma concat_length_total ps : length (concat (map fst ps)) = total (vlens ps).
Proof. induction ps as [|p ps IH]; simpl; [reflexivity|]. rewrite app_length, IH. reflexivity. Qed.
Lemma shifted_length n ps : length (shifted n ps) = total (elens ps).
Proof. revert n. induction ps as [|p ps IH]; intros n; simpl; [reflexivity|]. rewrite app_length, map_length, IH. reflexivity. Qed.

Lemma assemble_nil d0 : assemble d0 [] [] = d0.
Proof. unfold assemble, dsets. simpl. rewrite !app_nil_r. destruct d0; reflexivity. Qed.

Lemma assemble_snoc d0 us ps u vs fs : length us = length ps ->
  add_vertices (assemble d0 us ps) u vs fs = if rectangular fs then Ok (assemble d0 (us ++ [u]) (ps ++ [(vs, fs)])) else Err ValueError.
Proof.
  intros L. unfold add_vertices. destruct (rectangular fs); [|reflexivity]. f_equal. unfold assemble. cbn [md_vs md_els md_vown md_eown md_sizes].
  unfold vlens, elens. rewrite !map_app, concat_app. cbn [map concat fst snd]. rewrite app_nil_r, !ranges_app.
  rewrite !combine_app by (rewrite ranges_length, map_length; exact L). unfold dsets. rewrite !fold_left_app. cbn [ranges combine fold_left fst snd].
  rewrite !app_length, concat_length_total, shifted_length, shifted_app. cbn [shifted]. rewrite app_nil_r, !app_assoc. reflexivity.
Qed.

(** The owner of a part. *)
Lemma dsets_other {B} (l : list (str * B)) u : forall d, ~ In u (map fst l) -> dget (dsets d l) u = dget d u.
Proof.
  induction l as [|[k v] l IH]; intros d N; [reflexivity|]. unfold dsets in *. cbn [fold_left fst snd]. rewrite IH.
  - apply dget_dset_other. intros E. apply N. left. auto.
  - intros I. apply N. right. exact I.
Qed.
Lemma dsets_last {B} (a b : list (str * B)) u v d : ~ In u (map fst b) -> dget (dsets d (a ++ (u, v) :: b)) u = Some v.
Proof.
  intros N. unfold dsets. rewrite fold_left_app. cbn [fold_left fst snd]. fold (dsets (dset (fold_left (fun d kv => dset d (fst kv) (snd kv)) a d) u v) b).
  rewrite dsets_other by exact N. apply dget_dset_same.
Qed.
Lemma dsets_fresh {B} (l : list (str * B)) : forall d, NoDup (dkeys d ++ map fst l) -> dsets d l = d ++ l.
Proof.
  induction l as [|[k v] l IH]; intros d N; [rewrite app_nil_r; reflexivity|]. unfold dsets in *. cbn [fold_left fst snd].
  cbn [map fst] in N. assert (K : ~ In k (dkeys d)).
  { intros I. apply NoDup_remove_2 in N. apply N. apply in_or_app. left. exact I. }
  rewrite dset_new by exact K. rewrite IH; [rewrite <- app_assoc; reflexivity|].
  unfold dkeys in *. rewrite map_app. cbn [map fst]. rewrite <- app_assoc. exact N.
Qed.

Lemma split_nth {X} (l : list X) k x : nth_error l k = Some x -> exists a b, l = a ++ x :: b /\ length a = k.
Proof. intros E. destruct (nth_error_split l k E) as (a & b & -> & L). exists a, b. auto. Qed.

Lemma in_combine_fst {X Y} (a : list X) (b : list Y) x : In x (map fst (combine a b)) -> In x a.
Proof. revert b. induction a as [|y a IH]; intros [|z b]; simpl; try tauto. intros [E|I]; auto. right. eapply IH; eauto. Qed.

Lemma nth_app_seq {X} (a b c : list X) : map (nth_error (a ++ b ++ c)) (seq (length a) (length b)) = map Some b.
Proof.
  revert a. induction b as [|x b IH]; intros a; simpl; [reflexivity|].
  rewrite nth_error_app2 by lia. rewrite Nat.sub_diag. cbn [nth_error app]. f_equal.
  specialize (IH (a ++ [x])). rewrite app_length in IH. cbn [length] in IH. rewrite Nat.add_1_r in IH. rewrite <- app_assoc in IH. exact IH.
Qed.

Lemma stands_shift (a b c : list vec) e : stands (a ++ b ++ c) (map (fun x => x + length a) e) b e.
Proof.
  unfold stands. induction e as [|x e IH]; simpl; constructor; auto. intros p E.
  rewrite nth_error_app2 by lia. replace (x + length a - length a) with x by lia.
  rewrite nth_error_app1 by (apply nth_error_Some; congruence). exact E.
Qed.

Lemma forall2_seq {X} (Q : nat -> X -> Prop) l : forall n, (forall i x, nth_error l i = Some x -> Q (n + i) x) -> Forall2 Q (seq n (length l)) l.
Proof.
  induction l as [|x l IH]; intros n H; simpl; constructor.
  - replace n with (n + 0) by lia. apply H. reflexivity.
  - apply IH. intros i y E. replace (S n + i) with (n + S i) by lia. apply H. exact E.
Qed.

Lemma assemble_owns d0 us1 us2 ps1 ps2 u p : length us1 = length ps1 -> length us2 = length ps2 -> ~ In u us2 ->
  owns (assemble d0 (us1 ++ u :: us2) (ps1 ++ p :: ps2)) u (fst p) (snd p).
Proof.
  intros L1 L2 N. unfold owns, assemble. cbn [md_vs md_els md_vown md_eown].
  exists (seq (length (md_vs d0) + total (vlens ps1)) (length (fst p))), (seq (length (md_els d0) + total (elens ps1)) (length (snd p))).
  unfold vlens, elens. rewrite !map_app, !ranges_app, concat_app. cbn [map ranges concat]. fold (vlens ps1) (elens ps1) (vlens ps2) (elens ps2).
  rewrite !combine_app by (rewrite ranges_length; unfold vlens, elens; rewrite map_length; exact L1). cbn [combine].
  split; [|split; [|split]].
  - apply dsets_last. intros I. apply N. exact (in_combine_fst _ _ _ I).
  - apply dsets_last. intros I. apply N. exact (in_combine_fst _ _ _ I).
  - rewrite <- concat_length_total, <- app_length, app_assoc. apply nth_app_seq.
  - apply forall2_seq. intros i e E. exists (map (fun x => x + (length (md_vs d0) + total (vlens ps1))) e). split.
    + rewrite shifted_app. cbn [shifted]. rewrite nth_error_app2 by lia. rewrite nth_error_app2; rewrite shifted_length; [|lia].
      match goal with |- nth_error _ ?k = _ => replace k with i by lia end.
      rewrite nth_error_app1 by (rewrite map_length; apply nth_error_Some; congruence).
      rewrite nth_error_map, E. reflexivity.
    + rewrite <- concat_length_total, <- app_length, app_assoc. apply stands_shift.
Qed.

Lemma concat_ranges n ls : concat (ranges n ls) = seq n (total ls).
Proof. revert n. induction ls as [|l ls IH]; intros n; simpl; [reflexivity|]. rewrite IH. unfold total at 2. cbn [fold_right]. rewrite seq_app. reflexivity. Qed.
Lemma dvals_combine {B} us (l : list B) : length us = length l -> dvals (combine us l : dict str B) = l.
Proof. revert l. induction us as [|u us IH]; intros [|x l]; simpl; try discriminate; auto. intros E. f_equal. apply IH. lia. Qed.
Lemma map_fst_combine {X Y} (us : list X) (l : list Y) : length us = length l -> map fst (combine us l) = us.
Proof. revert l. induction us as [|u us IH]; intros [|x l]; simpl; try discriminate; auto. intros E. f_equal. apply IH. lia. Qed.

Lemma assemble_fresh us ps sz : NoDup us -> length us = length ps ->
  assemble (MD [] [] [] [] sz) us ps = MD (concat (map fst ps)) (combine us (ranges 0 (vlens ps))) (shifted 0 ps) (combine us (ranges 0 (elens ps))) sz.
Proof.
  intros N L. unfold assemble. cbn [md_vs md_els md_vown md_eown md_sizes length app].
  rewrite !dsets_fresh; [reflexivity| |]; cbn [dkeys map app]; rewrite map_fst_combine; auto; rewrite ranges_length; unfold vlens, elens; rewrite map_length; exact L.
Qed.
Lemma assemble_once us ps sz : NoDup us -> length us = length ps -> owned_once (assemble (MD [] [] [] [] sz) us ps).
Proof.
  intros N L. rewrite assemble_fresh by assumption. unfold owned_once. cbn [md_vs md_els md_vown md_eown].
  rewrite !dvals_combine by (rewrite ranges_length; unfold vlens, elens; rewrite map_length; exact L).
  rewrite !concat_ranges, concat_length_total, shifted_length. auto.
Qed.

(** The loop over the elements. *)
Lemma collect_none {A B} (f : A -> result B) l : snd (collect f l) = None <-> exists r, mapM f l = Ok r.
Proof.
  induction l as [|x l IH]; simpl; [split; eauto|]. destruct (f x) as [y|e]; simpl.
  - rewrite IH. split; intros (r & E); [rewrite E; eexists; reflexivity|]. destruct (mapM f l) as [r'|]; [|discriminate]. eauto.
  - split; [discriminate|]. intros (r & E). discriminate.
Qed.
Lemma collect_ok {A B} (f : A -> result B) l r : mapM f l = Ok r -> collect f l = (r, None).
Proof.
  revert r. induction l as [|x l IH]; simpl; intros r E; [congruence|]. destruct (f x) as [y|e]; [|discriminate]. cbn [rbind] in E.
  destruct (mapM f l) as [r'|] eqn:M; [|discriminate]. cbn [rbind] in E. injection E as <-. rewrite (IH _ eq_refl). reflexivity.
Qed.
Lemma collect_err {A B} (f : A -> result B) l e : snd (collect f l) = Some e -> exists l1 x l2, l = l1 ++ x :: l2 /\ mapM f l1 = Ok (fst (collect f l)) /\ f x = Err e.
Proof.
  induction l as [|x l IH]; simpl; [discriminate|]. destruct (f x) as [y|e'] eqn:F; simpl.
  - intros E. destruct (IH E) as (l1 & z & l2 & -> & M & Fz). exists (x :: l1), z, l2. split; [reflexivity|]. split; [|exact Fz]. cbn [mapM]. rewrite F, M. reflexivity.
  - intros E. injection E as ->. exists [], x, l. auto.
Qed.
Lemma recalc_ok size d r : mapM (size (md_vs d)) (md_els d) = Ok r -> recalc size d = (MD (md_vs d) (md_vown d) (md_els d) (md_eown d) r, None).
Proof. intros E. unfold recalc. rewrite (collect_ok _ _ _ E). reflexivity. Qed.
Lemma recalc_none size d d' : recalc size d = (d', None) -> exists r, mapM (size (md_vs d)) (md_els d) = Ok r /\ d' = MD (md_vs d) (md_vown d) (md_els d) (md_eown d) r.
Proof.
  unfold recalc. destruct (collect (size (md_vs d)) (md_els d)) as [l e] eqn:C. intros E. injection E as <- ->.
  destruct (proj1 (collect_none (size (md_vs d)) (md_els d))) as (r & M); [rewrite C; reflexivity|].
  exists r. split; [exact M|]. rewrite (collect_ok _ _ _ M) in C. congruence.
Qed.

Lemma face_area_ok vs f a : face_area vs f = Ok a <-> has_area vs f a.
Proof.
  unfold face_area, has_area. split.
  - destruct f as [|i [|j [|k r]]]; cbn [at_index nth_error rbind]; try (intros; discriminate);
      unfold at_index; repeat (cbn [nth_error rbind]; match goal with |- context [match nth_error ?l ?n with _ => _ end] => destruct (nth_error l n) eqn:?; try discriminate end); cbn [rbind];
      try discriminate. intros E. injection E as <-. exists i, j, k, r. do 3 eexists. repeat (split; [reflexivity || eassumption|]). reflexivity.
  - intros (i & j & k & r & p & q & s & -> & I & J & K & ->). unfold at_index. cbn [nth_error rbind]. rewrite I. cbn [rbind]. rewrite J. cbn [rbind]. rewrite K. reflexivity.
Qed.
Lemma face_area_err vs f e : face_area vs f = Err e -> e = IndexError.
Proof.
  unfold face_area, at_index. intros E.
  repeat (match type of E with context [match ?x with _ => _ end] => destruct x; cbn [rbind] in E end; try congruence).
Qed.
