(** Proofs about the results of a simulation. *)
From Coq Require Import Reals List Bool Arith Lia Lra Psatz.
From Verif Require Import Prelude VecModel VecProofs OutModel OutSpec.
Import ListNotations.
Local Open Scope R_scope.

Lemma fold_max l : forall x, (forall y, In y (x :: l) -> y <= fold_left Rmax l x) /\ In (fold_left Rmax l x) (x :: l).
Proof.
  induction l as [|a l IH]; intros x; cbn [fold_left].
  - split; [intros y [<-|[]]; lra|left; auto].
  - destruct (IH (Rmax x a)) as (A & B). split.
    + intros y [<-|[<-|I]].
      * apply Rle_trans with (Rmax x a); [apply Rmax_l|apply A; left; auto].
      * apply Rle_trans with (Rmax x a); [apply Rmax_r|apply A; left; auto].
      * apply A. right. auto.
    + destruct B as [B|B]; [|right; right; auto]. rewrite <- B. unfold Rmax. destruct (Rle_dec x a); [right; left; auto|left; auto].
Qed.
Lemma rmax_spec l : (l = [] /\ rmax l = Err ValueError) \/ exists m, rmax l = Ok m /\ In m l /\ forall y, In y l -> y <= m.
Proof. destruct l as [|x l]; [left; auto|]. right. exists (fold_left Rmax l x). split; auto. destruct (fold_max l x). auto. Qed.

Lemma col_scale m s j : col_total (map (map (fun x => x / s)) m) j = col_total m j / s.
Proof.
  unfold col_total. induction m as [|r m IH]; cbn [map]; [unfold Rsum, Rdiv; simpl; ring|]. rewrite !Rsum_cons, IH.
  replace (nth j (map (fun x => x / s) r) 0) with (nth j r 0 / s); [unfold Rdiv; ring|].
  symmetry. replace 0 with (0 / s) at 1 by (unfold Rdiv; ring). apply (map_nth (fun x => x / s)).
Qed.

Lemma response_spec hits n dt r : impulse_response hits n dt = Ok r ->
  exists s, 0 < s /\ length (ir_cols r) = n /\
    (forall j, (j < n)%nat -> nth_error (ir_cols r) j = Some (map (fun row => nth j row 0 / s) hits)) /\
    (forall j col, nth_error (ir_cols r) j = Some col -> Rsum col <= 1) /\
    (exists j col, nth_error (ir_cols r) j = Some col /\ Rsum col = 1).
Proof.
  unfold impulse_response. set (tot := map (fun j => Rsum (column 0 hits j)) (seq 0 n)).
  destruct (rmax_spec tot) as [(_ & ->)|(s & -> & Is & Ms)]; [discriminate|]. cbn [rbind].
  destruct (Rltb 0 s) eqn:P; [|discriminate]. rbool. intros E. inversion E; subst. cbn [ir_cols]. exists s. split; auto.
  assert (C : forall j, column 0 (map (map (fun x => x / s)) hits) j = map (fun row => nth j row 0 / s) hits).
  { intros j. unfold column. rewrite map_map. apply map_ext. intros row. replace 0 with (0 / s) at 1 by (unfold Rdiv; ring). apply (map_nth (fun x => x / s)). }
  assert (S : forall j, Rsum (map (fun row => nth j row 0 / s) hits) = Rsum (column 0 hits j) / s).
  { intros j. rewrite <- C. apply col_scale. }
  assert (Nn : forall j col, nth_error (map (column 0 (map (map (fun x => x / s)) hits)) (seq 0 n)) j = Some col -> (j < n)%nat /\ col = map (fun row => nth j row 0 / s) hits).
  { intros j col Ec. rewrite nth_error_map in Ec. destruct (nth_error (seq 0 n) j) as [k|] eqn:Ek; [|discriminate].
    assert (Lj : (j < n)%nat) by (rewrite <- (seq_length n 0); apply nth_error_Some; congruence).
    apply nth_error_nth with (d := 0%nat) in Ek. rewrite seq_nth in Ek by auto. simpl in Ek. subst k. inversion Ec; subst. split; auto. }
  split; [rewrite map_length, seq_length; auto|]. split; [|split].
  - intros j L. rewrite nth_error_map. rewrite (nth_error_nth' _ 0%nat) by (rewrite seq_length; auto). rewrite seq_nth by auto. cbn [option_map Nat.add]. rewrite C. auto.
  - intros j col Ec. apply Nn in Ec. destruct Ec as (L & ->). rewrite S. apply Rmult_le_reg_r with s; auto. unfold Rdiv. rewrite Rmult_assoc, Rinv_l by lra.
    rewrite Rmult_1_r, Rmult_1_l. apply Ms. unfold tot. apply in_map_iff. exists j. split; auto. apply in_seq. lia.
  - unfold tot in Is. apply in_map_iff in Is. destruct Is as (j & Ej & Ij). apply in_seq in Ij. exists j, (map (fun row => nth j row 0 / s) hits).
    split; [|rewrite S, Ej; field; lra]. rewrite nth_error_map. rewrite (nth_error_nth' _ 0%nat) by (rewrite seq_length; lia). rewrite seq_nth by lia. cbn [option_map Nat.add]. rewrite C. auto.
Qed.
Lemma response_error hits n dt : (exists e, impulse_response hits n dt = Err e) <-> forall j, (j < n)%nat -> col_total hits j <= 0.
Proof.
  unfold impulse_response. set (tot := map (fun j => Rsum (column 0 hits j)) (seq 0 n)).
  assert (T : forall y, In y tot <-> exists j, (j < n)%nat /\ y = col_total hits j).
  { intros y. unfold tot. rewrite in_map_iff. split; [intros (j & <- & I); apply in_seq in I; exists j; split; [lia|reflexivity]|].
    intros (j & L & ->). exists j. split; [reflexivity|apply in_seq; lia]. }
  destruct (rmax_spec tot) as [(N & ->)|(s & -> & Is & Ms)]; cbn [rbind].
  - split; [|eauto]. intros _ j L. exfalso. assert (I : In (col_total hits j) tot) by (apply T; eauto). rewrite N in I. destruct I.
  - destruct (Rltb 0 s) eqn:P; rbool.
    + split; [intros (e & X); discriminate|]. intros H. exfalso. apply T in Is. destruct Is as (j & L & ->). specialize (H j L). lra.
    + split; [|eauto]. intros _ j L. assert (I : In (col_total hits j) tot) by (apply T; eauto). specialize (Ms _ I). lra.
Qed.
Lemma response_time hits n dt r : impulse_response hits n dt = Ok r -> (2 <= length hits)%nat ->
  length (ir_time r) = length hits /\
  forall i t, nth_error (ir_time r) i = Some t -> t = INR i * dt * (INR (length hits) / INR (length hits - 1)).
Proof.
  unfold impulse_response. destruct (rmax _) as [s|]; [|discriminate]. cbn [rbind]. destruct (Rltb 0 s); [|discriminate].
  intros E L. inversion E; subst. cbn [ir_time]. unfold linspace0. rewrite map_length, seq_length. split; auto.
  intros i t Et. rewrite nth_error_map in Et. destruct (nth_error (seq 0 (length hits)) i) as [k|] eqn:Ek; [|discriminate].
  assert (Li : (i < length hits)%nat) by (rewrite <- (seq_length (length hits) 0); apply nth_error_Some; congruence).
  apply nth_error_nth with (d := 0%nat) in Ek. rewrite seq_nth in Ek by auto. simpl in Ek. subst k. inversion Et; subst.
  destruct (length hits) as [|[|m]] eqn:Z; [lia|lia|]. unfold Rdiv. ring.
Qed.

(** Lines. *)
Section Lines.
  Context {P : Type} (dflt : P).
  Lemma inner_spec (pb : list (list P)) ray_i n : forall b varr index curr,
    fold_left (fun (st : list P * list nat * nat) buf_i =>
            let '(varr, index, curr) := st in
            (varr ++ [nth ray_i (nth buf_i pb []) dflt], index ++ [curr], (curr + 1)%nat))
          (seq b n) (varr, index, curr) =
    (varr ++ map (fun buf_i => nth ray_i (nth buf_i pb []) dflt) (seq b n), index ++ seq curr n, (curr + n)%nat).
  Proof.
    induction n as [|n IH]; intros b varr index curr; cbn [seq fold_left map]; [rewrite !app_nil_r, Nat.add_0_r; auto|].
    rewrite IH, <- !app_assoc. cbn [app]. rewrite Nat.add_1_r. replace (curr + S n)%nat with (S curr + n)%nat by lia. reflexivity.
  Qed.
  Lemma map_seq_nth (pb : list (list P)) (f : list P -> P) : map (fun i => f (nth i pb [])) (seq 0 (length pb)) = map f pb.
  Proof.
    induction pb as [|r pb IH]; [reflexivity|]. cbn [length seq map]. f_equal. rewrite <- seq_shift, map_map. rewrite <- IH. apply map_ext. reflexivity.
  Qed.
  Fixpoint blocks (len start k : nat) : list (list nat) :=
    match k with O => [] | S k' => seq start len :: blocks len (start + len) k' end.
  Lemma outer_spec (pb : list (list P)) n : forall b varr index curr,
    fold_left (fun st ray_i =>
        let '(varr, index, curr) := st in
        fold_left (fun (st : list P * list nat * nat) buf_i =>
            let '(varr, index, curr) := st in
            (varr ++ [nth ray_i (nth buf_i pb []) dflt], index ++ [curr], (curr + 1)%nat))
          (seq 0 (length pb)) (varr, index ++ [length pb], curr))
        (seq b n) (varr, index, curr) =
    (varr ++ concat (map (column dflt pb) (seq b n)), index ++ concat (map (fun l => length pb :: l) (blocks (length pb) curr n)), (curr + n * length pb)%nat).
  Proof.
    induction n as [|n IH]; intros b varr index curr; cbn [seq fold_left map concat blocks]; [rewrite !app_nil_r; f_equal; lia|].
    rewrite inner_spec, IH. rewrite (map_seq_nth pb (fun r => nth b r dflt)). rewrite <- !app_assoc.
    replace (curr + length pb + n * length pb)%nat with (curr + S n * length pb)%nat by (simpl; lia). reflexivity.
  Qed.
  Lemma lines_eq (pb : list (list P)) n : position_buffer_to_lines dflt pb n =
    (concat (map (column dflt pb) (seq 0 n)), concat (map (fun l => length pb :: l) (blocks (length pb) 0 n))).
  Proof. unfold position_buffer_to_lines. rewrite outer_spec. reflexivity. Qed.

  Lemma blocks_decode len start k : decodes (concat (map (fun l => len :: l) (blocks len start k))) (blocks len start k).
  Proof.
    revert start. induction k as [|k IH]; intros start; cbn [blocks map concat]; [constructor|]. cbn [app].
    rewrite <- (seq_length len start) at 1. constructor. auto.
  Qed.
  Lemma decodes_fun l a b : decodes l a -> decodes l b -> a = b.
  Proof.
    intros H. revert b. induction H as [|x rest ls D IH]; intros b Hb.
    - inversion Hb; auto.
    - remember (length x :: x ++ rest) as w eqn:Ew. destruct Hb as [|y rest' ls' D']; [discriminate|]. inversion Ew as [[El Ea]].
      assert (y = x /\ rest' = rest) as (-> & ->).
      { clear - El Ea. revert y El Ea. induction x as [|a x IH]; intros [|b y] El Ea; try discriminate; auto. simpl in *. inversion Ea; subst. destruct (IH y) as (-> & ->); auto. }
      f_equal. auto.
  Qed.
  Lemma blocks_length len start k : length (blocks len start k) = k.
  Proof. revert start. induction k; intros; simpl; auto. Qed.
  Lemma blocks_concat len start k : concat (blocks len start k) = seq start (k * len).
  Proof. revert start. induction k as [|k IH]; intros start; cbn [blocks concat Nat.mul]; [reflexivity|]. rewrite IH, <- seq_app. auto. Qed.
  Lemma blocks_nth len start k i : (i < k)%nat -> nth_error (blocks len start k) i = Some (seq (start + i * len) len).
  Proof.
    revert start i. induction k as [|k IH]; intros start i L; [lia|]. destruct i as [|i]; cbn [blocks nth_error].
    - rewrite Nat.add_0_r. auto.
    - rewrite IH by lia. f_equal. f_equal. simpl. lia.
  Qed.
  Lemma cols_length (pb : list (list P)) b n : length (concat (map (column dflt pb) (seq b n))) = (n * length pb)%nat.
  Proof. revert b. induction n as [|n IH]; intros b; cbn [seq map concat]; [auto|]. rewrite app_length, IH. unfold column. rewrite map_length. auto. Qed.
  Lemma cols_nth (pb : list (list P)) n : forall b k j, (k < n)%nat -> (j < length pb)%nat ->
    nth_error (concat (map (column dflt pb) (seq b n))) (k * length pb + j) = nth_error (column dflt pb (b + k)) j.
  Proof.
    induction n as [|n IH]; intros b k j Lk Lj; [lia|]. cbn [seq map concat].
    assert (C : length (column dflt pb b) = length pb) by (unfold column; apply map_length).
    destruct k as [|k].
    - rewrite nth_error_app1 by (rewrite C; simpl; lia). rewrite Nat.add_0_r. reflexivity.
    - rewrite nth_error_app2 by (rewrite C; simpl; lia). rewrite C. replace (S k * length pb + j - length pb)%nat with (k * length pb + j)%nat by (simpl; lia).
      rewrite IH by lia. f_equal. f_equal. lia.
  Qed.
  Lemma seq_map_nth {A B} (l : list A) (f : nat -> B) (g : A -> B) start : (forall j a, nth_error l j = Some a -> f (start + j)%nat = g a) -> map f (seq start (length l)) = map g l.
  Proof.
    revert start. induction l as [|a l IH]; intros start H; [reflexivity|]. cbn [length seq map]. f_equal.
    - rewrite <- (H 0%nat a eq_refl). f_equal. lia.
    - apply IH. intros j x E. rewrite <- (H (S j) x E). f_equal. lia.
  Qed.
  Lemma draws (pb : list (list P)) n : rect n pb -> draws_rays (concat (map (column dflt pb) (seq 0 n))) (blocks (length pb) 0 n) pb n.
  Proof.
    intros R. split; [apply blocks_length|]. split.
    - intros k line E. assert (Lk : (k < n)%nat) by (rewrite <- (blocks_length (length pb) 0 n); apply nth_error_Some; congruence).
      rewrite blocks_nth in E by auto. inversion E; subst. apply seq_map_nth. intros j row Ej.
      assert (Lj : (j < length pb)%nat) by (apply nth_error_Some; congruence).
      cbn [Nat.add]. rewrite cols_nth by auto. cbn [Nat.add]. unfold column. rewrite nth_error_map, Ej. cbn [option_map].
      assert (Lr : length row = n) by (unfold rect in R; rewrite Forall_forall in R; apply R; eapply nth_error_In; eauto).
      symmetry. apply nth_error_nth'. lia.
    - rewrite blocks_concat, cols_length. auto.
  Qed.
  Lemma pb_to_lines (pb : list (list P)) n verts index : rect n pb -> position_buffer_to_lines dflt pb n = (verts, index) ->
    exists lines, decodes index lines /\ draws_rays verts lines pb n.
  Proof. intros R E. rewrite lines_eq in E. inversion E; subst. exists (blocks (length pb) 0 n). split; [apply blocks_decode|apply draws; auto]. Qed.

  Lemma get_lines_eq (pb : list (list P)) n : forall b verts (lines : list (list nat)) curr,
    fold_left (fun st rn =>
        let '(verts, lines, curr) := st in
        (verts ++ column dflt pb rn, lines ++ [map (fun i => (curr + i)%nat) (seq 0 (length pb))], (curr + length pb)%nat))
        (seq b n) (verts, lines, curr) =
    (verts ++ concat (map (column dflt pb) (seq b n)), lines ++ blocks (length pb) curr n, (curr + n * length pb)%nat).
  Proof.
    induction n as [|n IH]; intros b verts lines curr; cbn [seq fold_left map concat blocks]; [rewrite !app_nil_r; f_equal; lia|].
    rewrite IH, <- !app_assoc. cbn [app]. f_equal; [|simpl; lia]. f_equal. f_equal. f_equal.
    assert (X : forall m c s, map (fun i => (c + i)%nat) (seq s m) = seq (c + s) m).
    { induction m as [|m IHm]; intros c s; [reflexivity|]. cbn [seq map]. rewrite IHm, Nat.add_succ_r. auto. }
    rewrite X, Nat.add_0_r. auto.
  Qed.
  Lemma get_lines_spec (pb : list (list P)) n : rect n pb -> (1 <= n)%nat -> (1 <= length pb)%nat ->
    exists verts lines, get_lines dflt pb n = Ok (verts, lines) /\ draws_rays verts lines pb n.
  Proof.
    intros R Ln Lp. unfold get_lines. rewrite get_lines_eq. cbn [app]. pose proof (cols_length pb 0 n) as L.
    destruct (concat (map (column dflt pb) (seq 0 n))) as [|v vs] eqn:Z; [simpl in L; nia|].
    eexists. eexists. split; [reflexivity|]. rewrite <- Z. apply draws. auto.
  Qed.
  Lemma get_lines_empty (pb : list (list P)) n : n = 0%nat \/ pb = [] -> get_lines dflt pb n = Err ValueError.
  Proof.
    intros H. unfold get_lines. rewrite get_lines_eq. cbn [app]. pose proof (cols_length pb 0 n) as L.
    destruct (concat (map (column dflt pb) (seq 0 n))) as [|v vs] eqn:Z; [reflexivity|]. exfalso. destruct H as [-> | ->]; simpl in L; lia.
  Qed.
End Lines.

(** Energies of the trails. *)
Lemma concat_nth {A} (m : list (list A)) n : rect n m -> forall i k x, (k < n)%nat -> nth_error (concat m) (i * n + k) = Some x ->
  exists row, nth_error m i = Some row /\ nth_error row k = Some x.
Proof.
  intros R. induction R as [|r m Lr R IH]; intros i k x Lk E; [destruct (i * n + k)%nat; discriminate|]. cbn [concat] in E. destruct i as [|i].
  - rewrite nth_error_app1 in E by (simpl; lia). exists r. auto.
  - rewrite nth_error_app2 in E by (simpl; lia). rewrite Lr in E. replace (S i * n + k - n)%nat with (i * n + k)%nat in E by (simpl; lia). simpl. eauto.
Qed.
Lemma frame_last {A} (buf : list A) trail i : (1 <= i <= length buf)%nat -> (1 <= trail)%nat ->
  forall x, nth_error buf (i - 1) = Some x -> nth_error (frame_rows buf trail i) (length (frame_rows buf trail i) - 1) = Some x.
Proof.
  intros L T x E. unfold frame_rows. rewrite firstn_length, skipn_length. set (s := (i - trail)%nat).
  replace (Nat.min (i - s) (length buf - s)) with (i - s)%nat by (unfold s; lia).
  assert (X : forall (l : list A) n k, (k < n)%nat -> nth_error (firstn n l) k = nth_error l k).
  { induction l as [|a l IH]; intros [|n] [|k] Lk; try lia; auto. simpl. apply IH. lia. }
  rewrite X by (unfold s; lia).
  assert (Y : forall (l : list A) n k, nth_error (skipn n l) k = nth_error l (n + k)).
  { induction l as [|a l IH]; intros [|n] k; auto; simpl; [destruct (n + k)%nat, k; auto|apply IH]. }
  rewrite Y. rewrite <- E. f_equal. unfold s. lia.
Qed.
Lemma frame_index {A} (buf : list A) trail i j x : nth_error (frame_rows buf trail i) j = Some x ->
  (i - trail + j < i)%nat /\ nth_error buf (i - trail + j) = Some x.
Proof.
  unfold frame_rows. set (s := (i - trail)%nat). intros E.
  assert (X : forall (l : list A) n k, nth_error (firstn n l) k = Some x -> (k < n)%nat /\ nth_error l k = Some x).
  { induction l as [|a l IH]; intros [|n] [|k] H; try discriminate; simpl in H; [split; [lia|auto]|]. apply IH in H. split; [lia|apply H]. }
  assert (Y : forall (l : list A) n k, nth_error (skipn n l) k = nth_error l (n + k)).
  { induction l as [|a l IH]; intros [|n] k; auto; simpl; [destruct (n + k)%nat, k; auto|apply IH]. }
  apply X in E. rewrite Y in E. split; [lia|apply E].
Qed.
(** With a single ray, or a single row, the energies do match. *)
Lemma trail_energy_single (pos energy : list (list R)) n verts index lines : rect n pos -> rect n energy -> length pos = length energy ->
  (n = 1%nat \/ length pos = 1%nat) ->
  position_buffer_to_lines 0 pos n = (verts, index) -> decodes index lines ->
  forall k line, nth_error lines k = Some line ->
    map (nth_error (trail_energy energy)) line = map (fun row => nth_error row k) energy.
Proof.
  intros Rp Re L O E D k line Ek. rewrite lines_eq in E. inversion E; subst. clear E.
  rewrite (decodes_fun _ _ _ D (blocks_decode _ _ _)) in Ek.
  assert (Lk : (k < n)%nat) by (rewrite <- (blocks_length (length pos) 0 n); apply nth_error_Some; congruence).
  rewrite blocks_nth in Ek by auto. inversion Ek; subst. rewrite L. apply seq_map_nth. intros j row Ej.
  assert (Lj : (j < length energy)%nat) by (apply nth_error_Some; congruence).
  assert (Lr : length row = n) by (unfold rect in Re; rewrite Forall_forall in Re; apply Re; eapply nth_error_In; eauto).
  cbn [Nat.add]. assert (Z : (k * length energy + j = j * n + k)%nat) by (destruct O as [-> | O]; [|rewrite <- L, O in *]; nia).
  rewrite Z. unfold trail_energy. clear - Re Lk Ej. revert j Ej. induction Re as [|r m Lr R IH]; intros [|j] Ej; try discriminate; cbn [concat].
  - inversion Ej; subst. apply nth_error_app1. simpl. lia.
  - simpl in Ej. rewrite nth_error_app2 by (simpl; lia). rewrite <- (IH j Ej). f_equal. simpl. lia.
Qed.
