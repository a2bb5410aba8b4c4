(** Whole simulations: what is on disk after a run. *)
From Coq Require Import Reals Ascii String List Arith Bool ZArith Lia Lra Permutation.
From Verif Require Import WildProofs4 StlModel Prelude VecModel SimModel SimSpec SimProofs SimProofs2 SimProofs3 SimProofs4 GeomModel GeomSpec VecProofs GeomProofs1 WildModel WildSpec BufModel BufSpec BufProofs BufProofs2 RunModel RunSpec RunProofs.
Import ListNotations.
Local Open Scope R_scope.

(** Starting velocities. *)
Lemma norm_zero v : norm v = 0 <-> v = vzero.
Proof.
  split; intros H.
  - unfold norm in H. apply sqrt_eq_0 in H; [|destruct v; unfold dot; simpl; nra]. destruct v as (x, y, z). unfold dot in H. simpl in H. unfold vzero. f_equal; nra.
  - rewrite H. unfold norm, dot, vzero. simpl. replace (0 * 0 + 0 * 0 + 0 * 0) with 0 by ring. apply sqrt_0.
Qed.
Lemma direction_none u : init_direction u = None <-> u = V (1 / 2) (1 / 2) (1 / 2).
Proof.
  unfold init_direction, Reqb. destruct (Req_EM_T _ _) as [E|E].
  - split; auto. intros _. apply norm_zero in E. destruct u as (x, y, z). unfold vsub, smul, vzero in E. simpl in E. inversion E. f_equal; lra.
  - split; [discriminate|]. intros ->. exfalso. apply E. apply norm_zero. unfold vsub, smul, vzero. simpl. f_equal; lra.
Qed.
Lemma direction_some u d : init_direction u = Some d -> norm d = 1 /\ exists k, 0 < k /\ vsub u (V (1 / 2) (1 / 2) (1 / 2)) = smul k d.
Proof.
  unfold init_direction, Reqb. destruct (Req_EM_T _ _) as [E|E]; [discriminate|]. intros H. inversion H; subst d. clear H. set (w := vsub (smul 2 u) (V 1 1 1)) in *.
  assert (P : 0 < norm w) by (pose proof (sqrt_pos (dot w w)); unfold norm in *; lra). split.
  - rewrite norm_smul, Rabs_pos_eq by (left; apply Rinv_0_lt_compat; auto). field. lra.
  - exists (norm w / 2). split; [lra|]. generalize dependent (norm w). intros nw E P. unfold w. destruct u as (x, y, z). unfold vsub, smul. cbn [vx vy vz]. f_equal; field; auto.
Qed.
Lemma velocity_some sp u v : 0 <= sp -> init_velocity sp u = Some v -> norm v = sp /\ exists d, init_direction u = Some d /\ v = smul sp d.
Proof.
  unfold init_velocity. intros P. destruct (init_direction u) as [d|] eqn:E; [|discriminate]. intros H. inversion H; subst. destruct (direction_some u d E) as (N & _).
  rewrite norm_smul, N, Rabs_pos_eq by auto. split; [ring|eauto].
Qed.

(** The checks. *)
Lemma check_ok num batch : check_steps num batch = Ok tt <-> (batch <> 0 /\ batch <= num /\ exists q, num = q * batch)%Z.
Proof.
  unfold check_steps. destruct (num <? batch)%Z eqn:E1; [apply Z.ltb_lt in E1; split; [discriminate|lia]|]. apply Z.ltb_ge in E1.
  destruct (batch =? 0)%Z eqn:E2; [apply Z.eqb_eq in E2; split; [discriminate|lia]|]. apply Z.eqb_neq in E2.
  destruct (num mod batch =? 0)%Z eqn:E3; [apply Z.eqb_eq in E3|apply Z.eqb_neq in E3]; split; auto; try discriminate.
  - intros _. split; auto. split; auto. exists (num / batch)%Z. pose proof (Z.div_mod num batch E2). lia.
  - intros (_ & _ & q & ->). exfalso. apply E3. apply Z.mod_mul. auto.
Qed.
Lemma check_err num batch e : check_steps num batch = Err e <->
  (e = AssertionError /\ (num < batch \/ (batch <> 0 /\ batch <= num /\ ~ exists q, num = q * batch)) \/ e = ZeroDivisionError /\ batch = 0 /\ batch <= num)%Z.
Proof.
  pose proof (check_ok num batch) as C. unfold check_steps in *. destruct (num <? batch)%Z eqn:E1.
  - apply Z.ltb_lt in E1. split; [intros H; inversion H; auto|]. intros [(-> & _)|(_ & _ & L)]; auto. lia.
  - apply Z.ltb_ge in E1. destruct (batch =? 0)%Z eqn:E2.
    + apply Z.eqb_eq in E2. split; [intros H; inversion H; auto|]. intros [(_ & [L|(L & _)])|(-> & _)]; auto; lia.
    + apply Z.eqb_neq in E2. destruct (num mod batch =? 0)%Z eqn:E3.
      * split; [discriminate|]. destruct C as (C & _). destruct (C eq_refl) as (_ & _ & C'). intros [(_ & [L|(_ & _ & L)])|(_ & L & _)]; try lia. contradiction.
      * split; [intros H; inversion H|intros [(-> & _)|(_ & L & _)]; [auto|lia]]. left. split; auto. right. split; auto. split; auto. intros X. destruct C as (_ & C). discriminate C; auto.
Qed.

(** The loop is the batches and their dumps. *)
Definition arrays (b : buffers) : list data * list data * list data := (map DPos (b_pos b), map DNum (b_en b), map DNum (b_hit b)).
Section Loop.
  Context (sc : scene) (fuel : nat) (name_ok : str -> bool) (dir : str) (pat : patterns).
  Definition last_opt {A} (l : list A) (d : option A) : option A := fold_left (fun _ x => Some x) l d.
  Lemma loop_split size : (1 <= size)%nat -> forall n rounds step num pos vel en hits fs last lb fs', num = (step + n * size)%nat ->
    run_loop sc fuel name_ok dir pat rounds size num step pos vel en hits fs last = Ok (lb, fs') ->
    exists bs, run_batches sc fuel size n pos vel en hits = Ok bs /\ run_dumps name_ok dir pat size (map arrays bs) step fs = Ok fs' /\ lb = last_opt bs last.
  Proof.
    intros S1. induction n as [|n IH]; intros [|rounds] step num pos vel en hits fs last lb fs' -> E; cbn [run_loop] in E; try discriminate.
    - replace (step <? step + 0 * size)%nat with false in E by (symmetry; apply Nat.ltb_ge; lia). inversion E; subst. exists []. auto.
    - replace (step <? step + S n * size)%nat with true in E by (symmetry; apply Nat.ltb_lt; lia). cbn [run_batches].
      destruct (simulation_loop sc fuel size pos vel en hits) as [b|] eqn:El; [|discriminate]. cbn [rbind] in E |- *.
      destruct (dump_buffers _ _ _ _ _ _ _ _) as [f1|] eqn:Ed; [|discriminate]. cbn [rbind] in E.
      apply IH in E; [|lia]. destruct E as (bs & E1 & E2 & E3). rewrite E1. cbn [rbind]. exists (b :: bs). split; auto. cbn [map]. unfold arrays at 1. cbn [run_dumps]. rewrite Ed. auto.
  Qed.
  Lemma loop_join size : (1 <= size)%nat -> forall n rounds step num pos vel en hits fs last bs fs', num = (step + n * size)%nat -> (n < rounds)%nat ->
    run_batches sc fuel size n pos vel en hits = Ok bs -> run_dumps name_ok dir pat size (map arrays bs) step fs = Ok fs' ->
    run_loop sc fuel name_ok dir pat rounds size num step pos vel en hits fs last = Ok (last_opt bs last, fs').
  Proof.
    intros S1. induction n as [|n IH]; intros [|rounds] step num pos vel en hits fs last bs fs' -> Lr E1 E2; try lia; cbn [run_loop]; cbn [run_batches] in E1.
    - replace (step <? step + 0 * size)%nat with false by (symmetry; apply Nat.ltb_ge; lia). inversion E1; subst. cbn in E2. inversion E2; subst. auto.
    - replace (step <? step + S n * size)%nat with true by (symmetry; apply Nat.ltb_lt; lia).
      destruct (simulation_loop sc fuel size pos vel en hits) as [b|] eqn:El; [|discriminate]. cbn [rbind] in E1 |- *.
      destruct (run_batches sc fuel size n _ _ _ _) as [bs'|] eqn:Eb; [|discriminate]. cbn [rbind] in E1. inversion E1; subst bs. cbn [map] in E2. unfold arrays at 1 in E2. cbn [run_dumps] in E2.
      destruct (dump_buffers _ _ _ _ _ _ _ _) as [f1|] eqn:Ed; [|discriminate]. cbn [rbind] in E2 |- *. rewrite (IH rounds (step + size)%nat (step + S n * size)%nat _ _ _ _ f1 (Some b) bs' fs'); auto; lia.
  Qed.
End Loop.

(** Lists. *)
Lemma nth_ext' {A} (l : list A) : forall l', length l = length l' -> (forall i a b, nth_error l i = Some a -> nth_error l' i = Some b -> a = b) -> l = l'.
Proof.
  induction l as [|x l IH]; intros [|y l'] L H; try discriminate; auto. f_equal; [apply (H 0%nat); auto|]. apply IH; [simpl in L; lia|]. intros i a b Ea Eb. apply (H (S i)); auto.
Qed.
Lemma all_of {A B} (f : A -> B) l : (forall i b, nth_error l i = Some b -> exists a, b = f a) -> exists m, l = map f m.
Proof.
  induction l as [|x l IH]; intros H; [exists []; auto|]. destruct (H 0%nat x eq_refl) as (a & ->). destruct IH as (m & ->); [intros i; apply (H (S i))|]. exists (a :: m). auto.
Qed.
Lemma suffix_intro {A} (l m : list A) k : (length l + k = length m)%nat -> (forall i a b, nth_error l i = Some a -> nth_error m (k + i) = Some b -> a = b) -> suffix_of l m.
Proof.
  intros L H. exists (firstn k m). rewrite <- (firstn_skipn k m) at 1. f_equal. symmetry. apply nth_ext'; [rewrite skipn_length; lia|].
  intros i a b Ea Eb. rewrite nth_error_skipn_add in Eb. eapply H; eauto.
Qed.
Lemma last_opt_snoc {A} (l : list A) x d : last_opt (l ++ [x]) d = Some x.
Proof. unfold last_opt. rewrite fold_left_app. auto. Qed.
Lemma last_opt_nth {A} (l : list A) d n : length l = S n -> last_opt l d = nth_error l n.
Proof.
  intros L. destruct (exists_last (l := l)) as (l' & x & ->); [intros ->; discriminate|]. rewrite last_opt_snoc. rewrite app_length in L. simpl in L.
  replace n with (length l') by lia. rewrite nth_error_app2, Nat.sub_diag by lia. auto.
Qed.

Lemma joins_intro dir s : ~ (exists t, s = "/"%char :: t) -> joins_to dir s (base dir ++ s).
Proof.
  intros N. unfold joins_to, base. destruct dir as [|c d]; [split; [auto|]; split; [congruence|]; split; congruence|]. cbn [length]. change (0 <? S (length d))%nat with true. cbv iota.
  split; [discriminate|]. split; [contradiction|]. destruct (starts_with (str_of "/") (rev (c :: d))) eqn:E.
  - apply ends_slash in E. split; auto. contradiction.
  - split; [intros _ _ X; apply ends_slash in X; congruence|]. intros _ _ _. rewrite <- app_assoc. auto.
Qed.

Section Disk.
  Context (sc : scene) (Eps : 0 <= eps sc) (Dt : 0 < dt sc) (Sp : 0 <= speed sc) (Surf : forall k, 0 <= surf sc k).
  Context (Unit : forall p v k, target sc p v = Some k -> dot (pnormal sc k) (pnormal sc k) = 1).
  Context (name_ok : str -> bool) (OK : name_ok STEP = true) (dir : str) (ND : ~ In NL dir).
  Context (Lp Le Lh : str) (Fp : file_stem Lp) (Fe : file_stem Le) (Fh : file_stem Lh).
  Context (Dpe : Lp <> Le) (Dph : Lp <> Lh) (Deh : Le <> Lh).
  Let pat := mkPat (step_pattern Lp) (step_pattern Le) (step_pattern Lh).

  Lemma start_ok us vel source : Forall2 (fun u v => init_velocity (speed sc) u = Some v) us vel ->
    arr_ok sc (repeat source (length vel)) vel (repeat 1 (length vel)) (repeat 0 (length (absorbers sc))).
  Proof.
    intros F. unfold arr_ok. rewrite !repeat_length. do 3 (split; [auto|]). split.
    - clear - F Sp. induction F as [|u v us vs H F IH]; constructor; auto. left. apply (velocity_some _ _ _ Sp H).
    - apply Forall_forall. intros e I. apply repeat_spec in I. subst. lra.
  Qed.

  Lemma batch_full size B : rows_ok sc size B -> full size (arrays B).
  Proof. intros (L1 & L2 & L3 & _). unfold full, arrays. cbn [fst snd]. rewrite !map_length. auto. Qed.

  (** The directory lists what was written. *)
  Lemma dump_glob size batches fs : (0 < size)%nat -> Forall (full size) batches -> run_dumps (A := data) name_ok dir pat size batches 0 [] = Ok fs -> glob_of dir fs (dkeys fs).
  Proof.
    intros S0 F E. unfold pat in E. rewrite run_ok in E by auto. inversion E as [Ef]. clear E.
    assert (K : forall k, In k (dkeys fs) -> exists n, ~ (exists t, n = "/"%char :: t) /\ k = base dir ++ n).
    { intros k I. rewrite <- Ef in I. rewrite fold_dset_keys in I. destruct I as [[]|I]. rewrite (@all_writes_keys data dir Lp Le Lh size batches F S0) in I.
      destruct I as (L & n & IL & _ & _ & ->). exists (fname L n). split; auto. apply fname_head. destruct IL as [<-|[<-|[<-|[]]]]; auto. }
    rewrite Ef. clear Ef. assert (X : exists names, dkeys fs = map (fun n => base dir ++ n) names /\ Forall (fun n => ~ (exists t, n = "/"%char :: t)) names).
    { induction (dkeys fs) as [|k ks IH]; [exists []; auto|]. destruct (K k) as (n & N & ->); [left; auto|]. destruct IH as (ns & -> & Fn); [intros q I; apply K; right; auto|]. exists (n :: ns). auto. }
    destruct X as (names & En & Fn). exists (base dir), names. split; [|split].
    - unfold base. destruct (0 <? length dir)%nat; [|auto]. destruct (starts_with _ _); auto. rewrite in_app_iff. intros [I|[I|[]]]; [auto|discriminate I].
    - rewrite En. clear - Fn. induction Fn as [|n ns N Fn IH]; cbn [map]; constructor; auto. split; auto. apply joins_intro. auto.
    - rewrite En. apply Permutation_refl.
  Qed.

  (** Reading the batches of a run. *)
  Lemma read_batches size n bs : (1 <= size)%nat -> (1 <= n)%nat -> forall pos vel en hits fuel, arr_ok sc pos vel en hits -> run_batches sc fuel size n pos vel en hits = Ok bs ->
    exists fs, run_dumps name_ok dir pat size (map arrays bs) 0 [] = Ok fs /\ NoDup (dkeys fs) /\ length fs = (3 * (n * size + 1))%nat /\ glob_of dir fs (dkeys fs) /\
    forall listing, glob_of dir fs listing -> exists ps es hs,
      read_buffers data_shape name_ok fs listing dir pat = Ok (map DPos ps, map DNum es, map DNum hs) /\
      length ps = S (n * size) /\ length es = S (n * size) /\ length hs = S (n * size) /\
      forall j B i, nth_error bs j = Some B -> (i <= size)%nat ->
        nth_error ps (j * size + i) = nth_error (b_pos B) i /\ nth_error es (j * size + i) = nth_error (b_en B) i /\ nth_error hs (j * size + i) = nth_error (b_hit B) i.
  Proof.
    intros S1 N1 pos vel en hits fuel Ao E. destruct (batches_ok sc Eps Dt Surf Unit fuel size S1 n pos vel en hits bs Ao E) as (Ln & Rk & _ & Ch).
    assert (In_ok : forall B, In B bs -> rows_ok sc size B) by (intros B I; apply In_nth_error in I; destruct I as (j & Ej); apply (Rk j B Ej)).
    assert (Rows : forall B, In B bs -> (forall p, In p (b_pos B) -> length p = length pos) /\ (forall e, In e (b_en B) -> length e = length pos) /\ (forall h, In h (b_hit B) -> length h = length hits)).
    { intros B I. apply In_nth_error in I. destruct I as (j & Ej). destruct (Rk j B Ej) as ((L1 & L2 & L3 & _) & Sh).
      assert (X : forall i, (i < S size)%nat -> length (row (b_pos B) i) = length pos /\ length (row (b_en B) i) = length pos /\ length (row (b_hit B) i) = length hits).
      { intros i Li. apply (Sh i); apply row_nth; lia. }
      split; [|split]; intros p I; apply In_nth_error in I; destruct I as (i & Ei); assert (Li : (i < S size)%nat) by (match type of Ei with nth_error ?l _ = _ => assert (Q : nth_error l i <> None) by congruence end; apply nth_error_Some in Q; lia);
        destruct (X i Li) as (Y1 & Y2 & Y3); rewrite row_nth in Ei by lia; inversion Ei; subst; auto. }
    assert (F : Forall (full size) (map arrays bs)).
    { apply Forall_forall. intros x I. apply in_map_iff in I. destruct I as (B & <- & I). apply batch_full. auto. }
    assert (NE : map arrays bs <> []) by (destruct bs; [simpl in Ln; lia|discriminate]).
    destruct (@run_read data data_shape name_ok OK dir Lp Le Lh Fp Fe Fh Dpe Dph Deh size (map arrays bs)) as (fs & Ed & Nd & Lf & Rd); auto.
    { intros b b' a a' I I' J J'. apply in_map_iff in I, I'. destruct I as (B & <- & I), I' as (B' & <- & I'). cbn [arrays fst snd] in J, J'. apply in_map_iff in J, J'. destruct J as (x & <- & J), J' as (x' & <- & J').
      cbn [data_shape]. apply Nat.eqb_eq. destruct (Rows B I) as (X & _), (Rows B' I') as (X' & _). rewrite (X x J), (X' x' J'). auto. }
    { intros b b' a a' I I' J J'. apply in_map_iff in I, I'. destruct I as (B & <- & I), I' as (B' & <- & I'). cbn [arrays fst snd] in J, J'. apply in_map_iff in J, J'. destruct J as (x & <- & J), J' as (x' & <- & J').
      cbn [data_shape]. apply Nat.eqb_eq. destruct (Rows B I) as (_ & X & _), (Rows B' I') as (_ & X' & _). rewrite (X x J), (X' x' J'). auto. }
    { intros b b' a a' I I' J J'. apply in_map_iff in I, I'. destruct I as (B & <- & I), I' as (B' & <- & I'). cbn [arrays fst snd] in J, J'. apply in_map_iff in J, J'. destruct J as (x & <- & J), J' as (x' & <- & J').
      cbn [data_shape]. apply Nat.eqb_eq. destruct (Rows B I) as (_ & _ & X), (Rows B' I') as (_ & _ & X'). rewrite (X x J), (X' x' J'). auto. }
    exists fs. split; [exact Ed|]. split; [exact Nd|]. split; [rewrite map_length, Ln in Lf; exact Lf|]. split; [exact (dump_glob size (map arrays bs) fs S1 F Ed)|]. intros listing G. destruct (Rd listing G) as (dp & de & dh & Er & L1 & L2 & L3 & W1 & W2 & W3). rewrite map_length, Ln in L1, L2, L3.
    (* one of the three buffers *)
    assert (K : forall (X : Type) (mk : list X -> data) (get : buffers -> list (list X)) (l : list data), (forall x y, mk x = mk y -> x = y) ->
      (forall B, In B bs -> length (get B) = S size) -> (forall j B B', nth_error bs j = Some B -> nth_error bs (S j) = Some B' -> nth_error (get B) size = nth_error (get B') 0) ->
      length l = (n * size + 1)%nat -> (forall s a, nth_error l s = Some a -> last_written size (map (fun B => map mk (get B)) bs) s a) ->
      exists m, l = map mk m /\ length m = S (n * size) /\ forall j B i, nth_error bs j = Some B -> (i <= size)%nat -> nth_error m (j * size + i) = nth_error (get B) i).
    { intros X mk get l Inj Lg Chg Ll W. assert (M : exists m, l = map mk m).
      { apply all_of. intros i b Ei. destruct (W i b Ei) as (i0 & j0 & buf & H1 & H2 & _). rewrite nth_error_map in H1. destruct (nth_error bs i0) as [B|]; [|discriminate]. cbn [option_map] in H1. inversion H1; subst.
        rewrite nth_error_map in H2. destruct (nth_error (get B) j0) as [a|]; [|discriminate]. inversion H2; subst. eauto. }
      destruct M as (m & ->). rewrite map_length in Ll. exists m. split; auto. split; [lia|]. intros j B i Ej Li.
      assert (Lj : (j < n)%nat) by (rewrite <- Ln; apply nth_error_Some; congruence).
      destruct (nth_error m (j * size + i)) as [a|] eqn:Em; [|apply nth_error_None in Em; nia].
      assert (Ea : nth_error (map mk m) (j * size + i) = Some (mk a)) by (rewrite nth_error_map, Em; auto). apply W in Ea.
      assert (Z : nth_error (map mk (get B)) i = Some (mk a)).
      { apply (chained_lossless size (map (fun B => map mk (get B)) bs) (j * size + i) (mk a) j i (map mk (get B))); auto.
        - intros i0 b1 b2 H1 H2. rewrite nth_error_map in H1, H2. destruct (nth_error bs i0) as [B1|] eqn:E1; [|discriminate]. destruct (nth_error bs (S i0)) as [B2|] eqn:E2; [|discriminate].
          inversion H1; inversion H2; subst. rewrite !nth_error_map. f_equal. eapply Chg; eauto.
        - intros b I. apply in_map_iff in I. destruct I as (B0 & <- & I). rewrite map_length. auto.
        - rewrite nth_error_map, Ej. auto. }
      rewrite nth_error_map in Z. destruct (nth_error (get B) i) as [x|]; [|discriminate]. cbn [option_map] in Z. inversion Z. f_equal. symmetry. apply Inj. auto. }
    rewrite !map_map in W1, W2, W3.
    destruct (K vec DPos b_pos dp) as (ps & -> & Lps & Gp); auto. { intros x y H; inversion H; auto. } { intros B I. apply (In_ok B I). } { intros j B B' X Y. apply (Ch j B B' X Y). }
    destruct (K R DNum b_en de) as (es & -> & Les & Ge); auto. { intros x y H; inversion H; auto. } { intros B I. apply (In_ok B I). } { intros j B B' X Y. apply (Ch j B B' X Y). }
    destruct (K R DNum b_hit dh) as (hs & -> & Lhs & Gh); auto. { intros x y H; inversion H; auto. } { intros B I. apply (In_ok B I). } { intros j B B' X Y. apply (Ch j B B' X Y). }
    exists ps, es, hs. split; [exact Er|]. do 3 (split; [auto|]). intros j B i Ej Li. split; [|split]; auto.
  Qed.

  Lemma check_nat num size : check_steps (Z.of_nat num) (Z.of_nat size) = Ok tt -> exists n, num = (n * size)%nat /\ (1 <= n)%nat /\ (1 <= size)%nat.
  Proof.
    intros C. apply check_ok in C. destruct C as (C1 & C2 & q & C3). exists (Z.to_nat q). assert (0 < q)%Z by nia. split; [|lia].
    apply Nat2Z.inj. rewrite Nat2Z.inj_mul, Z2Nat.id by lia. auto.
  Qed.

  Lemma run_saved fuel rounds size num source us vel lb fs :
    check_steps (Z.of_nat num) (Z.of_nat size) = Ok tt -> Forall2 (fun u v => init_velocity (speed sc) u = Some v) us vel ->
    run sc fuel name_ok dir pat rounds size num source vel [] = Ok (lb, fs) ->
    NoDup (dkeys fs) /\ length fs = (3 * (num + 1))%nat /\ glob_of dir fs (dkeys fs) /\
    forall listing, glob_of dir fs listing -> exists ps es hs b,
      read_buffers data_shape name_ok fs listing dir pat = Ok (map DPos ps, map DNum es, map DNum hs) /\
      simulated sc source (length us) num ps es hs /\ lb = Some b /\ length (b_pos b) = S size /\ suffix_of (b_pos b) ps /\ suffix_of (b_en b) es /\ suffix_of (b_hit b) hs.
  Proof.
    intros C F E. destruct (check_nat _ _ C) as (n & -> & N1 & S1). pose proof (start_ok us vel source F) as Ao.
    unfold run in E. apply (loop_split sc fuel name_ok dir pat size S1 n) in E; [|lia]. destruct E as (bs & Eb & Ed & ->).
    destruct (read_batches size n bs S1 N1 _ _ _ _ fuel Ao Eb) as (fs' & Ed' & Nd & Lf & Gl & Rd). assert (fs' = fs) by congruence. subst fs'.
    do 3 (split; [assumption|]). intros listing G. destruct (Rd listing G) as (ps & es & hs & Er & L1 & L2 & L3 & Nth).
    destruct (batches_ok sc Eps Dt Surf Unit fuel size S1 n _ _ _ _ bs Ao Eb) as (Ln & Rk & B0 & _).
    assert (Lus : length vel = length us) by (symmetry; eapply forall2_length; eauto).
    destruct (nth_error bs 0) as [b0|] eqn:E0; [|apply nth_error_None in E0; lia]. destruct (B0 b0 eq_refl) as (P0 & Q0 & H0).
    destruct (Nth 0%nat b0 0%nat E0 ltac:(lia)) as (X1 & X2 & X3). cbn [Nat.mul Nat.add] in X1, X2, X3.
    destruct (nth_error bs (n - 1)) as [b|] eqn:En; [|apply nth_error_None in En; lia]. destruct (Rk (n - 1)%nat b En) as ((M1 & M2 & M3 & _) & _).
    exists ps, es, hs, b. split; auto. split.
    { unfold simulated. do 3 (split; [lia|]). rewrite <- Lus. do 3 (split; [congruence|]). intros i p p' e e' h' H1 H2 H3 H4 H5.
      assert (Li : (S i < S (n * size))%nat) by (rewrite <- L1; apply nth_error_Some; congruence).
      assert (Di : i = (i / size * size + i mod size)%nat) by (pose proof (Nat.div_mod i size); lia). pose proof (Nat.mod_upper_bound i size ltac:(lia)) as Mb.
      assert (Lq : (i / size < n)%nat) by (apply Nat.div_lt_upper_bound; nia).
      destruct (nth_error bs (i / size)) as [B|] eqn:EB; [|apply nth_error_None in EB; lia]. destruct (Rk _ B EB) as ((_ & _ & _ & St) & _).
      destruct (Nth _ B (i mod size)%nat EB ltac:(lia)) as (Y1 & Y2 & Y3). destruct (Nth _ B (S (i mod size)) EB ltac:(lia)) as (Z1 & Z2 & Z3).
      replace (i / size * size + S (i mod size))%nat with (S i) in Z1, Z2, Z3 by lia. rewrite <- Di in Y1, Y2, Y3.
      eapply (St (i mod size)%nat); congruence. }
    split; [rewrite (last_opt_nth bs None (n - 1)) by lia; auto|]. split; [auto|].
    split; [|split]; apply (suffix_intro _ _ ((n - 1) * size)); try nia; intros i x y Ex Ey; assert (Li : (i < S size)%nat) by first [rewrite <- M1; apply nth_error_Some; congruence|rewrite <- M2; apply nth_error_Some; congruence|rewrite <- M3; apply nth_error_Some; congruence];
      destruct (Nth _ b i En ltac:(lia)) as (Y1 & Y2 & Y3); congruence.
  Qed.

  Lemma run_ends a n0 fuel rounds size num source us vel :
    0 < a -> (forall k, a <= surf sc k) -> 1 <= eps sc + INR n0 * a -> (n0 + 2 <= fuel)%nat -> (num < rounds)%nat ->
    check_steps (Z.of_nat num) (Z.of_nat size) = Ok tt -> Forall2 (fun u v => init_velocity (speed sc) u = Some v) us vel ->
    exists b fs, run sc fuel name_ok dir pat rounds size num source vel [] = Ok (Some b, fs).
  Proof.
    intros A0 Sa En Fu Ro C F. destruct (check_nat _ _ C) as (n & -> & N1 & S1). pose proof (start_ok us vel source F) as Ao.
    destruct (batches_end sc Eps Dt Surf Unit a n0 fuel A0 Sa En Fu size S1 n _ _ _ _ Ao) as (bs & Eb).
    destruct (read_batches size n bs S1 N1 _ _ _ _ fuel Ao Eb) as (fs & Ed & _).
    destruct (batches_ok sc Eps Dt Surf Unit fuel size S1 n _ _ _ _ bs Ao Eb) as (Ln & _).
    destruct (nth_error bs (n - 1)) as [b|] eqn:E1; [|apply nth_error_None in E1; lia].
    exists b, fs. unfold run. rewrite (loop_join sc fuel name_ok dir pat size S1 n rounds 0 (n * size) _ _ _ _ [] None bs fs); auto; try nia.
    rewrite (last_opt_nth bs None (n - 1)) by lia. rewrite E1. auto.
  Qed.
End Disk.
Lemma velocity_none sp u : init_velocity sp u = None <-> u = V (1 / 2) (1 / 2) (1 / 2).
Proof. rewrite <- direction_none. unfold init_velocity. destruct (init_direction u); split; congruence. Qed.
Lemma right_velocity : init_velocity 1 (V 1 (1 / 2) (1 / 2)) = Some (V 1 0 0).
Proof.
  unfold init_velocity, init_direction, Reqb. set (d := vsub _ _). assert (Ed : d = V 1 0 0) by (unfold d, vsub, smul; simpl; f_equal; lra).
  assert (N : norm d = 1). { rewrite Ed. unfold norm, dot. simpl. replace (1 * 1 + 0 * 0 + 0 * 0) with (1 * 1) by ring. apply sqrt_square. lra. }
  rewrite N. destruct (Req_EM_T 1 0) as [E|E]; [lra|]. rewrite Ed. unfold smul. simpl. rewrite Rinv_1. f_equal. f_equal; lra.
Qed.
