(** Proofs: reading any directory of saved states. *)
From Coq Require Import Ascii String List Arith Bool Lia.
From Verif Require Import Prelude MeshModel IoModel StlModel WildModel WildSpec WildProofs4 BufModel BufSpec BufProofs BufProofs2.
Import ListNotations.

Lemma steps_spec (D : dict str (dict str nat)) steps : mapM (fun pd => match dget (snd pd) STEP with Some n => Ok n | None => Err KeyError end) D = Ok steps -> Forall2 (fun pd n => dget (snd pd) STEP = Some n) D steps.
Proof.
  revert steps. induction D as [|pd D IH]; intros steps E; cbn [mapM] in E; [inversion E; constructor|]. destruct (dget (snd pd) STEP) as [n|] eqn:G; [|discriminate]. cbn [rbind] in E. destruct (mapM _ D) as [ns|] eqn:M; [|discriminate]. cbn [rbind] in E. inversion E; subst. constructor; auto.
Qed.
Lemma list_max_in l : l <> [] -> In (list_max l) l.
Proof.
  induction l as [|x l IH]; intros N; [congruence|]. cbn [list_max fold_right]. change (fold_right Nat.max 0 l) with (list_max l). destruct l as [|y l]; [left; cbn; lia|]. destruct (Nat.max_spec x (list_max (y :: l))) as [(L & ->)|(L & ->)]; [right; apply IH; discriminate|left; auto].
Qed.
Lemma forall2_in {A B} (R : A -> B -> Prop) l l' : Forall2 R l l' -> (forall x, In x l -> exists y, In y l' /\ R x y) /\ (forall y, In y l' -> exists x, In x l /\ R x y).
Proof.
  induction 1 as [|x y l l' H F (I1 & I2)]; [split; intros ? []|]. split; intros z [<-|I].
  - exists y. split; [left; auto|auto].
  - destruct (I1 z I) as (w & Iw & Rw). exists w. split; [right; auto|auto].
  - exists x. split; [left; auto|auto].
  - destruct (I2 z I) as (w & Iw & Rw). exists w. split; [right; auto|auto].
Qed.
Lemma max_spec D m : max_step D = Ok m -> length D <> 0 -> (forall path wd, In (path, wd) D -> exists k, dget wd STEP = Some k /\ k < m) /\ exists path wd k, In (path, wd) D /\ dget wd STEP = Some k /\ m = S k.
Proof.
  unfold max_step. destruct (mapM _ D) as [steps|] eqn:M; [|discriminate]. cbn [rbind]. intros E L. inversion E; subst. apply steps_spec in M. pose proof (forall2_in _ _ _ M) as (I1 & I2). split.
  - intros path wd I. destruct (I1 _ I) as (k & Ik & Ek). exists k. split; [exact Ek|]. pose proof (list_max_le steps (list_max steps)) as (Q & _). specialize (Q (le_n _)). rewrite Forall_forall in Q. specialize (Q k Ik). lia.
  - assert (N : steps <> []) by (intros ->; inversion M; subst; apply L; auto). destruct (I2 _ (list_max_in _ N)) as ((path, wd) & Ip & Ep). exists path, wd, (list_max steps). split; auto. split; [exact Ep|lia].
Qed.
Lemma max_of D m : (forall path wd, In (path, wd) D -> exists k, dget wd STEP = Some k /\ k < m) -> (exists path wd k, In (path, wd) D /\ dget wd STEP = Some k /\ m = S k) -> max_step D = Ok m /\ (length D =? 0) = false.
Proof.
  intros A (path & wd & k & I & E & ->). split; [|destruct D; [destruct I|reflexivity]]. unfold max_step.
  assert (T : exists steps, mapM (fun pd => match dget (snd pd) STEP with Some n => Ok n | None => Err KeyError end) D = Ok steps).
  { clear I E. induction D as [|(p, w) D IH]; [eexists; reflexivity|]. cbn [mapM snd]. destruct (A p w (or_introl eq_refl)) as (n & -> & _). cbn [rbind]. destruct IH as (s & ->); [intros; apply (A path0 wd0); right; auto|]. cbn [rbind]. eauto. }
  destruct T as (steps & T). rewrite T. cbn [rbind]. f_equal. apply steps_spec in T. destruct (forall2_in _ _ _ T) as (I1 & I2). destruct (I1 _ I) as (n & In_ & En). cbn [snd] in En. assert (n = k) by congruence. subst n.
  assert (list_max steps <= k). { apply list_max_le. apply Forall_forall. intros n J. destruct (I2 n J) as ((p, w) & Ip & Ep). destruct (A _ _ Ip) as (k' & Ek & Lk). cbn [snd] in Ep. assert (n = k') by congruence. lia. }
  pose proof (list_max_le steps (list_max steps)) as (Q & _). specialize (Q (le_n _)). rewrite Forall_forall in Q. specialize (Q k In_). lia.
Qed.
Lemma mapM_nth {A B} (f : A -> result B) l ys : mapM f l = Ok ys -> length ys = length l /\ forall n y, nth_error ys n = Some y -> exists x, nth_error l n = Some x /\ f x = Ok y.
Proof.
  revert ys. induction l as [|x l IH]; intros ys E; cbn [mapM] in E.
  - inversion E; subst. split; auto. intros [|n] y H; discriminate.
  - destruct (f x) as [y|] eqn:F; [|discriminate]. cbn [rbind] in E. destruct (mapM f l) as [zs|] eqn:M; [|discriminate]. cbn [rbind] in E. inversion E; subst. destruct (IH zs eq_refl) as (L & G). split; [simpl; auto|].
    intros [|n] z H; cbn [nth_error] in *; [inversion H; subst; eauto|auto].
Qed.
Lemma mapM_fails {A B} (f : A -> result B) e l : (forall x, In x l -> (exists y, f x = Ok y) \/ f x = Err e) -> (exists x, In x l /\ f x = Err e) -> mapM f l = Err e.
Proof.
  induction l as [|x l IH]; intros H (z & I & E); [destruct I|]. cbn [mapM]. destruct (H x (or_introl eq_refl)) as [(y & F)|F]; rewrite F; cbn [rbind]; auto.
  rewrite IH; auto; [intros; apply H; right; auto|]. destruct I as [<-|I]; [congruence|eauto].
Qed.
Section Read.
  Context {A : Type} (same_shape : A -> A -> bool) (name_ok : str -> bool).
  Lemma nth_seq0 n m k : nth_error (seq 0 m) n = Some k -> k = n /\ n < m.
  Proof.
    intros H. assert (L : n < m) by (rewrite <- (seq_length m 0); apply nth_error_Some; congruence). split; auto. apply nth_error_nth with (d := 0) in H. rewrite seq_nth in H by auto. lia.
  Qed.
  Lemma read_sound (fs : dict str A) listing dir pat pos enr hit : read_buffers same_shape name_ok fs listing dir pat = Ok (pos, enr, hit) ->
    length pos = length enr /\ length enr = length hit /\ forall file buf, In (file, buf) [(position_file pat, pos); (energy_file pat, enr); (hits_file pat, hit)] ->
      listed_up_to name_ok listing file (length buf) /\
      (forall n a, nth_error buf n = Some a -> exists path, step_path name_ok dir file n path /\ dget fs path = Some a) /\
      (forall a b, nth_error buf 0 = Some a -> In b buf -> same_shape a b = true).
  Proof.
    unfold read_buffers. destruct (new_wpath name_ok (position_file pat)) as [wp|] eqn:Wp; [|discriminate]. cbn [rbind]. destruct (new_wpath name_ok (energy_file pat)) as [we|] eqn:We; [|discriminate]. cbn [rbind]. destruct (new_wpath name_ok (hits_file pat)) as [wh|] eqn:Wh; [|discriminate]. cbn [rbind].
    destruct (dict_values wp listing) as [Dp|] eqn:Ep; [|discriminate]. cbn [rbind]. destruct (dict_values we listing) as [De|] eqn:Ee; [|discriminate]. cbn [rbind]. destruct (dict_values wh listing) as [Dh|] eqn:Eh; [|discriminate]. cbn [rbind].
    destruct (Nat.eqb_spec (length Dp) 0) as [|Np]; [discriminate|]. destruct (Nat.eqb_spec (length De) 0) as [|Ne]; [discriminate|]. destruct (Nat.eqb_spec (length Dh) 0) as [|Nh]; [discriminate|].
    destruct (max_step Dp) as [m|] eqn:Mp; [|discriminate]. cbn [rbind]. destruct (max_step De) as [me|] eqn:Me; [|discriminate]. cbn [rbind]. destruct (max_step Dh) as [mh|] eqn:Mh; [|discriminate]. cbn [rbind].
    destruct (Nat.eqb_spec m me) as [<-|]; [|discriminate]. destruct (Nat.eqb_spec m mh) as [<-|]; [|discriminate]. cbn [andb].
    destruct (mapM _ (seq 0 m)) as [rows|] eqn:M; [|discriminate]. cbn [rbind]. apply mapM_nth in M. destruct M as (L & G). rewrite seq_length in L.
    pose proof (max_spec _ _ Mp Np) as (P1 & P2). pose proof (max_spec _ _ Me Ne) as (Q1 & Q2). pose proof (max_spec _ _ Mh Nh) as (R1 & R2).
    assert (Lp : length pos = length (map (fun r : A * A * A => fst (fst r)) rows) -> True) by auto.
    assert (H : forall X : result (list A * list A * list A), X = Ok (pos, enr, hit) -> X = match rows with [] => Ok ([], [], []) | (p0, e0, h0) :: _ => if forallb (fun r => same_shape p0 (fst (fst r)) && same_shape e0 (snd (fst r)) && same_shape h0 (snd r)) rows then Ok (map (fun r => fst (fst r)) rows, map (fun r => snd (fst r)) rows, map snd rows) else Err ValueError end ->
      pos = map (fun r => fst (fst r)) rows /\ enr = map (fun r => snd (fst r)) rows /\ hit = map snd rows /\ forall p0 e0 h0 r, nth_error rows 0 = Some (p0, e0, h0) -> In r rows -> same_shape p0 (fst (fst r)) = true /\ same_shape e0 (snd (fst r)) = true /\ same_shape h0 (snd r) = true).
    { intros X E ->. clear - E. destruct rows as [|((p0, e0), h0) rows]; [inversion E; subst; repeat split; auto; destruct H0|]. destruct (forallb _ _) eqn:F; [|discriminate]. inversion E; subst. split; [reflexivity|]. split; [reflexivity|]. split; [reflexivity|]. rewrite forallb_forall in F.
      intros pp ee hh r H I. cbn [nth_error] in H. inversion H; subst. specialize (F _ I). rewrite !andb_true_iff in F. tauto. }
    intros E. destruct (H _ E eq_refl) as (-> & -> & -> & S). clear H E Lp. rewrite !map_length, L. split; auto. split; auto.
    assert (Row : forall n p e h, nth_error rows n = Some (p, e, h) -> (exists path, fill wp dir [(STEP, decimal n)] = Ok path /\ dget fs path = Some p) /\ (exists path, fill we dir [(STEP, decimal n)] = Ok path /\ dget fs path = Some e) /\ (exists path, fill wh dir [(STEP, decimal n)] = Ok path /\ dget fs path = Some h)).
    { intros n p e h N. destruct (G n _ N) as (k & Nk & F). apply nth_seq0 in Nk. destruct Nk as (-> & _). unfold load_step, np_load in F.
      destruct (fill wp dir _) as [p1|]; [|discriminate]. cbn [rbind] in F. destruct (dget fs p1) as [a1|] eqn:D1; [|discriminate]. cbn [rbind] in F.
      destruct (fill we dir _) as [p2|]; [|discriminate]. cbn [rbind] in F. destruct (dget fs p2) as [a2|] eqn:D2; [|discriminate]. cbn [rbind] in F.
      destruct (fill wh dir _) as [p3|]; [|discriminate]. cbn [rbind] in F. destruct (dget fs p3) as [a3|] eqn:D3; [|discriminate]. cbn [rbind] in F. inversion F; subst. eauto 10. }
    intros file buf [I|[I|[I|[]]]]; inversion I; subst; clear I; rewrite map_length.
    - split; [exists wp, Dp; auto|]. split.
      + intros n a N. rewrite nth_error_map in N. destruct (nth_error rows n) as [((p, e), h)|] eqn:Nr; [|discriminate]. cbn in N. inversion N; subst. destruct (Row _ _ _ _ Nr) as ((path & X1 & X2) & _). exists path. split; [exists wp; auto|auto].
      + intros a b N I. rewrite nth_error_map in N. destruct (nth_error rows 0) as [((p, e), h)|] eqn:Nr; [|discriminate]. cbn in N. inversion N; subst. apply in_map_iff in I. destruct I as (r & <- & I). apply (S _ _ _ r eq_refl I).
    - split; [exists we, De; auto|]. split.
      + intros n a N. rewrite nth_error_map in N. destruct (nth_error rows n) as [((p, e), h)|] eqn:Nr; [|discriminate]. cbn in N. inversion N; subst. destruct (Row _ _ _ _ Nr) as (_ & (path & X1 & X2) & _). exists path. split; [exists we; auto|auto].
      + intros a b N I. rewrite nth_error_map in N. destruct (nth_error rows 0) as [((p, e), h)|] eqn:Nr; [|discriminate]. cbn in N. inversion N; subst. apply in_map_iff in I. destruct I as (r & <- & I). apply (S _ _ _ r eq_refl I).
    - split; [exists wh, Dh; auto|]. split.
      + intros n a N. rewrite nth_error_map in N. destruct (nth_error rows n) as [((p, e), h)|] eqn:Nr; [|discriminate]. cbn in N. inversion N; subst. destruct (Row _ _ _ _ Nr) as (_ & _ & (path & X1 & X2)). exists path. split; [exists wh; auto|auto].
      + intros a b N I. rewrite nth_error_map in N. destruct (nth_error rows 0) as [((p, e), h)|] eqn:Nr; [|discriminate]. cbn in N. inversion N; subst. apply in_map_iff in I. destruct I as (r & <- & I). apply (S _ _ _ r eq_refl I).
  Qed.
  Lemma read_lengths_differ (fs : dict str A) listing dir pat m1 m2 m3 : listed_up_to name_ok listing (position_file pat) m1 -> listed_up_to name_ok listing (energy_file pat) m2 -> listed_up_to name_ok listing (hits_file pat) m3 ->
    ~ (m1 = m2 /\ m2 = m3) -> read_buffers same_shape name_ok fs listing dir pat = Err AssertionError.
  Proof.
    intros (wp & Dp & Wp & Ep & P1 & P2) (we & De & We & Ee & Q1 & Q2) (wh & Dh & Wh & Eh & R1 & R2) N. unfold read_buffers. rewrite Wp, We, Wh. cbn [rbind]. rewrite Ep, Ee, Eh. cbn [rbind].
    destruct (max_of _ _ P1 P2) as (-> & ->), (max_of _ _ Q1 Q2) as (-> & ->), (max_of _ _ R1 R2) as (-> & ->). cbn [rbind]. destruct (Nat.eqb_spec m1 m2), (Nat.eqb_spec m2 m3); cbn [andb]; auto. tauto.
  Qed.
  Lemma read_missing (fs : dict str A) listing dir Lp Le Lh m k L path : file_stem Lp -> file_stem Le -> file_stem Lh ->
    let pat := mkPat (step_pattern Lp) (step_pattern Le) (step_pattern Lh) in
    (forall L, In L [Lp; Le; Lh] -> listed_up_to name_ok listing (step_pattern L) m) -> In L [Lp; Le; Lh] -> k < m -> step_path name_ok dir (step_pattern L) k path -> dget fs path = None ->
    read_buffers same_shape name_ok fs listing dir pat = Err FileNotFoundError.
  Proof.
    intros Fp Fe Fh pat H IL Lk (w & Ew & Ef) Dn. destruct (H Lp) as (wp & Dp & Wp & Ep & P1 & P2); [simpl; auto|]. destruct (H Le) as (we & De & We & Ee & Q1 & Q2); [simpl; auto|]. destruct (H Lh) as (wh & Dh & Wh & Eh & R1 & R2); [simpl; auto|].
    unfold read_buffers, pat. cbn [position_file energy_file hits_file]. rewrite Wp, We, Wh. cbn [rbind]. rewrite Ep, Ee, Eh. cbn [rbind].
    destruct (max_of _ _ P1 P2) as (-> & ->), (max_of _ _ Q1 Q2) as (-> & ->), (max_of _ _ R1 R2) as (-> & ->). cbn [rbind]. rewrite Nat.eqb_refl. cbn [andb].
    assert (Ld : forall F w0 n, file_stem F -> new_wpath name_ok (step_pattern F) = Ok w0 -> (exists a, load_step fs w0 dir n = Ok a) \/ load_step fs w0 dir n = Err FileNotFoundError).
    { intros F w0 n HF Hw. unfold load_step. rewrite (fill_step name_ok F w0 dir n HF Hw). cbn [rbind]. unfold np_load. match goal with |- context [dget ?f ?k] => destruct (dget f k) as [a|] end; [left; exists a; reflexivity|right; reflexivity]. }
    assert (Bad : load_step fs wp dir k = Err FileNotFoundError \/ load_step fs we dir k = Err FileNotFoundError \/ load_step fs wh dir k = Err FileNotFoundError).
    { destruct IL as [<-|[<-|[<-|[]]]]; [left|right; left|right; right]; unfold load_step; match goal with |- context [fill ?v _ _] => assert (v = w) as -> by congruence end; rewrite Ef; cbn [rbind]; unfold np_load; rewrite Dn; auto. }
    rewrite (mapM_fails _ FileNotFoundError); auto.
    - intros n _. destruct (Ld Lp wp n Fp Wp) as [(a & ->)| ->]; cbn [rbind]; auto. destruct (Ld Le we n Fe We) as [(b & ->)| ->]; cbn [rbind]; auto. destruct (Ld Lh wh n Fh Wh) as [(c & ->)| ->]; cbn [rbind]; eauto.
    - exists k. split; [apply in_seq; lia|]. destruct (Ld Lp wp k Fp Wp) as [(a & Xa)|Xa]; rewrite Xa; cbn [rbind]; auto. destruct (Ld Le we k Fe We) as [(b & Xb)|Xb]; rewrite Xb; cbn [rbind]; auto. destruct (Ld Lh wh k Fh Wh) as [(c & Xc)|Xc]; rewrite Xc; cbn [rbind]; auto.
      destruct Bad as [B|[B|B]]; congruence.
  Qed.
  Lemma read_no_files (fs : dict str A) listing dir pat : (forall file, In file [position_file pat; energy_file pat; hits_file pat] -> exists wp D, new_wpath name_ok file = Ok wp /\ dict_values wp listing = Ok D) ->
    (exists file wp, In file [position_file pat; energy_file pat; hits_file pat] /\ new_wpath name_ok file = Ok wp /\ dict_values wp listing = Ok []) -> read_buffers same_shape name_ok fs listing dir pat = Err RuntimeError.
  Proof.
    intros H (file & w & I & W & E). destruct (H (position_file pat)) as (wp & Dp & Wp & Ep); [simpl; auto|]. destruct (H (energy_file pat)) as (we & De & We & Ee); [simpl; auto|]. destruct (H (hits_file pat)) as (wh & Dh & Wh & Eh); [simpl; auto|].
    unfold read_buffers. rewrite Wp, We, Wh. cbn [rbind]. rewrite Ep, Ee, Eh. cbn [rbind].
    assert (X : length Dp = 0 \/ length De = 0 \/ length Dh = 0). { destruct I as [<-|[<-|[<-|[]]]]; [left|right; left|right; right]; match goal with |- length ?D = 0 => replace D with (@nil (str * dict str nat)) by congruence; auto end. }
    destruct X as [-> | [-> | ->]]; cbn [Nat.eqb]; auto; repeat match goal with |- context [if ?c then _ else _] => destruct c; auto end.
  Qed.
End Read.
