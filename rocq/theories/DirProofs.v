(** Proofs for the file system: what mkdir makes. *)
From Coq Require Import Ascii String List Arith Bool Lia.
From Verif Require Import Prelude TreeModel MeshModel IoModel StlModel WildModel WildSpec WildProofs WildProofs2 WildProofs3 WildProofs4 DirModel DirSpec.
Import ListNotations.

Lemma in_above q p : In q (above p) <-> leads_above q p.
Proof.
  unfold above. rewrite in_map_iff. split.
  - intros (k & <- & I). apply in_seq in I. exists (nth k p []), (skipn (S k) p).
    assert (L : k < length p) by lia. clear I. revert k L. induction p as [|x p IH]; intros k L; simpl in L; [lia|].
    destruct k; simpl; auto. f_equal. apply IH. lia.
  - intros (x & r & ->). exists (length q). split.
    + rewrite firstn_app, Nat.sub_diag, firstn_all. simpl. apply app_nil_r.
    + apply in_seq. rewrite app_length. simpl. lia.
Qed.

Lemma leads_cases q p : leads_to q p <-> q = p \/ leads_above q p.
Proof.
  split.
  - intros ([|x r] & ->); [left; symmetry; apply app_nil_r|right; exists x, r; auto].
  - intros [->|(x & r & ->)]; [exists []; symmetry; apply app_nil_r|exists (x :: r); auto].
Qed.
Lemma leads_snoc q p x : leads_above q (p ++ [x]) <-> leads_to q p.
Proof.
  split.
  - intros (y & r & E). destruct (exists_last (l := y :: r)) as (r' & z & E'); [discriminate|].
    rewrite E', app_assoc in E. apply app_inj_tail in E. destruct E as (-> & _). exists r'. auto.
  - intros (r & ->). rewrite <- app_assoc. destruct r; simpl; eexists; eexists; reflexivity.
Qed.
Lemma not_above_self p : ~ leads_above p p.
Proof. intros (x & r & E). apply (f_equal (@length str)) in E. rewrite app_length in E. simpl in E. lia. Qed.
Lemma leads_trans a b c : leads_above a b -> leads_to b c -> leads_above a c.
Proof. intros (x & r & ->) (s & ->). exists x, (r ++ s). rewrite <- app_assoc. auto. Qed.
Lemma leads_comparable a b p : leads_to a p -> leads_to b p -> leads_to a b \/ leads_above b a.
Proof.
  intros (r & ->) (s & E). revert b E. induction a as [|x a IH]; intros b E.
  - left. exists b. auto.
  - destruct b as [|y b]; [right; exists x, a; auto|]. simpl in E. inversion E; subst.
    destruct (IH b H1) as [(u & ->)|(u & v & ->)]; [left; exists u; auto|right; exists u, v; auto].
Qed.
Lemma leads_dec q p : {leads_to q p} + {~ leads_to q p}.
Proof.
  revert p. induction q as [|x q IH]; intros p; [left; exists p; auto|].
  destruct p as [|y p]; [right; intros (r & E); discriminate|]. destruct (eq_dec x y) as [->|N].
  - destruct (IH p) as [H|H]; [left; destruct H as (r & ->); exists r; auto|right; intros (r & E); inversion E; subst; apply H; exists r; auto].
  - right. intros (r & E). inversion E; congruence.
Defined.

Lemma kind_fixed fs p : (p = [] \/ p = [str_of "/"]) -> kind_of fs p = Some IsDir.
Proof. intros [->| ->]; reflexivity. Qed.
Lemma kind_listed fs p : p <> [] -> p <> [str_of "/"] -> kind_of fs p = dget fs p.
Proof.
  intros A B. unfold kind_of. rewrite (eqb_neq p []) by auto. rewrite (eqb_neq p [str_of "/"]) by auto. reflexivity.
Qed.
Lemma fixed_dec (p : list str) : {p = [] \/ p = [str_of "/"]} + {p <> [] /\ p <> [str_of "/"]}.
Proof.
  destruct (eq_dec p []) as [->|A]; [left; auto|]. destruct (eq_dec p [str_of "/"]) as [->|B]; [left; auto|]. right. auto.
Defined.

Lemma is_dir_true fs p : is_dir fs p = true <-> kind_of fs p = Some IsDir.
Proof. unfold is_dir. destruct (kind_of fs p) as [[|]|]; split; intros; auto; discriminate. Qed.
Lemma is_dir_false fs p : is_dir fs p = false <-> kind_of fs p <> Some IsDir.
Proof. rewrite <- is_dir_true. destruct (is_dir fs p); split; intros; auto; congruence. Qed.

(** Everything above something known is a directory. *)
Lemma above_dirs fs p q : fs_ok fs -> kind_of fs p <> None -> leads_above q p -> kind_of fs q = Some IsDir.
Proof.
  intros (ND & N1 & N2 & U) K L. destruct (fixed_dec p) as [[->| ->]|(A & B)].
  - destruct L as (x & r & E). destruct q; discriminate.
  - destruct L as (x & r & E). destruct q as [|y q]; [reflexivity|]. destruct q; discriminate.
  - rewrite kind_listed in K by auto. apply (U p); auto.
    destruct (in_dec eq_dec p (dkeys fs)) as [I|NI]; auto. apply dget_None in NI. contradiction.
Qed.

Lemma kind_dset fs p q : p <> [] -> p <> [str_of "/"] ->
  kind_of (dset fs p IsDir) q = if eq_dec q p then Some IsDir else kind_of fs q.
Proof.
  intros A B. destruct (eq_dec q p) as [->|N].
  - rewrite kind_listed by auto. apply dget_dset_same.
  - destruct (fixed_dec q) as [F|(C & D)]; [rewrite !kind_fixed by auto; auto|].
    rewrite !kind_listed by auto. apply dget_dset_other. auto.
Qed.

Lemma not_fixed fs p : kind_of fs p = None -> p <> [] /\ p <> [str_of "/"].
Proof. intros K. destruct (fixed_dec p) as [F|F]; auto. rewrite kind_fixed in K by auto. discriminate. Qed.

Lemma add_dir fs p : fs_ok fs -> kind_of fs p = None -> (forall q, leads_above q p -> kind_of fs q = Some IsDir) ->
  fs_ok (dset fs p IsDir) /\ made fs (dset fs p IsDir) p.
Proof.
  intros (ND & N1 & N2 & U) K D. destruct (not_fixed fs p K) as (A & B). split.
  - split; [apply NoDup_dset; auto|]. split; [|split].
    + intros I. apply dkeys_dset in I. destruct I as [E|I]; [congruence|auto].
    + intros I. apply dkeys_dset in I. destruct I as [E|I]; [congruence|auto].
    + intros r q I L. rewrite kind_dset by auto. destruct (eq_dec q p) as [E|N]; auto.
      apply dkeys_dset in I. destruct I as [->|I]; auto. apply (U r); auto.
  - split; intros q L; rewrite kind_dset by auto; destruct (eq_dec q p) as [E|N]; auto.
    + apply D. apply leads_cases in L. destruct L; [contradiction|auto].
    + exfalso. apply L. subst. apply leads_cases. auto.
Qed.

(** One attempt. *)
Lemma os_mkdir_missing fs p q : leads_above q p -> kind_of fs q = None ->
  (forall r, leads_to r p -> kind_of fs r <> Some IsFile) -> os_mkdir fs p = Failed OsNotFound.
Proof.
  intros L K N. unfold os_mkdir. destruct (find _ (above p)) as [r|] eqn:F.
  - apply find_some in F. destruct F as (I & E). apply negb_true_iff, is_dir_false in E.
    assert (Kr : kind_of fs r <> Some IsFile) by (apply N; apply leads_cases; right; apply in_above; auto).
    destruct (kind_of fs r) as [[|]|]; congruence.
  - exfalso. apply in_above in L. apply (find_none _ _ F) in L. apply negb_false_iff, is_dir_true in L. congruence.
Qed.
Lemma os_mkdir_ready fs p : (forall q, leads_above q p -> kind_of fs q = Some IsDir) ->
  os_mkdir fs p = match kind_of fs p with None => Done (dset fs p IsDir) | Some _ => Failed OsExists end.
Proof.
  intros D. unfold os_mkdir. destruct (find _ (above p)) as [r|] eqn:F; auto.
  apply find_some in F. destruct F as (I & E). apply in_above, D, is_dir_true in I. rewrite I in E. discriminate.
Qed.
Lemma os_mkdir_under fs p q : fs_ok fs -> leads_above q p -> kind_of fs q = Some IsFile -> os_mkdir fs p = Failed OsNotADir.
Proof.
  intros W L K. unfold os_mkdir. destruct (find _ (above p)) as [r|] eqn:F.
  - assert (H := F). apply find_some in H. destruct H as (I & E). apply negb_true_iff, is_dir_false in E.
    destruct (kind_of fs r) as [[|]|] eqn:Kr; [congruence|auto|].
    exfalso. apply in_above in I.
    assert (C : leads_above q r \/ leads_to r q).
    { destruct (leads_comparable r q p) as [C|C]; auto; apply leads_cases; auto. }
    destruct C as [C|C].
    + (* q is a non-directory before r *)
      unfold above in F.
      assert (G : forall n m, find (fun q => negb (is_dir fs q)) (map (fun k => firstn k p) (seq n m)) = Some r ->
                  forall k, n <= k < length r -> n + m <= S (length p) -> is_dir fs (firstn k p) = true).
      { clear - I. intros n m. revert n. induction m as [|m IH]; intros n F k B T; [discriminate|].
        cbn [seq map find] in F. destruct (is_dir fs (firstn n p)) eqn:E; cbn [negb] in F.
        - destruct (Nat.eq_dec k n) as [->|N]; auto. apply (IH (S n)); auto; lia.
        - inversion F. subst r. rewrite firstn_length in B. lia. }
      destruct C as (x & s & ->). destruct I as (y & u & ->).
      specialize (G 0 _ F (length q)). rewrite !app_length in G. simpl in G.
      rewrite <- app_assoc, firstn_app, Nat.sub_diag, firstn_all in G. simpl in G. rewrite app_nil_r in G.
      assert (G' : is_dir fs q = true) by (apply G; rewrite ?app_length; simpl; lia).
      apply is_dir_true in G'. congruence.
    + apply leads_cases in C. destruct C as [->|C]; [congruence|].
      rewrite (above_dirs fs q r W) in Kr; auto; congruence.
  - exfalso. apply in_above in L. apply (find_none _ _ F) in L. apply negb_false_iff, is_dir_true in L. congruence.
Qed.

(** ** Making a path *)
Lemma mkdir_rev_made r : forall fs, fs_ok fs -> (forall q, leads_to q (rev r) -> kind_of fs q <> Some IsFile) ->
  exists fs', mkdir_rev fs r = Done fs' /\ fs_ok fs' /\ made fs fs' (rev r).
Proof.
  induction r as [|x r IH]; intros fs W N.
  - exists fs. split; [reflexivity|]. split; auto. split; auto. intros q (s & E). destruct q; [reflexivity|discriminate].
  - assert (S : {forall q, leads_above q (rev (x :: r)) -> kind_of fs q = Some IsDir} + {exists q, leads_above q (rev (x :: r)) /\ kind_of fs q = None}).
    { destruct (find (fun q => negb (is_dir fs q)) (above (rev (x :: r)))) as [q|] eqn:F.
      - right. apply find_some in F. destruct F as (I & E). apply in_above in I. exists q. split; auto.
        apply negb_true_iff, is_dir_false in E. assert (K := N q). rewrite leads_cases in K.
        destruct (kind_of fs q) as [[|]|]; auto; exfalso; [congruence|apply K; auto].
      - left. intros q L. apply in_above in L. apply (find_none _ _ F) in L. apply negb_false_iff, is_dir_true in L. auto. }
    cbn [mkdir_rev]. destruct S as [D|(q & L & K)].
    + rewrite os_mkdir_ready by auto. destruct (kind_of fs (rev (x :: r))) as [[|]|] eqn:Kp.
      * exists fs. unfold exist_ok. rewrite (proj2 (is_dir_true fs (rev (x :: r))) Kp). split; auto. split; auto. split; auto.
        intros q L. apply leads_cases in L. destruct L as [->|L]; auto.
      * exfalso. apply (N (rev (x :: r))); auto. apply leads_cases. auto.
      * destruct (add_dir fs (rev (x :: r)) W Kp D) as (W' & M). eexists. split; [reflexivity|]. auto.
    + rewrite (os_mkdir_missing fs (rev (x :: r)) q) by auto. cbn [rev] in *.
      destruct (IH fs W) as (fs1 & E1 & W1 & M1 & M2).
      { intros s Ls. apply N. apply leads_cases. right. apply leads_snoc. auto. }
      rewrite E1. assert (Kp : kind_of fs (rev r ++ [x]) = None).
      { destruct (kind_of fs (rev r ++ [x])) eqn:Kp; auto. exfalso.
        rewrite (above_dirs fs (rev r ++ [x]) q W) in K; auto; congruence. }
      assert (NL : ~ leads_to (rev r ++ [x]) (rev r)).
      { intros (s & C). apply (f_equal (@length str)) in C. rewrite !app_length in C. simpl in C. lia. }
      assert (K1 : kind_of fs1 (rev r ++ [x]) = None) by (rewrite M2; auto).
      assert (D1 : forall q, leads_above q (rev r ++ [x]) -> kind_of fs1 q = Some IsDir) by (intros s Ls; apply M1; apply leads_snoc in Ls; auto).
      rewrite os_mkdir_ready, K1 by auto.
      destruct (add_dir fs1 (rev r ++ [x]) W1 K1 D1) as (W' & M3 & M4).
      exists (dset fs1 (rev r ++ [x]) IsDir). split; auto. split; auto. split; auto.
      intros s Ls. rewrite M4 by auto. apply M2. intros C. apply Ls. apply leads_cases. right. apply leads_snoc. auto.
Qed.

Lemma path_mkdir_made fs p : fs_ok fs -> (forall q, leads_to q p -> kind_of fs q <> Some IsFile) ->
  exists fs', path_mkdir fs p = Done fs' /\ fs_ok fs' /\ made fs fs' p.
Proof. intros W N. destruct (mkdir_rev_made (rev p) fs W) as (fs' & E & R); rewrite ?rev_involutive in *; eauto. Qed.

Lemma path_mkdir_under fs p q : fs_ok fs -> leads_above q p -> kind_of fs q = Some IsFile -> path_mkdir fs p = Failed OsNotADir.
Proof.
  intros W L K. unfold path_mkdir. destruct (rev p) as [|x r] eqn:R.
  - apply (f_equal (@rev str)) in R. rewrite rev_involutive in R. subst. destruct L as (y & s & E). destruct q; discriminate.
  - cbn [mkdir_rev]. rewrite <- R, rev_involutive, (os_mkdir_under fs p q) by auto. unfold exist_ok.
    destruct (is_dir fs p) eqn:D; auto. apply is_dir_true in D. rewrite (above_dirs fs p q W) in K; auto; congruence.
Qed.
Lemma path_mkdir_file fs p : fs_ok fs -> kind_of fs p = Some IsFile -> path_mkdir fs p = Failed OsExists.
Proof.
  intros W K. unfold path_mkdir. destruct (rev p) as [|x r] eqn:R.
  - apply (f_equal (@rev str)) in R. rewrite rev_involutive in R. subst. discriminate.
  - cbn [mkdir_rev]. rewrite <- R, rev_involutive, os_mkdir_ready, K.
    + unfold exist_ok. destruct (is_dir fs p) eqn:D; auto. apply is_dir_true in D. congruence.
    + intros q L. apply (above_dirs fs p q W); auto. congruence.
Qed.
Lemma path_mkdir_dir fs p : fs_ok fs -> kind_of fs p = Some IsDir -> path_mkdir fs p = Done fs.
Proof.
  intros W K. unfold path_mkdir. destruct (rev p) as [|x r] eqn:R.
  - reflexivity.
  - cbn [mkdir_rev]. rewrite <- R, rev_involutive, os_mkdir_ready, K.
    + unfold exist_ok. rewrite (proj2 (is_dir_true fs p) K). auto.
    + intros q L. apply (above_dirs fs p q W); auto. congruence.
Qed.

(** ** mkdir *)
Lemma file_above_dec fs p : {exists q, leads_to q p /\ kind_of fs q = Some IsFile} + {forall q, leads_to q p -> kind_of fs q <> Some IsFile}.
Proof.
  destruct (existsb (fun q => match kind_of fs q with Some IsFile => true | _ => false end) (p :: above p)) eqn:E.
  - left. apply existsb_exists in E. destruct E as (q & I & E). exists q. split.
    + apply leads_cases. destruct I as [->|I]; auto. right. apply in_above. auto.
    + destruct (kind_of fs q) as [[|]|]; auto; discriminate.
  - right. intros q L K. apply not_true_iff_false in E. apply E. apply existsb_exists. exists q. split; [|rewrite K; auto].
    apply leads_cases in L. destruct L as [->|L]; [left; auto|right; apply in_above; auto].
Defined.

Lemma mkdir_outcome fs wp parent kw path : fs_ok fs -> fill wp parent kw = Ok path ->
  ((forall q, leads_to q (parts path) -> kind_of fs q <> Some IsFile) /\
   exists fs', mkdir fs wp parent kw = Ok (Done (str_path (parts path), fs')) /\ fs_ok fs' /\ made fs fs' (parts path)) \/
  (kind_of fs (parts path) = Some IsFile /\ mkdir fs wp parent kw = Ok (Failed OsExists)) \/
  (exists q, leads_above q (parts path) /\ kind_of fs q = Some IsFile /\ mkdir fs wp parent kw = Ok (Failed OsNotADir)).
Proof.
  intros W F. unfold mkdir. rewrite F. cbn [rbind].
  destruct (file_above_dec fs (parts path)) as [(q & L & K)|N].
  - right. apply leads_cases in L. destruct L as [->|L].
    + left. split; auto. rewrite path_mkdir_file by auto. auto.
    + right. exists q. split; auto. split; auto. rewrite (path_mkdir_under fs (parts path) q) by auto. auto.
  - left. split; auto. destruct (path_mkdir_made fs (parts path) W N) as (fs' & E & W' & M). exists fs'. rewrite E. auto.
Qed.
Lemma mkdir_raises fs wp parent kw e : fill wp parent kw = Err e -> mkdir fs wp parent kw = Err e.
Proof. intros F. unfold mkdir. rewrite F. auto. Qed.
Lemma mkdir_again fs wp parent kw s fs' : fs_ok fs -> mkdir fs wp parent kw = Ok (Done (s, fs')) ->
  mkdir fs' wp parent kw = Ok (Done (s, fs')).
Proof.
  intros W E. assert (F := E). unfold mkdir in F. destruct (fill wp parent kw) as [path|e] eqn:P; cbn [rbind] in F; [|discriminate].
  destruct (mkdir_outcome fs wp parent kw path W P) as [(N & fs2 & E2 & W2 & M1 & M2)|[(K & E2)|(q & L & K & E2)]]; rewrite E in E2; try discriminate.
  inversion E2; subst. unfold mkdir. rewrite P. cbn [rbind]. rewrite path_mkdir_dir; auto. apply M1. apply leads_cases. auto.
Qed.
Lemma mkdir_keeps fs wp parent kw s fs' q k : fs_ok fs -> mkdir fs wp parent kw = Ok (Done (s, fs')) ->
  kind_of fs q = Some k -> kind_of fs' q = Some k.
Proof.
  intros W E K. assert (F := E). unfold mkdir in F. destruct (fill wp parent kw) as [path|e] eqn:P; cbn [rbind] in F; [|discriminate].
  destruct (mkdir_outcome fs wp parent kw path W P) as [(N & fs2 & E2 & W2 & M1 & M2)|[(K' & E2)|(q' & L & K' & E2)]]; rewrite E in E2; try discriminate.
  inversion E2; subst. destruct (leads_dec q (parts path)) as [L|L].
  - rewrite M1 by auto. specialize (N q L). destruct k; [auto|congruence].
  - rewrite M2; auto.
Qed.
