(** Proofs about the STL text format. *)
From Coq Require Import Ascii String List Arith Bool Lia.
From Verif Require Import Prelude TreeModel TreeProofs MeshModel MeshSpec StlModel StlSpec.
Import ListNotations.

Definition spaces (s : str) : Prop := Forall (fun c => is_space c = true) s.

Lemma lstrip_spaces a s : spaces a -> lstrip (a ++ s) = lstrip s.
Proof. intros F. induction F as [|c a Hc F IH]; simpl; auto. rewrite Hc. auto. Qed.

Lemma lstrip_all a : spaces a -> lstrip a = [].
Proof. intros F. rewrite <- (app_nil_r a), lstrip_spaces by auto. auto. Qed.

Lemma lstrip_app_cases s : spaces s \/ exists c t, is_space c = false /\ (forall r, lstrip (s ++ r) = c :: t ++ r) /\ lstrip s = c :: t.
Proof.
  induction s as [|c s IH]; [left; constructor|]. destruct (is_space c) eqn:E.
  - destruct IH as [A|(d & t & D1 & D2 & D3)]; [left; constructor; auto|]. right. exists d, t. simpl. rewrite E. auto.
  - right. exists c, s. simpl. rewrite E. auto.
Qed.

Lemma spaces_rev a : spaces a -> spaces (rev a).
Proof. intros F. apply Forall_rev. auto. Qed.

Lemma strip_pad a s b : spaces a -> spaces b -> strip (a ++ s ++ b) = strip s.
Proof.
  intros Fa Fb. unfold strip. rewrite lstrip_spaces by auto.
  destruct (lstrip_app_cases s) as [A|(c & t & Ec & E1 & E2)].
  - rewrite (lstrip_all s A). rewrite (lstrip_spaces s b A), (lstrip_all b Fb). auto.
  - rewrite E1, E2. change (c :: t ++ b) with ((c :: t) ++ b). rewrite rev_app_distr.
    rewrite lstrip_spaces by (apply spaces_rev; auto). auto.
Qed.

Lemma lstrip_head c s : is_space c = false -> lstrip (c :: s) = c :: s.
Proof. intros E. simpl. rewrite E. auto. Qed.

(** Text that begins and ends with a visible character. *)
Lemma strip_tight c s d t : is_space c = false -> is_space d = false -> c :: s = t ++ [d] -> strip (c :: s) = c :: s.
Proof.
  intros Ec Ed E. unfold strip. rewrite lstrip_head by auto. rewrite E, rev_app_distr. simpl. rewrite Ed.
  simpl. rewrite rev_involutive. auto.
Qed.

Lemma strip_end s d t : strip s = s -> s = t ++ [d] -> is_space d = false.
Proof.
  intros S E. destruct (is_space d) eqn:Ed; auto. exfalso.
  assert (L : strip s = strip t) by (rewrite E; apply (strip_pad [] t [d]); [constructor|constructor; auto]).
  assert (G : forall u, length (strip u) <= length u).
  { intros u. assert (H : forall v, length (lstrip v) <= length v) by (induction v as [|c v IH]; simpl; auto; destruct (is_space c); simpl; lia).
    unfold strip. rewrite rev_length. etransitivity; [apply H|]. rewrite rev_length. apply H. }
  specialize (G t). rewrite <- L, S, E, app_length in G. simpl in G. lia.
Qed.

(** ** Reading lines back *)
Definition plain_line (l : str) : Prop := exists body, l = body ++ [NL] /\ ~ In NL body /\ ~ In CR body.

Lemma readlines_line body : forall cur rest, ~ In NL body -> ~ In CR body ->
  readlines_aux (body ++ NL :: rest) cur = rev (NL :: rev body ++ cur) :: readlines_aux rest [].
Proof.
  induction body as [|c body IH]; intros cur rest N1 N2.
  - cbn [app readlines_aux]. rewrite Ascii.eqb_refl. auto.
  - cbn [app readlines_aux].
    destruct (Ascii.eqb_spec c NL) as [->|]; [exfalso; apply N1; simpl; auto|].
    destruct (Ascii.eqb_spec c CR) as [->|]; [exfalso; apply N2; simpl; auto|].
    rewrite IH; [|intros I; apply N1; simpl; auto|intros I; apply N2; simpl; auto]. simpl. rewrite <- app_assoc. auto.
Qed.

Lemma readlines_concat ls : Forall plain_line ls -> readlines (concat ls) = ls.
Proof.
  unfold readlines. induction 1 as [|l ls (body & -> & N1 & N2) F IH]; auto.
  cbn [concat]. rewrite <- app_assoc. cbn [app]. rewrite readlines_line, IH by auto.
  f_equal. rewrite app_nil_r. simpl. rewrite rev_involutive. auto.
Qed.

(** ** Numbers *)
Lemma number_chars_visible c : number_char c -> is_space c = false /\ c <> " "%char /\ c <> NL /\ c <> CR /\ c <> "o"%char.
Proof.
  intros I. unfold number_char in I. cbv in I.
  repeat (destruct I as [<-|I]; [repeat split; try reflexivity; discriminate|]). destruct I.
Qed.

Lemma no_char (P : ascii -> Prop) c s : Forall P s -> ~ P c -> ~ In c s.
Proof. intros F N I. rewrite Forall_forall in F. auto. Qed.

(** Boolean tests for concrete texts. *)
Lemma number_check s : (negb (length s =? 0) && forallb (fun c => existsb (Ascii.eqb c) (str_of "0123456789+-.enaif")) s)%bool = true -> number_text s.
Proof.
  intros E. apply andb_true_iff in E. destruct E as (E1 & E2). split; [destruct s; [discriminate|congruence]|].
  apply Forall_forall. intros c I. rewrite forallb_forall in E2. apply E2, existsb_exists in I. destruct I as (d & I & Ed).
  apply Ascii.eqb_eq in Ed. subst. auto.
Qed.

Lemma clean_check u : (eqb (strip u) u && forallb (fun c => negb (Ascii.eqb c NL) && negb (Ascii.eqb c CR)) u)%bool = true -> clean_uid u.
Proof.
  intros E. apply andb_true_iff in E. destruct E as (E1 & E2). rewrite forallb_forall in E2.
  split; [rewrite eqb_true in E1; auto|]. split; intros I; apply E2 in I; vm_compute in I; discriminate.
Qed.

Section Stl.
  Context {X : Type} (fmt : X -> str) (parse : str -> option X).
  Notation P := (X * X * X)%type.
  Context (fmt_number : forall x, number_text (fmt x)) (parse_fmt : forall x, parse (fmt x) = Some x).
  Context (new_tri : P -> P -> P -> result (list P)).

  Lemma fmt_not x c : ~ number_char c -> ~ In c (fmt x).
  Proof. intros N. destruct (fmt_number x) as (_ & F). apply (no_char _ _ _ F N). Qed.

  Lemma not_number c : In c [NL; CR; " "%char; "o"%char] -> ~ number_char c.
  Proof. intros I N. apply number_chars_visible in N. simpl in I. intuition congruence. Qed.

  Lemma coords3_not p c : In c [NL; CR; "o"%char] -> ~ In c (coords3 fmt p).
  Proof.
    intros I. assert (N : ~ number_char c) by (apply not_number; simpl in *; tauto).
    assert (C : c <> " "%char) by (simpl in I; intuition; subst; discriminate).
    destruct p as ((x, y), z). unfold coords3. intros J.
    repeat (apply in_app_iff in J; destruct J as [J|J]); try (apply (fmt_not _ _ N) in J; auto);
      simpl in J; intuition congruence.
  Qed.

  Lemma fmt_ends x : (exists c t, fmt x = c :: t /\ is_space c = false) /\ (exists t d, fmt x = t ++ [d] /\ is_space d = false).
  Proof.
    destruct (fmt_number x) as (N & F). split.
    - destruct (fmt x) as [|c t]; [congruence|]. exists c, t. inversion F; subst. split; auto. apply number_chars_visible; auto.
    - destruct (exists_last N) as (t & d & E). exists t, d. split; auto. rewrite E in F. apply Forall_app in F.
      destruct F as (_ & F). inversion F; subst. apply number_chars_visible; auto.
  Qed.

  Lemma coords3_ends p : (exists c t, coords3 fmt p = c :: t /\ is_space c = false) /\ (exists t d, coords3 fmt p = t ++ [d] /\ is_space d = false).
  Proof.
    destruct p as ((x, y), z). unfold coords3. split.
    - destruct (fmt_ends x) as ((c & t & -> & E) & _). simpl. eauto.
    - destruct (fmt_ends z) as (_ & (t & d & -> & E)). rewrite !app_assoc. eauto.
  Qed.

  Lemma strip_coords3 p : strip (coords3 fmt p) = coords3 fmt p.
  Proof.
    destruct (coords3_ends p) as ((c & t & E1 & Ec) & (u & d & E2 & Ed)). rewrite E1. apply (strip_tight c t d u); auto.
    rewrite <- E1. auto.
  Qed.

  Lemma spaces_nl : spaces nl.
  Proof. repeat constructor. Qed.

  (** A line with leading blanks, a word and coordinates. *)
  Lemma strip_line a c w p : spaces a -> is_space c = false ->
    strip (a ++ ((c :: w) ++ coords3 fmt p) ++ nl) = (c :: w) ++ coords3 fmt p.
  Proof.
    intros Fa Ec. rewrite strip_pad by (auto; apply spaces_nl).
    destruct (coords3_ends p) as (_ & (u & d & E2 & Ed)). apply (strip_tight c _ d ((c :: w) ++ u)); auto.
    rewrite E2. cbn [app]. f_equal. apply app_assoc.
  Qed.

  Lemma split_on_none s : ~ In " "%char s -> split_on " "%char s = [s].
  Proof.
    induction s as [|c s IH]; intros N; simpl; auto.
    destruct (Ascii.eqb_spec c " "%char) as [->|]; [exfalso; apply N; simpl; auto|].
    rewrite IH by (intros I; apply N; simpl; auto). auto.
  Qed.

  Lemma split_on_cons s r : ~ In " "%char s -> split_on " "%char (s ++ " "%char :: r) = s :: split_on " "%char r.
  Proof.
    induction s as [|c s IH]; intros N; auto. cbn [app split_on].
    destruct (Ascii.eqb_spec c " "%char) as [->|]; [exfalso; apply N; simpl; auto|].
    rewrite IH by (intros I; apply N; simpl; auto). auto.
  Qed.

  Lemma split_coords3 x y z : split_on " "%char (coords3 fmt (x, y, z)) = [fmt x; fmt y; fmt z].
  Proof.
    assert (N : forall v, ~ In " "%char (fmt v)) by (intros v; apply fmt_not, not_number; simpl; auto).
    unfold coords3, sp. change (str_of " ") with [" "%char]. cbn [app].
    rewrite !split_on_cons by auto. rewrite split_on_none by auto. auto.
  Qed.

  Lemma read_vertex_line p : read_vertex parse (vertex_line fmt p) = Ok p.
  Proof.
    unfold read_vertex, vertex_line.
    change (str_of "      vertex " ++ coords3 fmt p ++ nl)
      with (str_of "      " ++ (("v"%char :: str_of "ertex ") ++ coords3 fmt p) ++ nl).
    rewrite strip_line; [|repeat constructor|reflexivity].
    change (starts_with (str_of "vertex") (("v"%char :: str_of "ertex ") ++ coords3 fmt p)) with true. cbv iota.
    change (skipn 6 (("v"%char :: str_of "ertex ") ++ coords3 fmt p)) with ([" "%char] ++ coords3 fmt p).
    rewrite <- (app_nil_r (coords3 fmt p)), strip_pad; [|repeat constructor|constructor]. rewrite strip_coords3.
    destruct p as ((x, y), z). rewrite split_coords3. cbn [mapM]. unfold to_float. rewrite !parse_fmt. auto.
  Qed.

  Lemma split_sub_none s : forall cur, ~ In "o"%char s -> split_sub_aux (str_of "normal") s cur 0 = [rev cur ++ s].
  Proof.
    induction s as [|c s IH]; intros cur N; cbn [split_sub_aux]; [rewrite app_nil_r; auto|].
    assert (F : starts_with (str_of "normal") (c :: s) = false).
    { change (starts_with (str_of "normal") (c :: s)) with (Ascii.eqb "n" c && starts_with (str_of "ormal") s).
      destruct s as [|d s]; [rewrite andb_false_r; auto|].
      change (starts_with (str_of "ormal") (d :: s)) with (Ascii.eqb "o" d && starts_with (str_of "rmal") s).
      destruct (Ascii.eqb_spec "o"%char d) as [<-|]; [exfalso; apply N; simpl; auto|]. cbn [andb]. rewrite andb_false_r; auto. }
    rewrite F, IH by (intros I; apply N; simpl; auto). simpl. rewrite <- app_assoc. auto.
  Qed.

  Lemma split_normal p : split_sub (str_of "normal") (str_of " normal " ++ coords3 fmt p) = [[" "%char]; " "%char :: coords3 fmt p].
  Proof.
    unfold split_sub.
    change (split_sub_aux (str_of "normal") (str_of " normal " ++ coords3 fmt p) [] 0)
      with ([" "%char] :: split_sub_aux (str_of "normal") (" "%char :: coords3 fmt p) [] 0).
    rewrite split_sub_none; auto. intros [I|I]; [discriminate|]. apply coords3_not in I; simpl; auto.
  Qed.

  (** One step of the reader. *)
  Lemma loop_solid raw line rest wall held uid solids : strip raw = line -> starts_with (str_of "solid") line = true ->
    read_loop parse new_tri (raw :: rest) wall held uid solids =
    read_loop parse new_tri rest (Some []) 0 (Some (strip (skipn 5 line))) (solids ++ holders wall held).
  Proof. intros E S. cbn [read_loop]. rewrite E, S. auto. Qed.

  Lemma loop_skip raw line rest wall held uid solids : strip raw = line -> starts_with (str_of "solid") line = false ->
    starts_with (str_of "facet") line = false -> starts_with (str_of "endsolid") line = false ->
    read_loop parse new_tri (raw :: rest) wall held uid solids = read_loop parse new_tri rest wall held uid solids.
  Proof. intros E S1 S2 S3. cbn [read_loop]. rewrite E, S1, S2, S3. auto. Qed.

  Lemma loop_end raw line rest w held u solids : strip raw = line -> starts_with (str_of "solid") line = false ->
    starts_with (str_of "facet") line = false -> starts_with (str_of "endsolid") line = true -> strip (skipn 8 line) = u ->
    read_loop parse new_tri (raw :: rest) (Some w) held (Some u) solids =
    read_loop parse new_tri rest (Some w) (S held) (if length u =? 0 then None else Some u) solids.
  Proof. intros E S1 S2 S3 Eu. cbn [read_loop]. rewrite E, S1, S2, S3, Eu, eqb_refl. auto. Qed.

  Lemma loop_facet raw line l1 l2 l3 l4 l5 rest w held uid solids x n nx ny nz a b c t :
    strip raw = line -> starts_with (str_of "solid") line = false -> starts_with (str_of "facet") line = true ->
    split_sub (str_of "normal") (skipn 5 line) = [x; n] -> split_on " "%char (strip n) = [fmt nx; fmt ny; fmt nz] ->
    strip l1 = str_of "outer loop" -> read_vertex parse l2 = Ok a -> read_vertex parse l3 = Ok b -> read_vertex parse l4 = Ok c ->
    strip l5 = str_of "endloop" -> new_tri a b c = Ok t ->
    read_loop parse new_tri (raw :: l1 :: l2 :: l3 :: l4 :: l5 :: rest) (Some w) held uid solids =
    read_loop parse new_tri rest (Some (w ++ [t])) held uid solids.
  Proof.
    intros E S1 S2 Es En L1 V1 V2 V3 L5 T. remember (l1 :: l2 :: l3 :: l4 :: l5 :: rest) as R eqn:ER.
    cbn [read_loop]. rewrite E, S1, S2, Es. unfold nth_row, lookup_row at 1. cbn [nth_error rbind].
    rewrite En. unfold lookup_row. cbn [nth_error rbind]. unfold to_float. rewrite !parse_fmt. cbn [rbind].
    rewrite ER, L1, eqb_refl. cbn [negb]. rewrite V1. cbn [rbind]. rewrite V2. cbn [rbind]. rewrite V3. cbn [rbind].
    rewrite L5, eqb_refl. cbn [negb]. rewrite T. auto.
  Qed.

  Lemma read_facet q f ls : facet_lines fmt q f = Ok ls ->
    exists a b c, coords (fst (sp_mesh q)) f = (Some a, Some b, Some c) /\
    Forall plain_line ls /\
    (new_tri a b c = Ok [a; b; c] -> forall rest w held uid solids,
      read_loop parse new_tri (ls ++ rest) (Some w) held uid solids =
      read_loop parse new_tri rest (Some (w ++ [[a; b; c]])) held uid solids).
  Proof.
    destruct f as ((i, j), k). unfold facet_lines, lookup_row, coords. intros E.
    destruct (nth_error _ i) as [a|]; [|discriminate]. destruct (nth_error _ j) as [b|]; [|discriminate].
    destruct (nth_error _ k) as [c|]; [|discriminate]. cbn [rbind] in E. inversion E; subst. clear E.
    exists a, b, c. split; auto.
    assert (NC : forall p d, d = NL \/ d = CR -> ~ In d (coords3 fmt p)).
    { intros p d [->| ->]; apply coords3_not; simpl; auto. }
    split.
    - assert (V : forall p, plain_line (vertex_line fmt p)).
      { intros p. exists (str_of "      vertex " ++ coords3 fmt p). split; [unfold vertex_line, nl; rewrite <- app_assoc; auto|].
        split; intros I; apply in_app_iff in I; destruct I as [I|I]; try (apply NC in I; auto; fail);
          cbv in I; intuition discriminate. }
      repeat apply Forall_cons; try apply V; try apply Forall_nil.
      + exists (str_of "  facet normal " ++ coords3 fmt (sp_vn q)). split; [unfold nl; rewrite <- app_assoc; auto|].
        split; intros I; apply in_app_iff in I; destruct I as [I|I]; try (apply NC in I; auto; fail);
          cbv in I; intuition discriminate.
      + exists (str_of "    outer loop"). split; [auto|]. split; cbv; intuition discriminate.
      + exists (str_of "    endloop"). split; [auto|]. split; cbv; intuition discriminate.
      + exists (str_of "  endfacet"). split; [auto|]. split; cbv; intuition discriminate.
    - intros T rest w held uid solids. cbn [app].
      assert (S : strip (str_of "  facet normal " ++ coords3 fmt (sp_vn q) ++ nl) = str_of "facet normal " ++ coords3 fmt (sp_vn q)).
      { apply (strip_line (str_of "  ") "f"%char (str_of "acet normal ") (sp_vn q)); [repeat constructor|reflexivity]. }
      destruct (sp_vn q) as ((nx, ny), nz).
      erewrite (loop_facet _ _ _ _ _ _ _ _ w held uid solids [" "%char] (" "%char :: coords3 fmt (nx, ny, nz)) nx ny nz a b c [a; b; c] S);
        try reflexivity; try apply read_vertex_line; auto.
      + apply split_normal.
      + rewrite <- split_coords3. f_equal. change (" "%char :: coords3 fmt (nx, ny, nz)) with ([" "%char] ++ coords3 fmt (nx, ny, nz)).
        rewrite <- (app_nil_r (coords3 fmt (nx, ny, nz))) at 1. rewrite strip_pad; [|repeat constructor|constructor].
        apply strip_coords3.
  Qed.

  (** Lines that add the triangles [ts] to the current wall. *)
  Definition adds (ls : list str) (ts : list (list P)) : Prop :=
    forall rest w held uid solids, read_loop parse new_tri (ls ++ rest) (Some w) held uid solids =
      read_loop parse new_tri rest (Some (w ++ ts)) held uid solids.

  Lemma adds_nil : adds [] [].
  Proof. intros rest w held uid solids. rewrite app_nil_r. auto. Qed.
  Lemma adds_app l1 t1 l2 t2 : adds l1 t1 -> adds l2 t2 -> adds (l1 ++ l2) (t1 ++ t2).
  Proof. intros A B rest w held uid solids. rewrite <- app_assoc, A, B, <- app_assoc. auto. Qed.

  Notation corners := (fun t : option P * option P * option P => let '(a, b, c) := t in [a; b; c]).

  (** Good output: plain lines that add the given corners. *)
  Definition good_lines (ls : list str) (ts : list (option P * option P * option P)) : Prop :=
    Forall plain_line ls /\ exists r, adds ls r /\ map (map Some) r = map corners ts.

  Lemma good_app l1 t1 l2 t2 : good_lines l1 t1 -> good_lines l2 t2 -> good_lines (l1 ++ l2) (t1 ++ t2).
  Proof.
    intros (F1 & r1 & A1 & E1) (F2 & r2 & A2 & E2). split; [apply Forall_app; auto|].
    exists (r1 ++ r2). split; [apply adds_app; auto|]. rewrite !map_app, E1, E2. auto.
  Qed.

  Lemma good_concatM {A} (f : A -> result (list str)) (g : A -> list (option P * option P * option P)) l :
    (forall x, In x l -> exists ls, f x = Ok ls /\ good_lines ls (g x)) ->
    exists ls, concatM f l = Ok ls /\ good_lines ls (flat_map g l).
  Proof.
    induction l as [|x l IH]; intros H.
    - exists []. split; auto. split; [constructor|]. exists []. split; [apply adds_nil|auto].
    - destruct (H x (or_introl eq_refl)) as (l1 & E1 & G1). destruct IH as (l2 & E2 & G2); [intros; apply H; simpl; auto|].
      exists (l1 ++ l2). cbn [concatM]. rewrite E1, E2. split; auto. simpl. apply good_app; auto.
  Qed.

  Lemma facet_good q f : (forall i, In i (face_corners f) -> i < length (fst (sp_mesh q))) ->
    (forall a b c, coords (fst (sp_mesh q)) f = (Some a, Some b, Some c) -> new_tri a b c = Ok [a; b; c]) ->
    exists ls, facet_lines fmt q f = Ok ls /\ good_lines ls [coords (fst (sp_mesh q)) f].
  Proof.
    intros V T.
    assert (E : exists ls, facet_lines fmt q f = Ok ls).
    { destruct f as ((i, j), k). unfold facet_lines, lookup_row. simpl in V.
      destruct (nth_error (fst (sp_mesh q)) i) eqn:E1; [|apply nth_error_None in E1; specialize (V i); lia].
      destruct (nth_error (fst (sp_mesh q)) j) eqn:E2; [|apply nth_error_None in E2; specialize (V j); lia].
      destruct (nth_error (fst (sp_mesh q)) k) eqn:E3; [|apply nth_error_None in E3; specialize (V k); lia].
      cbn [rbind]. eauto. }
    destruct E as (ls & E). exists ls. split; auto. destruct (read_facet q f ls E) as (a & b & c & C & F & R).
    split; auto. exists [[a; b; c]]. split; [intros rest w held uid solids; apply R; apply T; auto|]. rewrite C. auto.
  Qed.

  (** Lines that add the solids [rs]. *)
  Definition reads_to (ls : list str) (rs : list (list (list P))) : Prop :=
    forall rest wall held uid solids, exists wall' held' uid' solids',
      read_loop parse new_tri (ls ++ rest) wall held uid solids = read_loop parse new_tri rest wall' held' uid' solids' /\
      solids' ++ holders wall' held' = (solids ++ holders wall held) ++ rs.

  Lemma solid_good (s : ssolid) : clean_uid (fst s) ->
    (forall q, In q (concat (snd s)) -> valid (sp_mesh q)) ->
    (forall q x y z, In q (concat (snd s)) -> In (Some x, Some y, Some z) (soup (sp_mesh q)) -> new_tri x y z = Ok [x; y; z]) ->
    exists ls r, solid_lines fmt s = Ok ls /\ Forall plain_line ls /\
      map (map Some) r = solid_triangles s /\
      reads_to ls [r].
  Proof.
    destruct s as (uid, walls). intros (Su & N1 & N2) V T. cbn [fst snd] in *.
    destruct (good_concatM (fun w => concatM (fun q => concatM (facet_lines fmt q) (snd (sp_mesh q))) w)
      (fun w => flat_map (fun q => soup (sp_mesh q)) w) walls) as (body & E & (F & r & A & M)).
    { intros w Iw. apply good_concatM. intros q Iq.
      assert (Iq' : In q (concat walls)) by (apply in_concat; eauto).
      destruct (good_concatM (facet_lines fmt q) (fun f => [coords (fst (sp_mesh q)) f]) (snd (sp_mesh q))) as (ls & El & G).
      - intros f If. apply facet_good; [intros i Hi; apply (V q Iq' f i); auto|].
        intros a b c C. apply (T q); auto. unfold soup. rewrite <- C. apply in_map. auto.
      - exists ls. split; auto. }
    unfold solid_lines. rewrite E. cbn [rbind]. eexists. exists r. split; [reflexivity|].
    assert (PL : forall pre, ~ In NL pre -> ~ In CR pre -> plain_line (pre ++ uid ++ nl)).
    { intros pre M1 M2. exists (pre ++ uid). split; [unfold nl; rewrite <- app_assoc; auto|].
      split; intros I; apply in_app_iff in I; tauto. }
    split; [|split].
    - apply Forall_app. split; [|apply Forall_app; split; auto].
      + constructor; [|constructor]. apply PL; cbv; intuition discriminate.
      + constructor; [|constructor]. apply PL; cbv; intuition discriminate.
    - rewrite M. unfold solid_triangles. cbn [snd]. f_equal.
      clear. induction walls as [|w l IH]; simpl; auto. rewrite IH, flat_map_app. auto.
    - intros rest wall held u solids.
      assert (LS : forall c w, is_space c = false ->
        exists x, strip ((c :: w) ++ [" "%char] ++ uid ++ nl) = (c :: w) ++ x /\ strip x = uid \/ is_space (last (c :: w) c) = true).
      { intros c w Ec. destruct (is_space (last (c :: w) c)) eqn:El; [exists []; auto|].
        change ((c :: w) ++ [" "%char] ++ uid ++ nl) with ([] ++ ((c :: w) ++ [" "%char] ++ uid ++ nl)).
        assert (W0 : exists t d, c :: w = t ++ [d] /\ is_space d = false).
        { destruct (exists_last (l := c :: w)) as (t & d & Ed); [discriminate|]. exists t, d. split; auto.
          rewrite Ed, last_last in El. auto. }
        destruct W0 as (t & d & Ed & Hd).
        destruct (list_eq_dec ascii_dec uid []) as [->|Nu].
        - exists []. left. rewrite app_nil_r.
          replace ((c :: w) ++ [" "%char] ++ [] ++ nl) with ((c :: w) ++ [" "%char; NL]) by auto.
          rewrite strip_pad; [|constructor|repeat constructor]. split; auto. apply (strip_tight c w d t); auto.
        - exists ([" "%char] ++ uid). left.
          replace ((c :: w) ++ [" "%char] ++ uid ++ nl) with (((c :: w) ++ [" "%char] ++ uid) ++ nl) by (rewrite <- !app_assoc; auto).
          rewrite strip_pad; [|constructor|apply spaces_nl].
          destruct (exists_last Nu) as (t' & d' & Ed').
          split.
          + apply (strip_tight c _ d' ((c :: w) ++ [" "%char] ++ t')); auto.
            * apply (strip_end uid d' t'); auto.
            * rewrite Ed'. change (c :: w ++ [" "%char] ++ t' ++ [d']) with ((c :: w) ++ [" "%char] ++ t' ++ [d']).
              rewrite <- !app_assoc. auto.
          + rewrite <- (app_nil_r uid) at 1. rewrite strip_pad; [auto|repeat constructor|constructor]. }
      rewrite <- !app_assoc. cbn [app].
      destruct (LS "s"%char (str_of "olid") eq_refl) as (x1 & [(S1 & S2)|C]); [|discriminate].
      destruct (LS "e"%char (str_of "ndsolid") eq_refl) as (x2 & [(S3 & S4)|C]); [|discriminate].
      change ((("s"%char :: str_of "olid") ++ [" "%char] ++ uid ++ nl)) with (str_of "solid " ++ uid ++ nl) in S1.
      change ((("e"%char :: str_of "ndsolid") ++ [" "%char] ++ uid ++ nl)) with (str_of "endsolid " ++ uid ++ nl) in S3.
      rewrite (loop_solid _ _ _ _ _ _ _ S1) by reflexivity.
      change (skipn 5 (("s"%char :: str_of "olid") ++ x1)) with x1. rewrite S2.
      rewrite A. cbn [app].
      rewrite (loop_end _ _ _ _ _ uid _ S3); try reflexivity; [do 4 eexists; split; [reflexivity|rewrite <- !app_assoc; reflexivity]|].
      change (skipn 8 (("e"%char :: str_of "ndsolid") ++ x2)) with x2. auto.
  Qed.

  Lemma solids_good (l : list ssolid) :
    (forall s, In s l -> clean_uid (fst s)) ->
    (forall s q, In s l -> In q (concat (snd s)) -> valid (sp_mesh q)) ->
    (forall s q x y z, In s l -> In q (concat (snd s)) -> In (Some x, Some y, Some z) (soup (sp_mesh q)) -> new_tri x y z = Ok [x; y; z]) ->
    exists ls rs, concatM (solid_lines fmt) l = Ok ls /\ Forall plain_line ls /\
      map (map (map Some)) rs = map solid_triangles l /\
      reads_to ls rs.
  Proof.
    induction l as [|s l IH]; intros U V T.
    - exists [], []. repeat split; auto. intros rest wall held uid solids. exists wall, held, uid, solids. rewrite app_nil_r. auto.
    - destruct (solid_good s) as (l1 & r1 & E1 & F1 & M1 & R1); [apply U; simpl; auto|intros q; apply V; simpl; auto|
        intros q x y z; apply (T s); simpl; auto|].
      destruct IH as (l2 & r2 & E2 & F2 & M2 & R2); [intros; apply U; simpl; auto|intros s' q I; apply V; simpl; auto|
        intros s' q x y z I; apply (T s'); simpl; auto|].
      exists (l1 ++ l2), (r1 :: r2). cbn [concatM]. rewrite E1, E2. split; auto. split; [apply Forall_app; auto|].
      split; [simpl; rewrite M1, M2; auto|]. intros rest wall held uid solids. rewrite <- app_assoc.
      destruct (R1 (l2 ++ rest) wall held uid solids) as (w1 & h1 & u1 & s1 & -> & Q1).
      destruct (R2 rest w1 h1 u1 s1) as (w2 & h2 & u2 & s2 & -> & Q2). exists w2, h2, u2, s2. split; auto.
      rewrite Q2, Q1, <- app_assoc. auto.
  Qed.

  Lemma concatM_concat {A B} (f : A -> result (list B)) (ls : list (list A)) :
    concatM (fun l => concatM f l) ls = concatM f (concat ls).
  Proof.
    assert (H : forall a b, concatM f (a ++ b) = do x <- concatM f a; do y <- concatM f b; Ok (x ++ y)).
    { induction a as [|x a IH]; intros b; simpl; [destruct (concatM f b); auto|].
      destruct (f x); simpl; auto. rewrite IH. destruct (concatM f a); simpl; auto. destruct (concatM f b); simpl; auto.
      rewrite app_assoc. auto. }
    induction ls as [|l ls IH]; simpl; auto. rewrite IH, H. auto.
  Qed.

  Lemma stl_roundtrip (b : sbuilding) :
    (forall s, In s (concat b) -> clean_uid (fst s)) ->
    (forall q, In q (polys_in b) -> valid (sp_mesh q)) ->
    takes_triangles new_tri b ->
    exists text r, write_stl fmt b = Ok text /\ read_stl parse new_tri text = Ok r /\
      map (map (map Some)) r = map solid_triangles (concat b).
  Proof.
    intros U V T.
    assert (I : forall s q, In s (concat b) -> In q (concat (snd s)) -> In q (polys_in b)).
    { intros s q Is Iq. unfold polys_in. apply in_concat in Iq. destruct Iq as (w & Iw & Iq).
      apply in_concat. exists w. split; auto. apply in_concat. exists (snd s). split; auto. apply in_map. auto. }
    destruct (solids_good (concat b)) as (ls & rs & E & F & M & R); auto.
    - intros s q Is Iq. apply V. eauto.
    - intros s q x y z Is Iq. apply T. eauto.
    - exists (concat ls), rs. unfold write_stl. rewrite concatM_concat, E. split; auto. split; auto.
      unfold read_stl. rewrite readlines_concat by auto. destruct (R [] None 0 None []) as (w & h & u & s & Er & Q).
      rewrite app_nil_r in Er. rewrite Er. cbn [read_loop]. rewrite Q. auto.
  Qed.
End Stl.
