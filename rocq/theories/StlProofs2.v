(** What read_stl makes of any file. *)
From Coq Require Import Ascii String List Arith Bool Lia.
From Verif Require Import Prelude TreeModel TreeProofs MeshModel MeshSpec StlModel StlSpec.
Import ListNotations.

Lemma starts_with_iff p s : starts_with p s = true <-> exists w, s = p ++ w.
Proof.
  revert s. induction p as [|a p IH]; intros s; cbn [starts_with].
  - split; [intros _; exists s; auto|auto].
  - destruct s as [|b s]; [split; [discriminate|intros (w & E); discriminate]|].
    rewrite andb_true_iff, IH. split.
    + intros (E & w & ->). apply Ascii.eqb_eq in E. subst. exists w. auto.
    + intros (w & E). cbn [app] in E. injection E as -> ->. split; [apply Ascii.eqb_refl|exists w; auto].
Qed.

Lemma skipn_pre (p w : str) n : n = length p -> skipn n (p ++ w) = w.
Proof. intros ->. rewrite skipn_app, skipn_all, Nat.sub_diag. auto. Qed.

Section Reading.
  Context {X : Type} (parse : str -> option X).
  Notation P := (X * X * X)%type.
  Context (new_tri : P -> P -> P -> result (list P)).
  Notation loop := (read_loop parse new_tri).
  Notation tells := (tells parse new_tri).

  (** ** Vertices and normals *)
  Lemma to_float_iff s x : to_float parse s = Ok x <-> parse s = Some x.
  Proof. unfold to_float. destruct (parse s); split; intros E; inversion E; auto. Qed.

  Lemma read_vertex_iff raw p : read_vertex parse raw = Ok p <-> vertex_text parse raw p.
  Proof.
    unfold read_vertex, vertex_text. destruct (starts_with (str_of "vertex") (strip raw)) eqn:S.
    - apply starts_with_iff in S. destruct S as (w & Ew).
      assert (K : skipn 6 (strip raw) = w) by (rewrite Ew; apply skipn_pre; reflexivity).
      rewrite K. set (ws := split_on " "%char (strip w)).
      assert (H : (do v <- mapM (to_float parse) ws; to_vertex v) = Ok p <-> point_of parse ws p).
      { unfold point_of. split.
        - intros E. destruct (mapM (to_float parse) ws) as [v|] eqn:M; [|discriminate]. cbn [rbind] in E.
          destruct ws as [|x [|y [|z [|x' ws']]]]; cbn [mapM] in M.
          + injection M as <-. discriminate.
          + destruct (to_float parse x) as [a|] eqn:A; [|discriminate]. cbn [rbind] in M. injection M as <-.
            injection E as <-. apply to_float_iff in A. exists a, a, a. split; auto. right. exists x. auto.
          + destruct (to_float parse x) as [a|] eqn:A; [|discriminate]. destruct (to_float parse y) as [b|] eqn:B; [|discriminate].
            cbn [rbind] in M. injection M as <-. discriminate.
          + destruct (to_float parse x) as [a|] eqn:A; [|discriminate]. destruct (to_float parse y) as [b|] eqn:B; [|discriminate].
            destruct (to_float parse z) as [c|] eqn:C; [|discriminate]. cbn [rbind] in M. injection M as <-. injection E as <-.
            rewrite to_float_iff in A, B, C. exists a, b, c. split; auto. left. exists x, y, z. auto.
          + destruct (to_float parse x); [|discriminate]. destruct (to_float parse y); [|discriminate].
            destruct (to_float parse z); [|discriminate]. destruct (to_float parse x'); [|discriminate]. cbn [rbind] in M.
            destruct (mapM _ ws'); [|discriminate]. cbn [rbind] in M. injection M as <-. discriminate.
        - intros (a & b & c & -> & [(x & y & z & Ews & A & B & C)|(x & Ews & A & -> & ->)]); rewrite Ews; cbn [mapM];
            unfold to_float; [rewrite A, B, C|rewrite A]; reflexivity. }
      rewrite H. split.
      + intros Q. exists w. auto.
      + intros (w' & Ew' & Q). rewrite Ew in Ew'. apply app_inv_head in Ew'. subst w'. auto.
    - split; [discriminate|]. intros (w & Ew & _).
      assert (starts_with (str_of "vertex") (strip raw) = true) by (apply starts_with_iff; eauto). congruence.
  Qed.

  Definition read_normal (w : str) : result (Datatypes.unit) :=
    do n <- nth_row (split_sub (str_of "normal") w) 1;
    let ns := split_on " "%char (strip n) in
    do n0 <- nth_row ns 0; do _ <- to_float parse n0;
    do n1 <- nth_row ns 1; do _ <- to_float parse n1;
    do n2 <- nth_row ns 2; do _ <- to_float parse n2; Ok tt.

  Lemma read_normal_iff w : read_normal w = Ok tt <-> normal_text parse w.
  Proof.
    unfold read_normal, normal_text, nth_row, lookup_row. split.
    - destruct (split_sub _ w) as [|before [|n after]]; try discriminate. cbn [nth_error rbind].
      destruct (split_on _ (strip n)) as [|x [|y [|z more]]] eqn:En; cbn [nth_error rbind]; unfold to_float; intros E.
      + discriminate.
      + destruct (parse x); discriminate.
      + destruct (parse x); [|discriminate]. cbn [rbind] in E. destruct (parse y); discriminate.
      + destruct (parse x) eqn:A; [|discriminate]. destruct (parse y) eqn:B; [|discriminate].
        destruct (parse z) eqn:C; [|discriminate]. exists before, n, after, x, y, z, more. rewrite A, B, C. repeat split; auto; discriminate.
    - intros (before & n & after & x & y & z & more & Ew & En & A & B & C). rewrite Ew. cbn [nth_error rbind]. rewrite En.
      cbn [nth_error rbind]. unfold to_float. destruct (parse x); [|congruence]. destruct (parse y); [|congruence].
      destruct (parse z); [|congruence]. reflexivity.
  Qed.

  (** ** Events *)
  Notation ev := (event (X := X)).
  Fixpoint act (evs : list ev) (wall : option (list (list P))) (held : nat) (uid : option str) (solids : list (list (list P)))
      : result (list (list (list P))) :=
    match evs with
    | [] => Ok (solids ++ holders wall held)
    | Opens u :: evs' => act evs' (Some []) 0 (Some u) (solids ++ holders wall held)
    | Triangle t :: evs' => match wall with Some w => act evs' (Some (w ++ [t])) held uid solids | None => Err ValueError end
    | Closes c :: evs' =>
        match uid with
        | Some u => if eqb c u then
            match wall with
            | Some _ => act evs' wall (S held) (if length u =? 0 then None else uid) solids
            | None => Err ValueError
            end else Err AssertionError
        | None => Err AssertionError
        end
    end.

  (** The reader without the test of the rest of a facet. *)
  Lemma loop_facet_unfold raw rest wall held uid solids :
    starts_with (str_of "solid") (strip raw) = false -> starts_with (str_of "facet") (strip raw) = true ->
    forall r, loop (raw :: rest) wall held uid solids = Ok r ->
    exists l1 l2 l3 l4 l5 rest' a b c t w, rest = l1 :: l2 :: l3 :: l4 :: l5 :: rest' /\
      read_normal (skipn 5 (strip raw)) = Ok tt /\
      strip l1 = str_of "outer loop" /\ read_vertex parse l2 = Ok a /\ read_vertex parse l3 = Ok b /\ read_vertex parse l4 = Ok c /\
      strip l5 = str_of "endloop" /\ new_tri a b c = Ok t /\ wall = Some w /\
      loop rest' (Some (w ++ [t])) held uid solids = Ok r.
  Proof.
    intros S1 S2 r E. cbn [read_loop] in E. rewrite S1, S2 in E. unfold read_normal.
    destruct (nth_row _ 1) as [n|]; [|discriminate]. cbn [rbind] in *.
    destruct (nth_row _ 0) as [n0|]; [|discriminate]. cbn [rbind] in *.
    destruct (to_float parse n0) as [q0|]; [|discriminate]. cbn [rbind] in *.
    destruct (nth_row _ 1) as [n1|]; [|discriminate]. cbn [rbind] in *.
    destruct (to_float parse n1) as [q1|]; [|discriminate]. cbn [rbind] in *.
    destruct (nth_row _ 2) as [n2|]; [|discriminate]. cbn [rbind] in *.
    destruct (to_float parse n2) as [q2|]; [|discriminate]. cbn [rbind] in *.
    destruct rest as [|l1 rest]; [discriminate|].
    destruct (eqb (strip l1) (str_of "outer loop")) eqn:E1; [|discriminate]. cbn [negb] in E.
    destruct rest as [|l2 rest]; [discriminate|]. destruct (read_vertex parse l2) as [a|] eqn:A; [|discriminate]. cbn [rbind] in E.
    destruct rest as [|l3 rest]; [discriminate|]. destruct (read_vertex parse l3) as [b|] eqn:B; [|discriminate]. cbn [rbind] in E.
    destruct rest as [|l4 rest]; [discriminate|]. destruct (read_vertex parse l4) as [c|] eqn:C; [|discriminate]. cbn [rbind] in E.
    destruct rest as [|l5 rest]; [discriminate|].
    destruct (eqb (strip l5) (str_of "endloop")) eqn:E5; [|discriminate]. cbn [negb] in E.
    destruct (new_tri a b c) as [t|] eqn:T; [|discriminate]. cbn [rbind] in E. destruct wall as [w|]; [|discriminate].
    rewrite eqb_true in E1, E5.
    exists l1, l2, l3, l4, l5, rest, a, b, c, t, w. repeat split; auto.
  Qed.

  Lemma loop_facet_fold raw l1 l2 l3 l4 l5 rest w held uid solids a b c t :
    starts_with (str_of "solid") (strip raw) = false -> starts_with (str_of "facet") (strip raw) = true ->
    read_normal (skipn 5 (strip raw)) = Ok tt -> strip l1 = str_of "outer loop" -> read_vertex parse l2 = Ok a ->
    read_vertex parse l3 = Ok b -> read_vertex parse l4 = Ok c -> strip l5 = str_of "endloop" -> new_tri a b c = Ok t ->
    loop (raw :: l1 :: l2 :: l3 :: l4 :: l5 :: rest) w held uid solids =
    match w with Some w' => loop rest (Some (w' ++ [t])) held uid solids | None => Err ValueError end.
  Proof.
    intros S1 S2 N L1 A B C L5 T. remember (l1 :: l2 :: l3 :: l4 :: l5 :: rest) as R eqn:ER.
    cbn [read_loop]. rewrite S1, S2. unfold read_normal in N.
    destruct (nth_row _ 1) as [n|]; [|discriminate]. cbn [rbind] in *.
    destruct (nth_row _ 0) as [n0|]; [|discriminate]. cbn [rbind] in *.
    destruct (to_float parse n0) as [q0|]; [|discriminate]. cbn [rbind] in *.
    destruct (nth_row _ 1) as [n1|]; [|discriminate]. cbn [rbind] in *.
    destruct (to_float parse n1) as [q1|]; [|discriminate]. cbn [rbind] in *.
    destruct (nth_row _ 2) as [n2|]; [|discriminate]. cbn [rbind] in *.
    destruct (to_float parse n2) as [q2|]; [|discriminate]. cbn [rbind] in *.
    rewrite ER, L1, eqb_refl. cbn [negb]. rewrite A. cbn [rbind]. rewrite B. cbn [rbind]. rewrite C. cbn [rbind].
    rewrite L5, eqb_refl. cbn [negb]. rewrite T. auto.
  Qed.

  (** Words that exclude each other at the start of a line. *)
  Lemma solid_facet s w : s = str_of "facet" ++ w -> starts_with (str_of "solid") s = false.
  Proof. intros ->. reflexivity. Qed.
  Lemma ends_solid s w : s = str_of "endsolid" ++ w -> starts_with (str_of "solid") s = false /\ starts_with (str_of "facet") s = false.
  Proof. intros ->. split; reflexivity. Qed.

  Lemma loop_tells n : forall lines wall held uid solids r, length lines <= n ->
    loop lines wall held uid solids = Ok r -> exists evs, tells lines evs /\ act evs wall held uid solids = Ok r.
  Proof.
    induction n as [|n IH]; intros lines wall held uid solids r L E.
    - destruct lines; [|simpl in L; lia]. exists []. split; [constructor|auto].
    - destruct lines as [|raw rest]; [exists []; split; [constructor|auto]|]. simpl in L.
      destruct (starts_with (str_of "solid") (strip raw)) eqn:S1.
      + cbn [read_loop] in E. rewrite S1 in E. destruct (IH rest _ _ _ _ _ ltac:(lia) E) as (evs & T & A).
        apply starts_with_iff in S1. destruct S1 as (w & Ew). rewrite Ew in A. rewrite skipn_pre in A by reflexivity.
        exists (Opens (strip w) :: evs). split; [constructor; auto|auto].
      + destruct (starts_with (str_of "facet") (strip raw)) eqn:S2.
        * destruct (loop_facet_unfold _ _ _ _ _ _ S1 S2 r E)
            as (l1 & l2 & l3 & l4 & l5 & rest' & a & b & c & t & w & -> & N & L1 & A & B & C & L5 & T & -> & E').
          simpl in L. destruct (IH rest' _ _ _ _ _ ltac:(lia) E') as (evs & Te & Ac).
          apply starts_with_iff in S2. destruct S2 as (f & Ef). rewrite Ef in N. rewrite skipn_pre in N by reflexivity.
          exists (Triangle t :: evs). split; [|auto].
          apply (tells_triangle _ _ raw f l1 l2 l3 l4 l5 rest' a b c t evs); auto;
            try (apply read_vertex_iff; auto). apply read_normal_iff; auto.
        * destruct (starts_with (str_of "endsolid") (strip raw)) eqn:S3.
          -- cbn [read_loop] in E. rewrite S1, S2, S3 in E. apply starts_with_iff in S3. destruct S3 as (w & Ew).
             rewrite Ew in E. rewrite skipn_pre in E by reflexivity. destruct uid as [u|]; [|discriminate].
             destruct (eqb (strip w) u) eqn:Eu; [|discriminate]. destruct wall as [wl|]; [|discriminate].
             destruct (IH rest _ _ _ _ _ ltac:(lia) E) as (evs & T & A).
             exists (Closes (strip w) :: evs). split; [constructor; auto|]. cbn [act]. rewrite Eu. auto.
          -- cbn [read_loop] in E. rewrite S1, S2, S3 in E. destruct (IH rest _ _ _ _ _ ltac:(lia) E) as (evs & T & A).
             exists evs. split; auto. apply tells_nothing; auto. intros k w I Ek.
             assert (Q : starts_with k (strip raw) = true) by (apply starts_with_iff; eauto).
             destruct I as [<-|[<-|[<-|[]]]]; congruence.
  Qed.

  Lemma tells_loop lines evs : tells lines evs -> forall wall held uid solids r,
    act evs wall held uid solids = Ok r -> loop lines wall held uid solids = Ok r.
  Proof.
    induction 1 as [|raw w rest evs Ew T IH|raw w rest evs Ew T IH|raw w outer v1 v2 v3 stop rest a b c t evs Ew N L1 A B C L5 Tr T IH|raw rest evs No T IH];
      intros wall held uid solids r E.
    - auto.
    - cbn [read_loop]. rewrite Ew. change (starts_with (str_of "solid") (str_of "solid" ++ w)) with true. cbn match.
      rewrite skipn_pre by reflexivity. apply IH. auto.
    - cbn [read_loop]. rewrite Ew. change (starts_with (str_of "solid") (str_of "endsolid" ++ w)) with false.
      change (starts_with (str_of "facet") (str_of "endsolid" ++ w)) with false.
      change (starts_with (str_of "endsolid") (str_of "endsolid" ++ w)) with true. cbn match.
      rewrite skipn_pre by reflexivity. cbn [act] in E. destruct uid as [u|]; [|discriminate].
      destruct (eqb (strip w) u); [|discriminate]. destruct wall; [|discriminate]. apply IH. auto.
    - rewrite (loop_facet_fold raw outer v1 v2 v3 stop rest wall held uid solids a b c t); auto;
        try (apply read_vertex_iff; auto; fail); try (rewrite Ew; reflexivity).
      + cbn [act] in E. destruct wall; [|discriminate]. apply IH; auto.
      + rewrite Ew, skipn_pre by reflexivity. apply read_normal_iff. auto.
    - cbn [read_loop].
      assert (Q : forall k, In k [str_of "solid"; str_of "endsolid"; str_of "facet"] -> starts_with k (strip raw) = false).
      { intros k I. destruct (starts_with k (strip raw)) eqn:S; auto. apply starts_with_iff in S. destruct S as (w & Ek).
        destruct (No k w I Ek). }
      rewrite !Q by (simpl; auto). apply IH. auto.
  Qed.

  (** ** Groups *)
  Definition in_group (u : str) (e : ev) : Prop := (exists t, e = Triangle t) \/ e = Closes u.

  (** From the inside of a group: what is still to come. *)
  Lemma act_group evs : forall w held u (nameless : bool) solids r,
    (nameless = true -> u = []) ->
    act evs (Some w) held (if nameless then None else Some u) solids = Ok r ->
    exists body evs' r', evs = body ++ evs' /\ (forall e, In e body -> in_group u e) /\
      (nameless = true -> closings body = 0) /\ (u = [] -> closings body <= 1) /\
      builds evs' r' /\ r = solids ++ repeat (w ++ triangles_in body) (held + closings body) ++ r'.
  Proof.
    induction evs as [|e evs IH]; intros w held u nm solids r Nm E.
    - cbn [act] in E. injection E as <-. exists [], [], []. cbn [triangles_in closings holders app].
      rewrite !app_nil_r, Nat.add_0_r. repeat split; auto; try (intros; lia); [intros e []|constructor].
    - destruct e as [v|t|v]; cbn [act] in E.
      + destruct (IH [] 0 v false (solids ++ holders (Some w) held) r ltac:(discriminate) E) as (b & evs' & r' & -> & G & _ & N & B & ->).
        exists [], (Opens v :: b ++ evs'), (repeat (triangles_in b) (closings b) ++ r').
        cbn [triangles_in closings app]. rewrite app_nil_r, Nat.add_0_r. repeat split; auto; try (intros; lia); [intros e []|constructor; auto|].
        cbn [holders]. rewrite <- !app_assoc. auto.
      + destruct (IH (w ++ [t]) held u nm solids r Nm E) as (b & evs' & r' & -> & G & Z & N & B & ->).
        exists (Triangle t :: b), evs', r'. cbn [triangles_in closings]. repeat split; auto.
        * intros e [<-|I]; [left; eauto|auto].
        * rewrite <- app_assoc. auto.
      + destruct nm; [discriminate|]. destruct (eqb v u) eqn:Ev; [|discriminate]. rewrite eqb_true in Ev. subst v.
        destruct (length u =? 0) eqn:Lu.
        * apply Nat.eqb_eq in Lu. apply length_zero_iff_nil in Lu.
          destruct (IH w (S held) u true solids r (fun _ => Lu) E) as (b & evs' & r' & -> & G & Z & N & B & ->).
          exists (Closes u :: b), evs', r'. cbn [triangles_in closings]. specialize (Z eq_refl). repeat split; auto; try discriminate; try (intros; lia).
          -- intros e [<-|I]; [right; auto|auto].
          -- rewrite Nat.add_succ_r. auto.
        * assert (Hu : u <> []) by (intros ->; discriminate).
          destruct (IH w (S held) u false solids r ltac:(discriminate) E) as (b & evs' & r' & -> & G & Z & N & B & ->).
          exists (Closes u :: b), evs', r'. cbn [triangles_in closings]. repeat split; auto; try discriminate; try contradiction.
          -- intros e [<-|I]; [right; auto|auto].
          -- rewrite Nat.add_succ_r. auto.
  Qed.

  Lemma group_act u body : (forall e, In e body -> in_group u e) -> forall evs w held (nameless : bool) solids,
    (nameless = true -> closings body = 0) -> (u = [] -> closings body <= 1) ->
    exists nm', act (body ++ evs) (Some w) held (if nameless then None else Some u) solids =
      act evs (Some (w ++ triangles_in body)) (held + closings body) (if nm' : bool then None else Some u) solids.
  Proof.
    induction body as [|e body IH]; intros G evs w held nm solids Z N; cbn [app triangles_in closings].
    - exists nm. rewrite app_nil_r, Nat.add_0_r. auto.
    - destruct (G e (or_introl eq_refl)) as [(t & ->)| ->]; cbn [act].
      + destruct (IH (fun e I => G e (or_intror I)) evs (w ++ [t]) held nm solids Z N) as (nm' & ->). exists nm'.
        cbn [triangles_in closings]. rewrite <- app_assoc. auto.
      + cbn [closings] in *. destruct nm; [specialize (Z eq_refl); discriminate|]. rewrite eqb_refl.
        destruct (length u =? 0) eqn:Lu.
        * apply Nat.eqb_eq in Lu. apply length_zero_iff_nil in Lu. specialize (N Lu).
          destruct (IH (fun e I => G e (or_intror I)) evs w (S held) true solids ltac:(intros; lia) ltac:(intros; lia)) as (nm' & ->).
          exists nm'. cbn [triangles_in]. rewrite Nat.add_succ_r. auto.
        * assert (Hu : u <> []) by (intros ->; discriminate).
          destruct (IH (fun e I => G e (or_intror I)) evs w (S held) false solids ltac:(discriminate) ltac:(contradiction)) as (nm' & ->).
          exists nm'. cbn [triangles_in]. rewrite Nat.add_succ_r. auto.
  Qed.

  Lemma builds_act evs r : builds evs r -> forall wall held uid solids,
    act evs wall held uid solids = Ok (solids ++ holders wall held ++ r).
  Proof.
    induction 1 as [|u body evs r G N B IH]; intros wall held uid solids.
    - cbn [act]. rewrite app_nil_r. auto.
    - cbn [act]. destruct (group_act u body G evs [] 0 false (solids ++ holders wall held) ltac:(discriminate) N) as (nm' & ->).
      rewrite IH. cbn [holders app Nat.add]. rewrite <- !app_assoc. auto.
  Qed.

  Lemma act_builds evs r : act evs None 0 None [] = Ok r <-> builds evs r.
  Proof.
    split.
    - destruct evs as [|[u|t|u] evs]; cbn [act]; intros E; try discriminate.
      + injection E as <-. constructor.
      + destruct (act_group evs [] 0 u false [] r ltac:(discriminate) E) as (b & evs' & r' & -> & G & _ & N & B & ->). constructor; auto.
    - intros B. rewrite (builds_act _ _ B). auto.
  Qed.

  Lemma read_any text r : read_stl parse new_tri text = Ok r <-> exists evs, tells (readlines text) evs /\ builds evs r.
  Proof.
    unfold read_stl. split.
    - intros E. destruct (loop_tells _ _ _ _ _ _ _ (le_n _) E) as (evs & T & A). exists evs. split; auto. apply act_builds. auto.
    - intros (evs & T & B). apply (tells_loop _ _ T). apply act_builds. auto.
  Qed.

  (** ** Errors *)
  Lemma lookup_err {A} (l : list A) i e : nth_row l i = Err e -> e = IndexError.
  Proof. unfold nth_row, lookup_row. destruct (nth_error l i); intros E; [discriminate|congruence]. Qed.
  Lemma float_err s e : to_float parse s = Err e -> e = ValueError.
  Proof. unfold to_float. destruct (parse s); intros E; [discriminate|congruence]. Qed.
  Lemma mapM_err l e : mapM (to_float parse) l = Err e -> e = ValueError.
  Proof.
    induction l as [|x l IH]; cbn [mapM]; [discriminate|]. destruct (to_float parse x) eqn:F; cbn [rbind].
    - destruct (mapM _ l); cbn [rbind]; [discriminate|]. intros E. apply IH. congruence.
    - intros E. apply float_err in F. congruence.
  Qed.
  Lemma vertex_err raw e : read_vertex parse raw = Err e -> e = ValueError \/ e = AssertionError.
  Proof.
    unfold read_vertex. destruct (starts_with _ _); [|intros E; right; congruence].
    destruct (mapM _ _) as [v|] eqn:M; cbn [rbind]; intros E; [|apply mapM_err in M; left; congruence].
    left. destruct v as [|x [|y [|z [|]]]]; cbn in E; congruence.
  Qed.

  Definition stl_error (e : pyerr) : Prop :=
    e = IndexError \/ e = ValueError \/ e = AssertionError \/ exists a b c, new_tri a b c = Err e.

  Lemma loop_err n : forall lines wall held uid solids e, length lines <= n ->
    loop lines wall held uid solids = Err e -> stl_error e.
  Proof.
    unfold stl_error. induction n as [|n IH]; intros lines wall held uid solids e L E.
    - destruct lines; [discriminate|simpl in L; lia].
    - destruct lines as [|raw rest]; [discriminate|]. simpl in L. cbn [read_loop] in E.
      destruct (starts_with _ _); [eapply IH; [|exact E]; lia|].
      destruct (starts_with _ _).
      + destruct (nth_row _ 1) as [m|] eqn:Q; [|apply lookup_err in Q; left; cbn [rbind] in E; congruence]. cbn [rbind] in E. clear Q.
        do 3 (match type of E with context [nth_row ?l ?i] => destruct (nth_row l i) eqn:Q; [|apply lookup_err in Q; left; cbn [rbind] in E; congruence] end;
          cbn [rbind] in E; clear Q;
          match type of E with context [to_float parse ?s] => destruct (to_float parse s) eqn:Q; [|apply float_err in Q; right; left; cbn [rbind] in E; congruence] end;
          cbn [rbind] in E; clear Q).
        destruct rest as [|l1 rest]; [left; congruence|]. destruct (negb _); [right; right; left; congruence|].
        do 3 (destruct rest as [|? rest]; [left; congruence|];
          match type of E with context [read_vertex parse ?s] => destruct (read_vertex parse s) eqn:Q; [|apply vertex_err in Q; cbn [rbind] in E; destruct Q; [right; left; congruence|right; right; left; congruence]] end;
          cbn [rbind] in E; clear Q).
        destruct rest as [|l5 rest]; [left; congruence|]. destruct (negb _); [right; right; left; congruence|].
        match type of E with context [new_tri ?a ?b ?c] => destruct (new_tri a b c) eqn:Q; [|right; right; right; exists a, b, c; cbn [rbind] in E; congruence] end.
        cbn [rbind] in E. destruct wall; [|right; left; congruence]. simpl in L. eapply IH; [|exact E]. lia.
      + destruct (starts_with _ _); [|eapply IH; [|exact E]; lia].
        destruct uid as [u|]; [|right; right; left; congruence]. destruct (eqb _ u); [|right; right; left; congruence].
        destruct wall; [|right; left; congruence]. eapply IH; [|exact E]. lia.
  Qed.

  Lemma read_err text e : read_stl parse new_tri text = Err e ->
    e = IndexError \/ e = ValueError \/ e = AssertionError \/ exists a b c, new_tri a b c = Err e.
  Proof. unfold read_stl. intros E. exact (loop_err _ _ _ _ _ _ _ (le_n _) E). Qed.
End Reading.

(** ** Line ends *)
Lemma readlines_ended e body rest : e = [NL] \/ e = [CR; NL] \/ (e = [CR] /\ hd_error rest <> Some NL) -> ~ In NL body -> ~ In CR body ->
  forall cur, readlines_aux (body ++ e ++ rest) cur = rev (NL :: rev body ++ cur) :: readlines_aux rest [].
Proof.
  intros E N1 N2. induction body as [|c body IH]; intros cur.
  - destruct E as [-> |[-> |(-> & H)]]; cbn [app rev].
    + cbn [readlines_aux]. rewrite Ascii.eqb_refl. reflexivity.
    + cbn [readlines_aux]. change (Ascii.eqb CR NL) with false. rewrite !Ascii.eqb_refl. reflexivity.
    + cbn [readlines_aux]. change (Ascii.eqb CR NL) with false. rewrite Ascii.eqb_refl. destruct rest as [|d rest]; [reflexivity|]. destruct (Ascii.eqb_spec d NL) as [->|]; [destruct H; reflexivity|]. reflexivity.
  - cbn [app readlines_aux]. destruct (Ascii.eqb_spec c NL) as [->|]; [exfalso; apply N1; simpl; auto|]. destruct (Ascii.eqb_spec c CR) as [->|]; [exfalso; apply N2; simpl; auto|].
    rewrite IH; [|intros I; apply N1; simpl; auto|intros I; apply N2; simpl; auto]. simpl. rewrite <- app_assoc. auto.
Qed.
Lemma line_ends e bodies : e = [NL] \/ e = [CR; NL] \/ e = [CR] -> (forall l, In l bodies -> ~ In NL l /\ ~ In CR l) -> readlines (concat (map (fun l => l ++ e) bodies)) = map (fun l => l ++ [NL]) bodies.
Proof.
  intros E. unfold readlines. induction bodies as [|l bodies IH]; intros H; [reflexivity|]. cbn [map concat]. rewrite <- app_assoc. destruct (H l (or_introl eq_refl)) as (N1 & N2). rewrite (readlines_ended e); auto.
  - rewrite IH by (intros; apply H; right; auto). cbn [rev]. rewrite app_nil_r, rev_involutive. reflexivity.
  - destruct E as [E|[E|E]]; auto. right. right. split; auto. destruct bodies as [|l' bodies]; cbn [map concat]; [discriminate|]. destruct (H l' (or_intror (or_introl eq_refl))) as (N3 & _). subst e. destruct l' as [|c l']; cbn [app hd_error]; [discriminate|]. intros X. injection X as ->. apply N3. left. auto.
Qed.
