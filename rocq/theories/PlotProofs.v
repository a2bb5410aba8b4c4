(** Proofs: what is drawn. *)
From Coq Require Import List Arith Bool Lia.
From Verif Require Import Prelude MeshModel PlotModel PlotSpec.
Import ListNotations.

Lemma tells_faces fs : tells (flat_faces fs) (map corners3 fs).
Proof. induction fs as [|((a, b), c) fs IH]; [constructor|]. exact (tells_cons [a; b; c] _ _ IH). Qed.
Lemma tells_lines ls : tells (flat_lines ls) ls.
Proof. induction ls as [|l ls IH]; [constructor|]. exact (tells_cons l _ _ IH). Qed.
Lemma tells_one flat cells : tells flat cells -> forall cells', tells flat cells' -> cells' = cells.
Proof.
  induction 1 as [|c flat cells T IH]; intros cells' T'; inversion T' as [|c' flat' cells'' T'' E]; subst; auto.
  match goal with E : _ ++ _ = _ ++ _, L : length _ = length _ |- _ => apply app_eq_app in E; rename L into Lc end.
  assert (c' = c /\ flat' = flat) as (-> & ->).
  { match goal with H : exists l, _ |- _ => destruct H as (l & [(A & B)|(A & B)]) end; rewrite A, app_length in Lc; (destruct l; [|cbn in Lc; lia]); rewrite app_nil_r in A; cbn in B; auto. }
  f_equal. auto.
Qed.

Lemma any_dec {P} (o : plottable (P := P)) : has_any o \/ ~ has_any o.
Proof. unfold has_any. destruct (get_mesh o); [left; left; discriminate|]. destruct (get_lines o); [left; right; left; discriminate|]. destruct (get_points o); [left; right; right; discriminate|right; intuition congruence]. Qed.
Lemma any_or_none {P} (objects : list (plottable (P := P))) : (forall o, In o objects -> has_any o) \/ (exists o, In o objects /\ ~ has_any o).
Proof. induction objects as [|o r [IH|(o' & I & H)]]; [left; intros o []| |right; exists o'; split; [right|]; auto]. destruct (any_dec o); [left; intros x [<-|I]; auto|right; exists o; split; [left|]; auto]. Qed.

Section Plot.
  Context {P C : Type} (white : C) (rnd : nat -> C).
  Notation plot := (plot_objects (P := P) white rnd).

  (** The colour of each object. *)
  Definition wanted (n : nat) (colors : list C) : list C := match colors with [] => if n =? 1 then [white] else map rnd (seq 0 n) | _ => if n =? 1 then [white] else colors end.
  Lemma color_ok n colors k c : n <> 0 -> (colors = [] \/ length colors = n) -> nth_error (wanted n colors) k = Some c -> color_of white rnd n colors k = Ok c.
  Proof.
    intros N L E. unfold color_of, wanted in *. destruct (Nat.eqb_spec n 1) as [->|N1].
    - cbn [Nat.ltb Nat.leb andb]. destruct colors; (destruct k as [|k]; [injection E as ->; reflexivity|destruct k; discriminate E]).
    - assert (H : (1 <? n) = true) by (apply Nat.ltb_lt; lia). rewrite H. cbn [andb]. destruct colors as [|c0 cs].
      + cbn [length Nat.eqb]. rewrite nth_error_map in E. destruct (nth_error (seq 0 n) k) as [j|] eqn:J; [|discriminate]. cbn in E. injection E as <-.
        f_equal. f_equal. assert (k < n) by (rewrite <- (seq_length n 0); apply nth_error_Some; congruence). rewrite (nth_error_nth' _ 0) in J by (rewrite seq_length; auto). rewrite seq_nth in J by auto. injection J as <-. reflexivity.
      + destruct L as [L|L]; [discriminate|]. rewrite L. destruct (n =? 0) eqn:Z; [apply Nat.eqb_eq in Z; lia|]. rewrite Nat.eqb_refl, E. reflexivity.
  Qed.
  Lemma wanted_length n colors : n <> 0 -> (colors = [] \/ length colors = n) -> length (wanted n colors) = n.
  Proof. intros N L. unfold wanted. destruct (Nat.eqb_spec n 1) as [->|]; [destruct colors; reflexivity|]. destruct colors; [rewrite map_length, seq_length; auto|]. destruct L; [discriminate|auto]. Qed.
  Lemma draw_ok n colors k o c : n <> 0 -> (colors = [] \/ length colors = n) -> nth_error (wanted n colors) k = Some c ->
    (has_any o -> exists ds, draw_object white rnd n colors k o = Ok ds /\ shows o c ds) /\ (~ has_any o -> draw_object (P := P) white rnd n colors k o = Err AssertionError).
  Proof.
    intros N L E. unfold draw_object. rewrite (color_ok n colors k c N L E). cbn [rbind]. destruct o as [m l p]; unfold has_any; cbn [get_mesh get_lines get_points]. split.
    - intros H.
      assert (S1 : shows (mkPlottable m l p) c ((match m with Some (vs, fs) => [DrawMesh vs (flat_faces fs) c] | None => [] end) ++ (match l with Some (vs, ls) => [DrawLines vs (flat_lines ls) c] | None => [] end) ++ (match p with Some vs => [DrawPoints vs c] | None => [] end))).
      { do 3 eexists. split; [reflexivity|]. cbn [get_mesh get_lines get_points]. split; [intros ->; reflexivity|]. split; [intros vs fs ->; eexists; split; [reflexivity|apply tells_faces]|]. split; [intros ->; reflexivity|]. split; [intros vs ls ->; eexists; split; [reflexivity|apply tells_lines]|]. split; [intros ->; reflexivity|intros vs ->; reflexivity]. }
      destruct m, l, p; try (eexists; split; [reflexivity|exact S1]). exfalso. destruct H as [H|[H|H]]; apply H; reflexivity.
    - intros H. destruct m as [m|]; [exfalso; apply H; left; discriminate|]. destruct l as [l|]; [exfalso; apply H; right; left; discriminate|]. destruct p as [p|]; [exfalso; apply H; right; right; discriminate|]. reflexivity.
  Qed.
  Lemma draws_ok n colors objects : n <> 0 -> (colors = [] \/ length colors = n) -> forall k, k + length objects <= n ->
    ((forall o, In o objects -> has_any o) -> exists dss, draw_from white rnd n colors k objects = Ok (concat dss) /\ length dss = length objects /\ forall j o c d, nth_error objects j = Some o -> nth_error (wanted n colors) (k + j) = Some c -> nth_error dss j = Some d -> shows o c d) /\
    ((exists o, In o objects /\ ~ has_any o) -> draw_from (P := P) white rnd n colors k objects = Err AssertionError).
  Proof.
    intros N L. induction objects as [|o r IH]; intros k K.
    - split; [intros _; exists []; split; [reflexivity|split; [reflexivity|intros [|j] ? ? ? X; discriminate X]]|intros (o & [] & _)].
    - cbn [length] in K. destruct (nth_error (wanted n colors) k) as [c|] eqn:E; [|apply nth_error_None in E; rewrite wanted_length in E by auto; lia].
      destruct (draw_ok n colors k o c N L E) as (A & B). destruct (IH (S k)) as (IA & IB); [lia|]. cbn [draw_from]. split.
      + intros H. destruct (A (H o (or_introl eq_refl))) as (ds & Ed & Sd). destruct IA as (dss & Es & Ls & Hs); [intros; apply H; right; auto|]. exists (ds :: dss). rewrite Ed. cbn [rbind]. rewrite Es. split; [reflexivity|]. split; [cbn; auto|].
        intros [|j] o' c' d' X Y Z; cbn [nth_error] in X, Z.
        * injection X as <-. injection Z as <-. rewrite Nat.add_0_r in Y. assert (c' = c) by congruence. subst c'. exact Sd.
        * apply (Hs j); auto. replace (S k + j) with (k + S j) by lia. exact Y.
      + intros (o' & [<-|I] & Ho); [rewrite (B Ho); reflexivity|]. assert (D : draw_object white rnd n colors k o = Err AssertionError \/ exists ds, draw_object white rnd n colors k o = Ok ds).
        { pose proof (any_dec o) as Dec. destruct Dec as [Y|Y]; [right; destruct (A Y) as (ds & Ed & _); eauto|left; auto]. }
        destruct D as [-> |(ds & ->)]; [reflexivity|]. cbn [rbind]. rewrite IB by eauto. reflexivity.
  Qed.
  Lemma plot_ok objects colors : objects <> [] -> (colors = [] \/ length colors = length objects) -> 
    ((forall o, In o objects -> has_any o) -> exists ds, plot objects colors = Ok ds /\ all_shown objects (wanted (length objects) colors) ds) /\ ((exists o, In o objects /\ ~ has_any o) -> plot objects colors = Err AssertionError).
  Proof.
    intros N L. assert (N0 : length objects <> 0) by (destruct objects; [congruence|discriminate]). unfold plot_objects.
    destruct (Nat.eqb_spec (length objects) 0); [contradiction|].
    assert (G : (0 <? length colors) && negb (length colors =? length objects) = false) by (destruct L as [-> |L]; [reflexivity|rewrite L, Nat.eqb_refl, andb_false_r; reflexivity]). rewrite G.
    destruct (draws_ok (length objects) colors objects N0 L 0 (le_n _)) as (A & B). split; [|exact B]. intros H. destruct (A H) as (dss & E & Ls & Hs). exists (concat dss). split; [exact E|]. exists dss. split; [reflexivity|]. split; [exact Ls|]. split; [apply wanted_length; auto|]. intros k o c d X Y Z. exact (Hs k o c d X Y Z).
  Qed.
End Plot.
