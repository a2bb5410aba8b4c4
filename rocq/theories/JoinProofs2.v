(** Which solids of a building are stitched. *)
From Coq Require Import Ascii String List Arith Bool Lia.
From Verif Require Import Prelude TreeModel TreeSpec TreeProofs GraphModel GraphSpec GraphProofs GraphProofs2 JoinModel JoinSpec JoinProofs.
Import ListNotations.

Lemma stays_at h0 h b bo z s i : wf h0 -> wf h -> stays h0 h -> nth_error h0 b = Some bo -> o_kind bo = KBuilding -> descends h0 b [z; s] i -> solid_at h b z s = Ok i.
Proof.
  intros W0 W S Eb Kb D. inversion D as [|names j jo key c D1 Ej Ic A B]. apply (f_equal (@rev _)) in A. rewrite rev_app_distr in A. cbn in A. injection A as -> A. apply (f_equal (@rev _)) in A. rewrite rev_involutive in A. cbn in A. subst names c.
  inversion D1 as [|names k ko key c D2 Ek Ik A B]. apply (f_equal (@rev _)) in A. rewrite rev_app_distr in A. cbn in A. injection A as -> A. apply (f_equal (@rev _)) in A. rewrite rev_involutive in A. cbn in A. subst names c.
  inversion D2 as [Q|names l lo key c D3 El Il A B]; [subst k|exfalso; destruct names; discriminate]. assert (ko = bo) by congruence. subst ko.
  destruct (W0 b bo Eb) as (_ & C & _). destruct (C z j Ik) as (co & Ec & Nc & Kc). assert (co = jo) by congruence. subst co. rewrite Kb in Kc. cbn in Kc. injection Kc as Kj.
  destruct (S b bo Eb) as (bo' & Eb' & _ & Cb). destruct (S j jo Ej) as (jo' & Ej' & _ & Cj). unfold solid_at.
  rewrite (proj2 (getitem_child h b bo' z j W Eb')) by (apply Cb; auto). cbn [rbind]. apply (getitem_child h j jo' s i W Ej'). apply Cj; auto.
Qed.

Section Walk.
  Context (stitch : heap -> oid -> oid -> list op * result unit).
  Context (h0 : heap) (b : oid) (bo : obj) (W0 : wf h0) (L0 : linked h0) (Eb : nth_error h0 b = Some bo) (Kb : o_kind bo = KBuilding).
  Definition ends (e : str * str) (c : oid * oid) : Prop := at_path h0 b (fst e) (fst c) /\ at_path h0 b (snd e) (snd c).
  Lemma join_walk es : forall h done cs, wf h -> stays h0 h -> (forall e, In e es -> exists c, ends e c) -> stitch_edges done es = Ok cs ->
    exists ids, Forall2 ends cs ids /\ joined stitch h ids (fst (join_edges stitch h b done es)) (snd (join_edges stitch h b done es)).
  Proof.
    induction es as [|(k, a) es IH]; intros h done cs W S H Q; cbn [stitch_edges] in Q.
    - injection Q as <-. exists []. split; constructor.
    - destruct (H (k, a) (or_introl eq_refl)) as ((i, j) & Ai & Aj). cbn [fst snd] in Ai, Aj. assert (H' : forall e, In e es -> exists c, ends e c) by (intros e I; apply H; right; auto).
      destruct (at_parts h0 b bo W0 L0 Eb Kb k i Ai) as (z1 & s & Di & Ek & _). destruct (at_parts h0 b bo W0 L0 Eb Kb a j Aj) as (z2 & t & Dj & Ea & _).
      cbn [join_edges]. unfold stitch_edge in Q. rewrite Ek, Ea in *. destruct (existsb (same_pair (s, t)) done); cbn [rbind fst snd] in Q.
      + destruct (stitch_edges done es) as [cs'|] eqn:Q'; [|discriminate]. cbn [rbind] in Q. injection Q as <-. apply (IH h done cs' W S H' Q').
      + destruct (stitch_edges (done ++ [(s, t)]) es) as [cs'|] eqn:Q'; [|discriminate]. cbn [rbind app] in Q. injection Q as <-.
        rewrite (stays_at h0 h b bo z1 s i W0 W S Eb Kb Di), (stays_at h0 h b bo z2 t j W0 W S Eb Kb Dj).
        assert (W' : forall ops, wf (run h ops)) by (intros ops; apply run_wf; auto). assert (S' : forall ops, stays h0 (run h ops)) by (intros ops; eapply stays_trans; [exact S|apply stays_run]).
        destruct (stitch h i j) as (ops, [u|e]) eqn:E.
        * destruct (IH (run h ops) (done ++ [(s, t)]) cs' (W' ops) (S' ops) H' Q') as (ids & F & J). exists ((i, j) :: ids). split; [constructor; auto; split; auto|]. cbn [fst snd]. eapply joined_next; eauto.
        * destruct (IH h (done ++ [(s, t)]) cs' W S H' Q') as (ids & F & _). exists ((i, j) :: ids). split; [constructor; auto; split; auto|]. cbn [fst snd]. eapply joined_stop; eauto.
  Qed.

  Context (los : list str -> list str) (HS : set_listing los).
  Context (conn : oid -> oid -> Prop) (g : graph).
  Context (G1 : NoDup (map fst g)).
  Context (G : forall k x, In x (nbrs g k) <-> exists i j, inside_of h0 KPolygon b i /\ inside_of h0 KPolygon b j /\ i <> j /\ path h0 i = Ok k /\ path h0 j = Ok x /\ (conn i j \/ conn j i)).
  Lemma solid_edges x y : edge (strip_graph los g 2) x y <-> exists i j, adjacent conn h0 b i j /\ at_path h0 b x i /\ at_path h0 b y j.
  Proof.
    destruct (strip_graph_spec los g 2 HS) as (N1 & _ & _ & E). rewrite edge_nbrs by auto. rewrite E. split.
    - intros (N & k & a & Ed & -> & ->). apply edge_nbrs in Ed; auto. apply G in Ed. destruct Ed as (p & q & Ip & Iq & Npq & Pp & Pq & C).
      destruct (polygon_up h0 b bo W0 L0 Eb Kb p k Ip Pp) as (i & Ii & Ai). destruct (polygon_up h0 b bo W0 L0 Eb Kb q a Iq Pq) as (j & Ij & Aj).
      exists i, j. split; auto. split; [eapply at_solid; eauto|]. split; [eapply at_solid; eauto|]. split; [|exists p, q; auto].
      intros X. apply N. subst j. destruct Ai as (z & s & D & P), Aj as (z' & s' & D' & P'). congruence.
    - intros (i & j & (Ii & Ij & N & p & q & Ip & Iq & C) & Ai & Aj). split; [intros ->; apply N; eapply at_inj; eauto|].
      destruct (polygon_down h0 b bo W0 L0 Eb Kb i p x Ai Ip) as (Bp & k & Pk & <-). destruct (polygon_down h0 b bo W0 L0 Eb Kb j q y Aj Iq) as (Bq & a & Pa & <-).
      exists k, a. split; auto. apply edge_nbrs; auto. apply G. exists p, q. split; auto. split; auto. split; [|auto]. intros X. subst q. apply N. assert (a = k) by congruence. subst a. eapply at_inj; eauto.
  Qed.
  Lemma ends_names e c : ends e c -> names_of e (name_in h0 (fst c), name_in h0 (snd c)).
  Proof.
    intros (A & B). destruct (at_parts h0 b bo W0 L0 Eb Kb _ _ A) as (z & s & _ & E & <- & _). destruct (at_parts h0 b bo W0 L0 Eb Kb _ _ B) as (z' & s' & _ & E' & <- & _). split; [exists (o_name bo), z|exists (o_name bo), z']; auto.
  Qed.
  Lemma join_spec h : wf h -> stays h0 h -> exists ids, one_per_names (adjacent conn h0 b) h0 ids /\
    joined stitch h ids (fst (join_solids stitch h b (strip_graph los g 2))) (snd (join_solids stitch h b (strip_graph los g 2))).
  Proof.
    intros W S. set (g2 := strip_graph los g 2). destruct (stitch_calls_spec g2) as (cs & Ecs & I1 & I2 & I3).
    { intros x y Ed. apply solid_edges in Ed. destruct Ed as (i & j & _ & Ai & Aj). destruct (ends_names (x, y) (i, j)) as (A & B); [split; auto|]. split; eexists; eauto. }
    destruct (join_walk (flat_map (fun '(k, v) => map (fun a => (k, a)) v) g2) h [] cs W S) as (ids & F & J); auto.
    { intros (x, y) I. apply in_edges in I. cbn [fst snd] in I. apply solid_edges in I. destruct I as (i & j & _ & Ai & Aj). exists (i, j). split; auto. }
    exists ids. split; [|exact J]. split; [|split].
    - intros i j I. assert (X : exists e, In e cs /\ ends e (i, j)). { clear - F I. induction F as [|e c cs ids E F IH]; [destruct I|]. destruct I as [<-|I]; [exists e; split; [left|]; auto|]. destruct (IH I) as (e' & A & B). exists e'. split; [right|]; auto. }
      destruct X as ((x, y) & Ie & (A & B)). apply I1 in Ie. apply solid_edges in Ie. destruct Ie as (i' & j' & Adj & Ai & Aj). cbn [fst snd] in A, B. assert (i' = i) by exact (at_inj h0 b bo W0 L0 Eb Kb x i' i Ai A). assert (j' = j) by exact (at_inj h0 b bo W0 L0 Eb Kb y j' j Aj B). subst. auto.
    - intros i j Adj. destruct Adj as (Ii & Ij & R). destruct (solid_at_path h0 b bo W0 L0 Eb Kb i Ii) as (x & Ax). destruct (solid_at_path h0 b bo W0 L0 Eb Kb j Ij) as (y & Ay).
      destruct (ends_names (x, y) (i, j)) as (Nx & Ny); [split; auto|]. cbn [fst snd] in Nx, Ny.
      destruct (I2 x y _ _ (proj2 (solid_edges x y) (ex_intro _ i (ex_intro _ j (conj (conj Ii (conj Ij R)) (conj Ax Ay))))) Nx Ny) as (x' & y' & n' & m' & I & N1 & N2 & Sn).
      assert (X : exists c, In c ids /\ ends (x', y') c). { clear - F I. induction F as [|e c cs ids E F IH]; [destruct I|]. destruct I as [->|I]; [exists c; split; [left|]; auto|]. destruct (IH I) as (e' & A & B). exists e'. split; [right|]; auto. }
      destruct X as (c & Ic & Ec). exists c. split; auto. destruct (ends_names _ _ Ec) as (M1 & M2). cbn [fst snd] in M1, M2. unfold same_names. cbn [fst snd]. rewrite (solid_name_fun _ _ _ M1 N1), (solid_name_fun _ _ _ M2 N2). auto.
    - clear - F I3 W0 L0 Eb Kb. induction F as [|e c cs ids E F IH]; [constructor|]. inversion I3 as [|? ? Fe I3']; subst. constructor; [|apply IH; auto]. apply Forall_forall. intros d Id.
      assert (X : exists e', In e' cs /\ ends e' d). { clear - F Id. induction F as [|e c cs ids E F IH]; [destruct Id|]. destruct Id as [<-|Id]; [exists e; split; [left|]; auto|]. destruct (IH Id) as (e' & A & B). exists e'. split; [right|]; auto. }
      destruct X as (e' & Ie & Ed). rewrite Forall_forall in Fe. exact (Fe e' Ie _ _ (ends_names _ _ E) (ends_names _ _ Ed)).
  Qed.
End Walk.

Section Runs.
  Context (stitch : heap -> oid -> oid -> list op * result unit) (los : list str -> list str) (bbox isf isc ist : oid -> oid -> bool).
  Context (HS : set_listing los).

  Lemma cached_spec f o t ops0 ops1 b bo g0 c : NoDup (flat_map added ops0) -> nth_error (run [] ops0) b = Some bo -> o_kind bo = KBuilding ->
    building_graph bbox isf isc ist f o t (run [] ops0) b = Ok g0 -> c_graph c <> [] -> c_solid c = strip_graph los g0 2 ->
    let h := run [] (ops0 ++ ops1) in
    exists cs h' r, stitch_building stitch los bbox isf isc ist c h b = (c, (h', r)) /\ one_per_names (adjacent (conn_by bbox isf isc ist f o t) (run [] ops0) b) (run [] ops0) cs /\ joined stitch h cs h' r.
  Proof.
    intros ND E K G Nc Ec h. destruct (run_linked ops0 ND) as (W & L). destruct (building_graph_run bbox isf isc ist f o t ops0 b bo ND E K) as (g & G' & N & _ & _ & Gs). assert (g = g0) by congruence. subst g.
    destruct (join_spec stitch (run [] ops0) b bo W L E K los HS (conn_by bbox isf isc ist f o t) g0 N Gs h) as (cs & A & B); [apply run_wf, wf_nil|unfold h; rewrite run_app; apply stays_run|].
    exists cs. eexists. eexists. split; [|split; [exact A|exact B]]. unfold stitch_building, adjacent_solids. destruct (c_graph c); [congruence|]. rewrite Ec. rewrite <- surjective_pairing. auto.
  Qed.
  Lemma fresh_spec ops b bo c : NoDup (flat_map added ops) -> nth_error (run [] ops) b = Some bo -> o_kind bo = KBuilding -> c_graph c = [] ->
    let h := run [] ops in
    exists c' cs h' r, stitch_building stitch los bbox isf isc ist c h b = (c', (h', r)) /\ one_per_names (adjacent (conn_by bbox isf isc ist true true false) h b) h cs /\ joined stitch h cs h' r.
  Proof.
    intros ND E K Ec h. destruct (run_linked ops ND) as (W & L). destruct (building_graph_run bbox isf isc ist true true false ops b bo ND E K) as (g & G' & N & _ & _ & Gs).
    destruct (join_spec stitch (run [] ops) b bo W L E K los HS (conn_by bbox isf isc ist true true false) g N Gs h) as (cs & A & B); [apply run_wf, wf_nil|apply stays_refl|].
    eexists. exists cs. eexists. eexists. split; [|split; [exact A|exact B]]. unfold stitch_building, adjacent_solids. rewrite Ec. fold h in G'. rewrite G'. unfold get_graph. rewrite Ec. cbn [c_solid].
    rewrite <- surjective_pairing. unfold graph_level. destruct g; reflexivity.
  Qed.
End Runs.

(** Distinct names: every adjacent pair once. *)
Lemma unique_pairs conn h b cs : (forall i j, inside_of h KSolid b i -> inside_of h KSolid b j -> name_in h i = name_in h j -> i = j) ->
  one_per_names (adjacent conn h b) h cs -> NoDup cs /\ forall i j, adjacent conn h b i j -> (In (i, j) cs /\ ~ In (j, i) cs) \/ (In (j, i) cs /\ ~ In (i, j) cs).
Proof.
  intros U (A & B & C). split.
  - apply (ForallOrdPairs_irrefl_NoDup _ cs) with (2 := C). intros x _ N. apply N. left. auto.
  - assert (X : forall i j, In (i, j) cs -> ~ In (j, i) cs).
    { intros i j I J. destruct (A i j I) as (_ & _ & N & _). destruct (ForallOrdPairs_cases _ cs _ _ C I J) as [Q|[Q|Q]].
      - injection Q as -> _. apply N. auto.
      - apply Q. right. auto.
      - apply Q. right. auto. }
    intros i j Adj. destruct (B i j Adj) as ((i', j') & I & S). destruct (A i' j' I) as (Ii' & Ij' & _). destruct Adj as (Ii & Ij & _). destruct S as [S|(S1 & S2)]; cbn [fst snd] in *.
    + injection S as S1 S2. rewrite (U i i' Ii Ii' S1), (U j j' Ij Ij' S2) in *. left. split; auto.
    + rewrite (U i j' Ii Ij' S1), (U j i' Ij Ii' S2) in *. right. split; auto.
Qed.
(** The loop itself raises nothing. *)
Lemma joined_error stitch h cs h' e : joined stitch h cs h' (Err e) -> exists g i j ops, In (i, j) cs /\ stitch g i j = (ops, Err e).
Proof.
  intros J. remember (Err e) as r. revert e Heqr. induction J as [h|h i j ops u cs h' r E J IH|h i j ops e cs E]; intros e' Q; [discriminate| |].
  - destruct (IH e' Q) as (g & i' & j' & ops' & I & X). exists g, i', j', ops'. split; [right|]; auto.
  - injection Q as <-. exists h, i, j, ops. split; [left|]; auto.
Qed.
