(** Proofs about locating a point among solids, whatever their shape. *)
From Coq Require Import Ascii String List Arith Bool Lia.
From Verif Require Import Prelude TreeModel TreeSpec TreeProofs TreeProofs2 GraphModel GraphSpec GraphProofs GraphProofs2.
Import ListNotations.

Section Locate.
  Context (int_of : str -> option BinNums.Z) (inside : oid -> bool) (occ : oid -> Prop) (ops : list op) (b : oid) (bo : obj) (hints : list str).
  Hypothesis Nd : NoDup (flat_map added ops).
  Hypothesis Eb : nth_error (run [] ops) b = Some bo.
  Hypothesis Kb : o_kind bo = KBuilding.

  Lemma solid_at_path p i : is_solid_at int_of (run [] ops) b p i -> inside_of (run [] ops) KSolid b i /\ path (run [] ops) i = Ok p.
  Proof.
    intros (G & K). destruct (run_linked ops Nd) as (W & L). destruct (proj1 (building_get_obj int_of _ b bo p i W Eb) G) as (ns & -> & _ & _ & D).
    split; [split; [exact K|eauto]|]. exact (descends_path _ b bo ns i W L Eb Kb D).
  Qed.

  Hypothesis Oc : forall i, inside_of (run [] ops) KSolid b i -> (inside i = true <-> occ i).
  Hypothesis Hs : forall p, In p hints -> exists i, is_solid_at int_of (run [] ops) b p i.

  Lemma locate_some : (exists i, inside_of (run [] ops) KSolid b i /\ occ i /\ find_location int_of inside (run [] ops) b hints = path (run [] ops) i) \/
    (find_location int_of inside (run [] ops) b hints = Err RuntimeError /\ forall i, inside_of (run [] ops) KSolid b i -> ~ occ i).
  Proof.
    destruct (find_location_run int_of inside ops b bo hints Nd Eb Kb) as (ps & Mp & So & Fl & Fr & _).
    assert (Al : forall p, In p (hints ++ ps) -> exists i, is_solid_at int_of (run [] ops) b p i).
    { intros p I. apply in_app_iff in I. destruct I as [I|I]; [auto|]. destruct (run_linked ops Nd) as (W & L).
      assert (X : forall l ps, mapM (path (run [] ops)) l = Ok ps -> In p ps -> exists i, In i l /\ path (run [] ops) i = Ok p).
      { clear. induction l as [|i l IH]; intros ps M I; cbn [mapM] in M; [injection M as <-; destruct I|].
        destruct (path (run [] ops) i) as [q|e] eqn:E; cbn [rbind] in M; [|discriminate]. destruct (mapM _ l) as [qs|e] eqn:E'; cbn [rbind] in M; [|discriminate].
        injection M as <-. destruct I as [->|I]; [exists i; split; [left; auto|auto]|]. destruct (IH qs eq_refl I) as (j & J & P). exists j. split; [right; auto|auto]. }
      destruct (X _ _ Mp I) as (i & Ii & P). exists i. apply So in Ii. destruct Ii as (K & ns & D). destruct K as (o & Eo & Ko).
      apply (skipped_solid int_of (run [] ops) b bo i p W L Eb Kb); [exists ns, o; auto|auto]. }
    assert (Y : forall l pre, (forall p, In p l -> exists i, is_solid_at int_of (run [] ops) b p i) -> Forall (skipped int_of inside (run [] ops) b) pre ->
      (exists l1 loc l2 i, pre ++ l = l1 ++ loc :: l2 /\ is_solid_at int_of (run [] ops) b loc i /\ inside i = true /\ Forall (skipped int_of inside (run [] ops) b) l1) \/ Forall (skipped int_of inside (run [] ops) b) (pre ++ l)).
    { clear. induction l as [|p l IH]; intros pre A F; [right; rewrite app_nil_r; auto|]. destruct (A p (or_introl eq_refl)) as (i & S). destruct (inside i) eqn:E.
      - left. exists pre, p, l, i. auto.
      - replace (pre ++ p :: l) with ((pre ++ [p]) ++ l) by (rewrite <- app_assoc; auto). apply IH; [intros; apply A; right; auto|]. apply Forall_app. split; auto. constructor; [exists i; auto|constructor]. }
    destruct (Y (hints ++ ps) [] Al (Forall_nil _)) as [(l1 & loc & l2 & i & E & S & I & F)|F].
    - left. destruct (solid_at_path loc i S) as (A & P). exists i. split; [exact A|]. split; [apply Oc; auto|]. rewrite P. apply Fl. exists l1, l2, i. auto.
    - right. cbn [app] in F. apply Forall_app in F. destruct F as (F1 & F2).
      assert (Z : forall i, inside_of (run [] ops) KSolid b i -> inside i = false).
      { intros i Hi. destruct (run_linked ops Nd) as (W & L). pose proof Hi as ((o & Eo & Ko) & ns & D).
        assert (P : path (run [] ops) i = Ok (join_with PATH_SEP (o_name bo :: ns))) by (exact (descends_path _ b bo ns i W L Eb Kb D)).
        assert (Ip : In (join_with PATH_SEP (o_name bo :: ns)) ps).
        { apply So in Hi. revert Mp Hi P. clear. generalize (building_solids (run [] ops) b) as l. intros l. revert ps. induction l as [|j l IH]; intros ps M I P; [destruct I|]. cbn [mapM] in M.
          destruct (path (run [] ops) j) as [q|e] eqn:E; cbn [rbind] in M; [|discriminate]. destruct (mapM _ l) as [qs|e] eqn:E'; cbn [rbind] in M; [|discriminate].
          injection M as <-. destruct I as [->|I]; [left; congruence|right; apply (IH qs); auto]. }
        rewrite Forall_forall in F2. destruct (F2 _ Ip) as (j & S & N). destruct S as (G & _).
        destruct (path_get_roundtrip int_of (run [] ops) b bo ns i W L Eb Kb D) as (p' & P' & G' & _). rewrite P in P'. injection P' as P'. subst p'. assert (X : Ok (GotObj j) = Ok (GotObj i)) by (rewrite <- G, <- G'; reflexivity). injection X as ->. exact N. }
      split; [apply Fr; auto|]. intros i Hi O. apply (Oc i Hi) in O. rewrite (Z i Hi) in O. discriminate.
  Qed.
  Lemma locate_only i : (forall j k, inside_of (run [] ops) KSolid b j -> inside_of (run [] ops) KSolid b k -> occ j -> occ k -> j = k) ->
    inside_of (run [] ops) KSolid b i -> occ i -> find_location int_of inside (run [] ops) b hints = path (run [] ops) i.
  Proof.
    intros U Hi O. destruct locate_some as [(j & Hj & Oj & E)|(_ & N)]; [|destruct (N i Hi O)]. rewrite (U i j Hi Hj O Oj). exact E.
  Qed.
End Locate.
