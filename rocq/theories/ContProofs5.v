(** Copies of a SolidMesh; the class Mesh. *)
From Coq Require Import Ascii String Reals List Bool Arith Lia Lra Sorted.
From Verif Require Import Prelude MeshModel VecModel VecProofs GeomModel TriModel TriProofs MshModel MshSpec MshProofs MshProofs6 MshProofs7 MshProofs8
  ContModel ContSpec ContProofs ContProofs2 ContProofs3 ContProofs4.
Import ListNotations.
Local Open Scope nat_scope.

(** Filtering two lists by one of them. *)
Section F.
  Context {A B : Type} (f : B -> bool).
  Fixpoint places (n : nat) (b : list B) : list nat :=
    match b with [] => [] | x :: r => if f x then n :: places (S n) r else places (S n) r end.
  Lemma places_ge b : forall n, Forall (le n) (places n b).
  Proof.
    induction b as [|x b IH]; intros n; cbn [places]; [constructor|].
    assert (H : Forall (le n) (places (S n) b)) by (eapply Forall_impl; [|apply IH]; cbn; lia).
    destruct (f x); [constructor; [lia|exact H]|exact H].
  Qed.
  Lemma places_sorted b : forall n, StronglySorted lt (places n b).
  Proof.
    induction b as [|x b IH]; intros n; cbn [places]; [constructor|]. destruct (f x); [|apply IH]. constructor; [apply IH|].
    eapply Forall_impl; [|apply places_ge]. cbn. lia.
  Qed.
  Lemma in_places b : forall n i, In i (places n b) <-> exists k x, i = n + k /\ nth_error b k = Some x /\ f x = true.
  Proof.
    induction b as [|x b IH]; intros n i; cbn [places].
    - split; [intros []|]. intros ([|k] & y & _ & E & _); discriminate.
    - assert (H : In i (places (S n) b) <-> exists k y, i = n + S k /\ nth_error (x :: b) (S k) = Some y /\ f y = true).
      { rewrite IH. split; intros (k & y & -> & E & F); exists k, y; repeat split; auto; lia. }
      assert (G : (exists k y, i = n + k /\ nth_error (x :: b) k = Some y /\ f y = true) <-> (i = n /\ f x = true) \/ exists k y, i = n + S k /\ nth_error (x :: b) (S k) = Some y /\ f y = true).
      { split.
        - intros ([|k] & y & E & N & F); [left; cbn in N; split; [lia|congruence]|right; exists k, y; auto].
        - intros [(E & F)|(k & y & E)]; [exists 0, x; repeat split; auto; lia|exists (S k), y; exact E]. }
      rewrite G, <- H. destruct (f x) eqn:FX; cbn [In]; intuition congruence.
  Qed.
  Lemma places_right b : forall pre, map Some (filter f b) = map (nth_error (pre ++ b)) (places (length pre) b).
  Proof.
    induction b as [|x b IH]; intros pre; cbn [places filter]; [reflexivity|].
    specialize (IH (pre ++ [x])). rewrite app_length, <- app_assoc in IH. cbn [length app] in IH. rewrite Nat.add_1_r in IH.
    destruct (f x); [|exact IH]. cbn [map]. rewrite nth_error_app2, Nat.sub_diag by lia. cbn [nth_error]. f_equal. exact IH.
  Qed.
  Lemma places_left b : forall (a pre : list A), length a = length b ->
    map Some (map fst (filter (fun x => f (snd x)) (combine a b))) = map (nth_error (pre ++ a)) (places (length pre) b).
  Proof.
    induction b as [|x b IH]; intros [|y a] pre L; try discriminate; cbn [places combine filter]; [reflexivity|].
    specialize (IH a (pre ++ [y])). rewrite app_length, <- app_assoc in IH. cbn [length app] in IH. rewrite Nat.add_1_r in IH.
    cbn [length] in L. specialize (IH ltac:(lia)). cbn [snd].
    destruct (f x); [|exact IH]. cbn [map fst]. rewrite nth_error_app2, Nat.sub_diag by lia. cbn [nth_error]. f_equal. exact IH.
  Qed.
  Lemma filter_selected (a : list A) b : length a = length b ->
    selected (fun i => exists x, nth_error b i = Some x /\ f x = true) a (map fst (filter (fun x => f (snd x)) (combine a b))) /\
    selected (fun i => exists x, nth_error b i = Some x /\ f x = true) b (filter f b).
  Proof.
    intros L. assert (H : forall i, In i (places 0 b) <-> i < length b /\ exists x, nth_error b i = Some x /\ f x = true).
    { intros i. rewrite in_places. split.
      - intros (k & x & -> & E & F). cbn [plus]. split; [apply nth_error_Some; congruence|eauto].
      - intros (_ & x & E & F). exists i, x. auto. }
    split; exists (places 0 b); (split; [apply places_sorted|]); (split; [try rewrite L; exact H|]).
    - exact (places_left b a [] L).
    - exact (places_right b []).
  Qed.
End F.

Section C.
  Context {T : Type}.
  Lemma forall2_moved vs vs' els els' l : map (points_of vs') els' = map (points_of vs) els -> Forall2 (has_volume vs) els l -> Forall2 (has_volume vs') els' l.
  Proof.
    intros E F. revert els' E. induction F as [|e v els l V F IH]; intros [|e' els'] E; cbn [map] in E; try discriminate; [constructor|].
    assert (E1 : points_of vs e = points_of vs' e') by congruence. assert (E2 : map (points_of vs') els' = map (points_of vs) els) by congruence.
    constructor; [|apply IH; exact E2]. eapply volume_moved; [exact E1|exact V].
  Qed.
  Lemma filter_volumes vs els l (f : R -> bool) : Forall2 (has_volume vs) els l ->
    Forall2 (has_volume vs) (map fst (filter (fun x => f (snd x)) (combine els l))) (filter f l).
  Proof. induction 1 as [|e v els l V F IH]; cbn [combine filter snd]; [constructor|]. destruct (f v); [cbn [map fst]; constructor; assumption|exact IH]. Qed.

  Lemma copy_small (m : @solidmesh T) v m' : Forall2 (has_volume (md_vs (sm_data m))) (md_els (sm_data m)) (md_sizes (sm_data m)) -> sm_copy m None (Some v) = Ok m' ->
    let vol i := exists x, nth_error (md_sizes (sm_data m)) i = Some x /\ (x < v)%R in
    exists kept, selected vol (md_els (sm_data m)) kept /\ selected vol (md_sizes (sm_data m)) (md_sizes (sm_data m')) /\
      map (points_of (md_vs (sm_data m'))) (md_els (sm_data m')) = map (points_of (md_vs (sm_data m))) kept /\
      Forall2 (has_volume (md_vs (sm_data m'))) (md_els (sm_data m')) (md_sizes (sm_data m')) /\
      (forall i, i < length (md_vs (sm_data m')) -> used (md_els (sm_data m')) i).
  Proof.
    intros F E vol. unfold sm_copy in E. pose proof (filter_volumes _ _ _ (fun x => Rltb x v) F) as FV.
    pose proof (filter_selected (fun x => Rltb x v) (md_els (sm_data m)) (md_sizes (sm_data m)) (f2_len _ _ _ F)) as (S1 & S2).
    set (kept := map fst (filter (fun x => Rltb (snd x) v) (combine (md_els (sm_data m)) (md_sizes (sm_data m))))) in *.
    destruct (purge_mesh (md_vs (sm_data m)) kept) as [[vs' els']|] eqn:PM; [|discriminate]. cbn [rbind fst snd] in E. injection E as <-.
    destruct (purge_spec _ _ _ _ PM) as (P1 & P2 & P3). exists kept. cbn [sm_data md_vs md_els md_sizes].
    assert (EQ : forall i, (exists x, nth_error (md_sizes (sm_data m)) i = Some x /\ Rltb x v = true) <-> vol i).
    { intros i. unfold vol. split; intros (x & A & B); exists x; (split; [exact A|]); apply Rltb_true; exact B. }
    assert (SE : forall {X} (P Q : nat -> Prop) (l l' : list X), (forall i, P i <-> Q i) -> selected P l l' -> selected Q l l').
    { intros X P Q l l' H (ix & A & B & C). exists ix. split; [exact A|]. split; [|exact C]. intros i. rewrite B, H. reflexivity. }
    split; [eapply SE; [exact EQ|exact S1]|]. split; [eapply SE; [exact EQ|exact S2]|]. split; [exact P2|]. split; [|exact P3].
    eapply forall2_moved; [exact P2|exact FV].
  Qed.
  Lemma filter_fst_in {X Y} (f : X * Y -> bool) (a : list X) (b : list Y) x : In x (map fst (filter f (combine a b))) -> In x a.
  Proof. intros I. apply in_map_iff in I. destruct I as ([y z] & <- & I). apply filter_In in I. destruct I as (I & _). apply in_combine_l in I. exact I. Qed.
  Lemma copy_total (m : @solidmesh T) v : (forall e1 e2, In e1 (md_els (sm_data m)) -> In e2 (md_els (sm_data m)) -> length e1 = length e2) ->
    exists m', sm_copy m None (Some v) = Ok m'.
  Proof.
    intros H. unfold sm_copy.
    destruct (purge_fails (md_vs (sm_data m)) (map fst (filter (fun x => Rltb (snd x) v) (combine (md_els (sm_data m)) (md_sizes (sm_data m)))))) as [(q & E)|(_ & e1 & e2 & I1 & I2 & N)].
    - rewrite E. cbn [rbind]. eauto.
    - exfalso. apply N. apply H; eapply filter_fst_in; eassumption.
  Qed.
  Lemma copy_elements (m : @solidmesh T) els v m' : sm_copy m (Some els) v = Ok m' ->
    map (points_of (md_vs (sm_data m'))) (md_els (sm_data m')) = map (points_of (md_vs (sm_data m))) els /\
    (forall i, i < length (md_vs (sm_data m')) -> used (md_els (sm_data m')) i) /\ md_sizes (sm_data m') = [].
  Proof.
    unfold sm_copy. destruct (purge_mesh (md_vs (sm_data m)) els) as [[vs' els']|] eqn:PM; [|destruct v; discriminate].
    intros E. assert (E' : m' = SM (sm_solids m) (MD vs' [] els' [] [])) by (destruct v; cbn [rbind fst snd] in E; congruence). subst m'.
    destruct (purge_spec _ _ _ _ PM) as (_ & P2 & P3). auto.
  Qed.
End C.

(** Adding with a unique key. *)
Section W.
  Context {P S' : Type} (uid : P -> str) (suid sname : S' -> str) (svolume : S' -> R) (walls : S' -> list P).
  Definition tagged {X} (key : X -> str) (l : list X) : dict str X := map (fun x => (key x, x)) l.
  Lemma dkeys_tagged {X} (key : X -> str) l : dkeys (tagged key l) = map key l.
  Proof. unfold dkeys, tagged. rewrite map_map. reflexivity. Qed.
  Lemma nodup_snoc {X} (l : list X) x : NoDup l -> ~ In x l -> NoDup (l ++ [x]).
  Proof. intros N I. apply NoDup_rev in N. rewrite <- (rev_involutive (l ++ [x])). apply NoDup_rev. rewrite rev_app_distr. cbn. constructor; [|exact N]. intros J. apply I. apply in_rev. exact J. Qed.

  Definition with_polys (m : @wmesh P S') (l : dict str P) : wmesh := WM (PM l (pm_data (wm_poly m))) (wm_solid m).
  Lemma polys_spec ps : forall m, NoDup (dkeys (pm_polys (wm_poly m))) -> exists ps1 ps2, ps = ps1 ++ ps2 /\
    NoDup (dkeys (pm_polys (wm_poly m)) ++ map uid ps1) /\
    (each (wm_add_polygon uid) m ps) = (with_polys m (pm_polys (wm_poly m) ++ tagged uid ps1), match ps2 with [] => None | _ => Some MeshError end) /\
    (ps2 = [] \/ exists p r, ps2 = p :: r /\ In (uid p) (dkeys (pm_polys (wm_poly m)) ++ map uid ps1)).
  Proof.
    induction ps as [|p ps IH]; intros m N.
    - exists [], []. cbn [each app map]. unfold with_polys, tagged. cbn [map]. rewrite !app_nil_r. split; [reflexivity|]. split; [exact N|]. split; [|auto].
      destruct m as [[a b] c]. reflexivity.
    - cbn [each].
      assert (ST : wm_add_polygon uid m p = if memb (uid p) (dkeys (pm_polys (wm_poly m))) then (m, Some MeshError) else (WM (PM (dset (pm_polys (wm_poly m)) (uid p) p) (pm_data (wm_poly m))) (wm_solid m), None)).
      { unfold wm_add_polygon, pm_add. destruct (memb _ _); reflexivity. }
      rewrite ST. clear ST. destruct (memb (uid p) (dkeys (pm_polys (wm_poly m)))) eqn:MB.
      + exists [], (p :: ps). unfold with_polys, tagged. cbn [map app]. rewrite !app_nil_r. split; [reflexivity|]. split; [exact N|]. split; [destruct m as [[a b] c]; reflexivity|].
        right. exists p, ps. split; [reflexivity|]. apply memb_true. exact MB.
      + apply memb_false in MB. rewrite dset_new by exact MB.
        destruct (IH (WM (PM (pm_polys (wm_poly m) ++ [(uid p, p)]) (pm_data (wm_poly m))) (wm_solid m))) as (ps1 & ps2 & -> & A & B & C).
        { cbn [wm_poly pm_polys]. unfold dkeys. rewrite map_app. cbn [map fst]. apply nodup_snoc; assumption. }
        cbn [wm_poly pm_polys] in A, B, C. unfold dkeys in A, C. rewrite map_app in A, C. cbn [map fst] in A, C. rewrite <- app_assoc in A, C. cbn [app] in A, C.
        exists (p :: ps1), ps2. split; [reflexivity|]. split; [exact A|]. split; [|exact C]. rewrite B. unfold with_polys. cbn [wm_poly pm_polys pm_data wm_solid].
        rewrite <- app_assoc. reflexivity.
  Qed.

  Definition with_all (m : @wmesh P S') (ss : list S') (ps : list P) : wmesh :=
    WM (PM (pm_polys (wm_poly m) ++ tagged uid ps) (pm_data (wm_poly m))) (SM (sm_solids (wm_solid m) ++ tagged suid ss) (sm_data (wm_solid m))).
  Lemma solids_spec ss : forall m, NoDup (dkeys (pm_polys (wm_poly m))) -> NoDup (dkeys (sm_solids (wm_solid m))) ->
    (each (wm_add_solid uid suid walls) m ss = (with_all m ss (flat_map walls ss), None) /\
       NoDup (dkeys (pm_polys (wm_poly m)) ++ map uid (flat_map walls ss)) /\ NoDup (dkeys (sm_solids (wm_solid m)) ++ map suid ss)) \/
    exists ss1 s ss2, ss = ss1 ++ s :: ss2 /\
      ((each (wm_add_solid uid suid walls) m ss = (with_all m ss1 (flat_map walls ss1), Some MeshError) /\ In (suid s) (dkeys (sm_solids (wm_solid m)) ++ map suid ss1)) \/
       exists ps1 p ps2, walls s = ps1 ++ p :: ps2 /\
         each (wm_add_solid uid suid walls) m ss = (with_all m (ss1 ++ [s]) (flat_map walls ss1 ++ ps1), Some MeshError) /\
         In (uid p) (dkeys (pm_polys (wm_poly m)) ++ map uid (flat_map walls ss1 ++ ps1))).
  Proof.
    induction ss as [|s ss IH]; intros m NP NS.
    - left. cbn [each flat_map map]. rewrite !app_nil_r. split; [|auto]. unfold with_all, tagged. cbn [map]. rewrite !app_nil_r. destruct m as [[a b] [c d]]. reflexivity.
    - cbn [each]. destruct (memb (suid s) (dkeys (sm_solids (wm_solid m)))) eqn:MB.
      + assert (ST : wm_add_solid uid suid walls m s = (m, Some MeshError)) by (unfold wm_add_solid, sm_add; rewrite MB; reflexivity). rewrite ST.
        right. exists [], s, ss. split; [reflexivity|]. left. cbn [flat_map map app]. rewrite app_nil_r. split; [|apply memb_true; exact MB].
        unfold with_all, tagged. cbn [map]. rewrite !app_nil_r. destruct m as [[a b] [c d]]. reflexivity.
      + assert (ST : wm_add_solid uid suid walls m s = each (wm_add_polygon uid) (WM (wm_poly m) (SM (dset (sm_solids (wm_solid m)) (suid s) s) (sm_data (wm_solid m)))) (walls s)).
        { unfold wm_add_solid, sm_add. rewrite MB. reflexivity. }
        rewrite ST. apply memb_false in MB. rewrite dset_new by exact MB.
        set (m1 := @WM P S' (wm_poly m) (SM (sm_solids (wm_solid m) ++ [(suid s, s)]) (sm_data (wm_solid m)))).
        destruct (polys_spec (walls s) m1 NP) as (ps1 & ps2 & EW & A & B & C). match goal with |- context [each (wm_add_polygon uid) ?x ?y] => replace (each (wm_add_polygon uid) x y) with (each (wm_add_polygon uid) m1 (walls s)) by reflexivity end. rewrite B. destruct ps2 as [|p ps2].
        * rewrite app_nil_r in EW. subst ps1. set (m2 := with_polys m1 (pm_polys (wm_poly m1) ++ tagged uid (walls s))).
          assert (K2 : dkeys (pm_polys (wm_poly m2)) = dkeys (pm_polys (wm_poly m)) ++ map uid (walls s)).
          { unfold m2, with_polys. cbn [wm_poly pm_polys m1]. unfold dkeys at 1. rewrite map_app. f_equal. apply dkeys_tagged. }
          assert (K3 : dkeys (sm_solids (wm_solid m2)) = dkeys (sm_solids (wm_solid m)) ++ [suid s]).
          { unfold m2, with_polys. cbn [wm_solid sm_solids m1]. unfold dkeys. rewrite map_app. reflexivity. }
          assert (W : forall ss' ps', with_all m2 ss' ps' = with_all m (s :: ss') (walls s ++ ps')).
          { intros ss' ps'. unfold with_all, m2, with_polys, m1, tagged. cbn [wm_poly wm_solid pm_polys pm_data sm_solids sm_data map]. rewrite map_app, <- !app_assoc. reflexivity. }
          destruct (IH m2) as [(E & N1 & N2)|(ss1 & s' & ss2 & -> & H)].
          -- rewrite K2. exact A.
          -- rewrite K3. apply nodup_snoc; assumption.
          -- left. rewrite E, W. rewrite K2 in N1. rewrite K3 in N2. rewrite <- app_assoc in N1, N2. cbn [flat_map]. rewrite map_app. auto.
          -- right. exists (s :: ss1), s', ss2. split; [reflexivity|]. cbn [flat_map map]. destruct H as [(E & I)|(ps1 & p & ps2 & EW & E & I)].
             ++ left. rewrite E, W. rewrite K3, <- app_assoc in I. auto.
             ++ right. exists ps1, p, ps2. split; [exact EW|]. rewrite E, W. rewrite K2, <- app_assoc, <- map_app in I. rewrite <- !app_assoc. auto.
        * right. exists [], s, ss. split; [reflexivity|]. right. destruct C as [C|(p' & r & E & I)]; [discriminate|]. injection E as <- <-.
          exists ps1, p, ps2. split; [exact EW|]. cbn [flat_map app]. split; [|exact I].
          unfold with_all, with_polys, m1, tagged. cbn [wm_poly wm_solid pm_polys pm_data map]. reflexivity.
  Qed.

  Lemma each_app {A M} (f : M -> A -> M * option pyerr) a : forall m b, each f m (a ++ b) = match each f m a with (m', None) => each f m' b | (m', Some e) => (m', Some e) end.
  Proof. induction a as [|x a IH]; intros m b; cbn [each app]; [reflexivity|]. destruct (f m x) as [m' [e|]]; [reflexivity|apply IH]. Qed.
  Lemma building_flat b : forall m, wm_add_building uid suid walls m b = each (wm_add_solid uid suid walls) m (concat b).
  Proof.
    unfold wm_add_building. induction b as [|z b IH]; intros m; cbn [each concat]; [reflexivity|]. rewrite each_app. unfold wm_add_zone at 1.
    destruct (each (wm_add_solid uid suid walls) m z) as [m' [e|]]; [reflexivity|]. apply IH.
  Qed.
End W.
