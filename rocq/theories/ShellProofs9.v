(** Surfaces that are closed once some of their faces are turned round. *)
From Coq Require Import Ascii String Reals List ZArith Bool Arith Lia Lra Psatz Permutation Classical.
From Verif Require Import Prelude TreeModel VecModel VecProofs GeomModel GeomSpec GeomProofs1 GeomProofs3 TriModel TriSpec TriProofs2 PolyModel PolySpec SolidModel SolidSpec CrossSpec InsideSpec InsideProofs1 InsideProofs2 RoomSpec RoomProofs1 PlanProofs4
  WindSpec WindProofs1 WindProofs2 LoopSpec LoopProofs5 LoopProofs6 ShellSpec ShellProofs1 ShellProofs2 ShellProofs3 ShellProofs4 ShellProofs5.
Import ListNotations.
Local Open Scope R_scope.

Definition back (t : vec * vec * vec) : vec * vec * vec := let '(a, b, c) := t in (c, b, a).
Definition same3 (t t' : vec * vec * vec) : Prop := t' = t \/ t' = back t.
Lemma back_inside a b c q : strictly_inside c b a q <-> strictly_inside a b c q.
Proof. split; intros (x & y & z & X & Y & Z & Su & ->); exists z, y, x; repeat split; auto; try lra; unfold bary; dvec a; dvec b; dvec c; vunf; f_equal; ring. Qed.
Lemma back_in a b c q : in_triangle c b a q <-> in_triangle a b c q.
Proof. split; intros (x & y & z & X & Y & Z & Su & ->); exists z, y, x; repeat split; auto; try lra; unfold bary; dvec a; dvec b; dvec c; vunf; f_equal; ring. Qed.
Lemma back_cross a b c : cross (vsub b c) (vsub a c) = smul (-1) (cross (vsub b a) (vsub c a)).
Proof. dvec a; dvec b; dvec c. vunf. f_equal; ring. Qed.
Lemma back_pierces q r t : pierces q r t -> pierces q r (back t).
Proof. destruct t as ((a, b), c). intros (N & s & S0 & I). split; [rewrite back_cross; intros E; apply N; revert E; vunf; lra|]. exists s. split; auto. apply back_inside; auto. Qed.
Lemma back_misses q r t : misses q r t -> misses q r (back t).
Proof. destruct t as ((a, b), c). intros H s S0 I. apply (H s S0). apply back_in; auto. Qed.
Lemma back_crosses q q' t : crosses q q' t -> crosses q q' (back t).
Proof. destruct t as ((a, b), c). intros (N & s & S0 & I). split; [rewrite back_cross; intros E; apply N; revert E; vunf; lra|]. exists s. split; auto. apply back_inside; auto. Qed.
Lemma back_avoids q q' t : avoids q q' t -> avoids q q' (back t).
Proof. destruct t as ((a, b), c). intros H m S0 I. apply (H m S0). apply back_in; auto. Qed.
Section Turned.
Context (T T' : list (vec * vec * vec)) (F : Forall2 same3 T T').
Lemma turned_from t' : In t' T' -> exists t, In t T /\ same3 t t'.
Proof. clear -F. induction F as [|x y l l' H F' IH]; intros I; [destruct I|]. destruct I as [<-|I]; [exists x; simpl; auto|]. destruct (IH F' I) as (t & A & B). exists t. simpl; auto. Qed.
Lemma turned_proper : proper_mesh T -> proper_mesh T'.
Proof.
  intros P a b c I. destruct (turned_from _ I) as (((x, y), z) & It & [E|E]); cbn [back] in E; injection E as -> -> ->; [apply P; auto|]. rewrite back_cross. intros E. apply (P _ _ _ It). revert E. generalize (cross (vsub y x) (vsub z x)). intros w E. dvec w. revert E. vunf. intros E. injection E as E1 E2 E3. f_equal; lra.
Qed.
Lemma turned_outside p : outside T p -> outside T' p.
Proof.
  intros (m & H). exists m. intros a b c I. destruct (turned_from _ I) as (((x, y), z) & It & [E|E]); cbn [back] in E; injection E as -> -> ->; destruct (H _ _ _ It) as (A & B & C); auto.
Qed.
Lemma turned_sees q r bs : sees T q r bs -> sees T' q r bs.
Proof.
  intros (N & G). split; auto. clear N. revert T' F. induction G as [|t b l bs H G IH]; intros T' F; inversion F as [|? t' ? l' E F']; subst; constructor; [|apply IH; auto].
  destruct E as [-> | ->]; auto. destruct b; auto using back_pierces, back_misses.
Qed.
Lemma turned_way p q n z : way T p q n z -> exists z', way T' p q n z'.
Proof.
  intros W. induction W as [|q q' n z W IH Av|q q' n z T1 t T2 W IH E C Av].
  - exists 0%Z. apply way_stay.
  - destruct IH as (z' & W'). exists z'. apply (way_free T' p q q'); auto. intros t' I. destruct (turned_from _ I) as (t & It & [-> | ->]); auto using back_avoids.
  - destruct IH as (z' & W'). assert (Ex : exists T1' t' T2', T' = T1' ++ t' :: T2' /\ same3 t t' /\ Forall2 same3 (T1 ++ T2) (T1' ++ T2')).
    { clear -F E. rewrite E in F. apply Forall2_app_inv_l in F. destruct F as (A & B & F1 & F2 & ->). inversion F2 as [|? t' ? B' H F3]; subst. exists A, t', B'. split; auto. split; auto. apply Forall2_app; auto. }
    destruct Ex as (T1' & t' & T2' & E' & St & F12). exists (z' - sense (vsub q' q) t')%Z. apply (way_cross T' p q q' n z' T1' t' T2'); auto.
    + destruct St as [-> | ->]; auto using back_crosses.
    + intros t1 I. assert (exists t0, In t0 (T1 ++ T2) /\ same3 t0 t1) as (t0 & I0 & [-> | ->]); auto using back_avoids. clear -F12 I. induction F12 as [|x y l l' H F' IH]; [destruct I|]. destruct I as [<-|I]; [exists x; simpl; auto|]. destruct (IH I) as (t & A & B). exists t. simpl; auto.
Qed.
End Turned.
Lemma back_edges ts : Permutation (mesh_edges (map back ts)) (map (fun e => (snd e, fst e)) (mesh_edges ts)).
Proof.
  induction ts as [|((a, b), c) ts IH]; auto. cbn [map back]. rewrite !mesh_edges_cons. rewrite map_app. cbn [map fst snd]. apply Permutation_app; auto.
  apply Permutation_trans with [(b, a); (c, b); (a, c)]; auto. apply perm_swap.
Qed.
Lemma both_ways_swap {A} (W : list (A * A)) : Permutation (map (fun e => (snd e, fst e)) (both_ways W)) (both_ways W).
Proof. induction W as [|(a, b) W IH]; cbn; auto. rewrite perm_swap. constructor. constructor. exact IH. Qed.
Lemma loose_edges (fs : list (face * vec * R)) Ts ls : (forall f n d, In (f, n, d) fs -> covers f n d) -> Forall2 (fun (f : face) ts => Forall2 (tri_verts (fst f)) (snd f) ts) (solid_of fs) Ts ->
  Forall2 (fun (f : face) l => l = fst f \/ l = rev (fst f)) (solid_of fs) ls ->
  exists T' W, Forall2 same3 (concat Ts) T' /\ Permutation (mesh_edges T') (concat (map cyc_pairs ls) ++ both_ways W).
Proof.
  revert Ts ls. induction fs as [|((f, n), d) fs IH]; intros Ts ls C F G; unfold solid_of in *; cbn [map fst] in *; inversion F as [|? ts ? Ts' F1 F2]; subst; inversion G as [|? l ? ls' G1 G2]; subst; [exists [], []; cbn; auto|].
  destruct (IH Ts' ls') as (T' & W & S & P); auto; [intros; apply C; right; auto|]. destruct (face_edges f n d ts (C f n d (or_introl eq_refl)) F1) as (W1 & P1).
  assert (Ex : exists ts', Forall2 same3 ts ts' /\ Permutation (mesh_edges ts') (cyc_pairs l ++ both_ways W1)).
  { destruct G1 as [-> | ->]; [exists ts; split; auto; clear; induction ts; constructor; auto; left; auto|]. exists (map back ts). split; [clear; induction ts; cbn; constructor; auto; right; auto|].
    rewrite back_edges, P1, map_app, both_ways_swap, cyc_pairs_rev. auto. }
  destruct Ex as (ts' & S1 & P2). exists (ts' ++ T'), (W1 ++ W). cbn [concat map]. split; [apply Forall2_app; auto|]. rewrite mesh_edges_app, P, P2, both_ways_app. rewrite !app_assoc. apply Permutation_app_tail. rewrite <- !app_assoc. apply Permutation_app_head. apply Permutation_app_comm.
Qed.
Lemma loose_mesh fs T : loose_shell fs T -> exists T', Forall2 same3 T T' /\ proper_mesh T' /\ closed_mesh T'.
Proof.
  intros (Sd & ls & G & Cs). pose proof (sides_proper fs T Sd) as Pr. destruct Sd as (C & Ts & F & ->). destruct (loose_edges fs Ts ls (fun f n d I => proj1 (C f n d I)) F G) as (T' & W & S & P). exists T'. split; auto. split; [exact (turned_proper _ _ S Pr)|].
  apply (closed_perm _ _ (Permutation_sym P)). apply closed_app; [exact Cs|apply both_ways_closed].
Qed.
Lemma loose_path fs T p q n z bs : ok_faces fs -> fs <> [] -> loose_shell fs T -> outside T p -> way T p q n z -> seen_well q fs bs -> (forall f n d, In (f, n, d) fs -> off_face q f n d) ->
  solid_point_inside (solid_of fs) q = Ok (Nat.odd n).
Proof.
  intros Okf Ne Sh O W Sw Of. destruct (loose_mesh fs T Sh) as (T' & S & Pr & Cl). destruct Sh as (Sd & _). destruct (sides_sees fs T q bs Okf Sd Sw) as (bt & St & Ht).
  apply (turned_sees _ _ S) in St. destruct (turned_way _ _ S _ _ _ _ W) as (z' & W'). destruct (outside_rays T' Pr Cl p q n z' sight bt (turned_outside _ _ S _ O) W' St) as (_ & Od). rewrite Ht in Od.
  pose proof (seen_well_seen q fs bs Okf Sw) as Sn. destruct (Nat.odd n) eqn:E.
  - apply (parity_odd fs q bs); auto. apply NNPP. intros Nx. pose proof (turned_outside _ _ S _ (sides_outside fs T q Sd Nx)) as Oq. destruct (outside_rays T' Pr Cl q q 0 0 sight bt Oq (way_stay T' q) St) as (_ & X). rewrite Ht, Od in X. discriminate.
  - apply (parity_even fs q bs); auto.
Qed.
