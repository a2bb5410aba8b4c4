(** Rays that meet the faces of a solid well do not meet them at all. *)
From Coq Require Import Ascii String Reals List ZArith Bool Arith Lia Lra Psatz Permutation Classical.
From Verif Require Import Prelude TreeModel VecModel VecProofs SimModel SimSpec VoxModel GeomModel GeomSpec GeomProofs1 GeomProofs3 TriModel TriSpec TriProofs2 PolyModel PolySpec SolidModel SolidSpec CrossSpec InsideSpec InsideProofs1 InsideProofs2 RoomSpec RoomProofs1 RoomProofs3 BoxProofs6
  WindSpec WindProofs5 LoopSpec ShellSpec ShellProofs4 ShellProofs5 ShellProofs9 StaySpec.
Import ListNotations.
Local Open Scope R_scope.

(** A path without passages does not change the answer. *)
Lemma same_answer fs T p q z bs bs' : ok_faces fs -> fs <> [] -> loose_shell fs T -> way T p q 0 z -> seen_well p fs bs -> seen_well q fs bs' ->
  (forall f n d, In (f, n, d) fs -> off_face p f n d) -> (forall f n d, In (f, n, d) fs -> off_face q f n d) ->
  exists b, solid_point_inside (solid_of fs) p = Ok b /\ solid_point_inside (solid_of fs) q = Ok b.
Proof.
  intros Okf Ne Sh W Sp Sq Op Oq. destruct (loose_mesh fs T Sh) as (T' & S & Pr & Cl). destruct Sh as (Sd & _).
  assert (G : forall r cs, seen_well r fs cs -> (forall f n d, In (f, n, d) fs -> off_face r f n d) -> solid_point_inside (solid_of fs) r = Ok (Nat.odd (hits cs))).
  { intros r cs Sw Of. pose proof (seen_well_seen r fs cs Okf Sw) as Sn. destruct (Nat.odd (hits cs)) eqn:E.
    - apply (parity_odd fs r cs); auto. apply NNPP. intros Nx. destruct (sides_sees fs T r cs Okf Sd Sw) as (bt & St & Ht). apply (turned_sees _ _ S) in St.
      destruct (outside_rays T' Pr Cl r r 0 0 sight bt (turned_outside _ _ S _ (sides_outside fs T r Sd Nx)) (way_stay T' r) St) as (_ & X). rewrite Ht, E in X. discriminate.
    - apply (parity_even fs r cs); auto. }
  exists (Nat.odd (hits bs)). split; [apply G; auto|]. rewrite (G q bs') by auto. f_equal.
  destruct (sides_sees fs T p bs Okf Sd Sp) as (bt & St & Ht), (sides_sees fs T q bs' Okf Sd Sq) as (bt' & St' & Ht'). apply (turned_sees _ _ S) in St, St'. destruct (turned_way _ _ S _ _ _ _ W) as (z' & W').
  destruct (way_rays T' Pr Cl p q 0 z' sight bt sight bt' W' St St') as (_ & E). rewrite Ht, Ht' in E. rewrite E. cbn. apply xorb_false_r.
Qed.

(** Sound faces of a solid are sound walls. *)
Lemma no_loop (a b c : vec) r x : NoDup (a :: b :: c :: r) -> In (x, x) (cyc_pairs (a :: b :: c :: r)) -> False.
Proof.
  intros Nd I. unfold cyc_pairs in I. destruct (In_nth_error _ _ I) as (i & N).
  assert (G : forall (l m : list vec) i x y, nth_error (combine l m) i = Some (x, y) -> nth_error l i = Some x /\ nth_error m i = Some y).
  { clear. induction l as [|u l IH]; intros [|v m] [|i] x y H; try discriminate; cbn in *; [injection H as <- <-; auto|auto]. }
  destruct (G _ _ _ _ _ N) as (N1 & N2). cbn [app tl hd] in N2. destruct (Nat.lt_ge_cases (S i) (length (a :: b :: c :: r))) as [L|L].
  - assert (N3 : nth_error (a :: b :: c :: r) (S i) = Some x) by (cbn [nth_error]; change (b :: c :: r ++ [a]) with ((b :: c :: r) ++ [a]) in N2; rewrite nth_error_app1 in N2 by (cbn in *; lia); exact N2).
    rewrite NoDup_nth_error in Nd. assert (X : nth_error (a :: b :: c :: r) i <> None) by congruence. apply nth_error_Some in X. specialize (Nd i (S i) X). rewrite N1, N3 in Nd. specialize (Nd eq_refl). lia.
  - assert (X : nth_error (a :: b :: c :: r) i <> None) by congruence. apply nth_error_Some in X. assert (i = length (b :: c :: r)) by (cbn in *; lia). subst i.
    change (b :: c :: r ++ [a]) with ((b :: c :: r) ++ [a]) in N2. rewrite nth_error_app2, Nat.sub_diag in N2 by lia. injection N2 as ->.
    rewrite NoDup_nth_error in Nd. specialize (Nd _ 0%nat X). rewrite N1 in Nd. specialize (Nd eq_refl). discriminate.
Qed.
Lemma face_wall f n d : sound_face f n d -> covers f n d -> simple_outline (fst f) -> sound_wall f n d.
Proof.
  intros (_ & _ & G & _ & a & b & c & r & E & A & _) Cv (Nd & _ & _). split; [apply covers_tiled; auto|]. split; auto. split; [|exists a, b, c, r; auto].
  intros (x, y) I. cbn [fst snd]. intros <-. rewrite E in I, Nd. apply (no_loop a b c r x); auto.
Qed.
Section Run.
Context (polys : list face) (transparent : list nat) (order_of : list nat -> list nat) (mn mx : vec) (s e : R) (grid : dict (Z * Z * Z) (list nat)) (sc : scene).
Context (Rm : room polys transparent order_of mn mx s e grid sc) (fuel num : nat) (pos vel : list vec) (en hs : list R) (b : buffers).
Context (Ep : 0 <= eps sc) (D0 : 0 < dt sc) (Sp : 0 < speed sc * dt sc <= s) (Lv : length vel = length pos) (Le : length en = length pos) (Lh : length hs = length (absorbers sc)) (Nv : forall v, In v vel -> norm v = speed sc).
Context (E : simulation_loop sc fuel num pos vel en hs = Ok b).
Context (fs : list (face * vec * R)) (Wl : walled fs polys transparent) (Okf : ok_faces fs) (Cov : forall f n d, In (f, n, d) fs -> covers f n d /\ simple_outline (fst f)).

Lemma unmet i k p p' f n d m : cell (b_pos b) i k p -> cell (b_pos b) (S i) k p' -> In (f, n, d) fs -> meets_well sc (f, n, d) p p' -> on_segment p p' m -> ~ in_mesh f m.
Proof.
  intros C C' I Mw Sm Im. destruct (Mw m Sm Im) as (Tc & Gr & Ft). destruct (Wl f n d I) as (pn & N & NT). destruct (Cov f n d I) as (Cv & So). pose proof (face_wall f n d (Okf f n d I) Cv So) as Sw. destruct Sm as (t & Ht & ->).
  exact (walls_hold polys transparent order_of mn mx s e grid sc Rm fuel num pos vel en hs b Ep Lv Le Lh Nv E D0 Sp i k p p' pn f n d t C C' N NT Sw Ht Tc Gr Ft).
Qed.
Lemma mesh_of T a c x : sides fs T -> In (a, c, x) T -> exists f n d, In (f, n, d) fs /\ forall m, in_triangle a c x m -> in_mesh f m.
Proof.
  intros (_ & Ts & F & ->) I. apply in_concat in I. destruct I as (ts & It & I). clear -F It I. unfold solid_of in F. revert Ts F It. induction fs as [|((f, n), d) l IH]; intros Ts F It; cbn [map fst] in F; inversion F as [|? ts' ? Ts' F1 F2]; subst; [destruct It|].
  destruct It as [->|It]; [|destruct (IH Ts' F2 It) as (f' & n' & d' & I' & H); exists f', n', d'; split; [right; auto|auto]].
  exists f, n, d. split; [left; auto|]. intros m Im. clear -F1 I Im. assert (G : exists t, In t (snd f) /\ tri_verts (fst f) t (a, c, x)).
  { induction F1 as [|t y l l' H F1 IH]; [destruct I|]. destruct I as [->|I]; [exists t; split; [left; auto|auto]|destruct (IH I) as (t' & A & B); exists t'; split; [right; auto|auto]]. }
  destruct G as (t & It & Vt). exists t, a, c, x. auto.
Qed.
Lemma rows_way T k i j p p' : sides fs T -> (i <= j)%nat -> cell (b_pos b) i k p -> cell (b_pos b) j k p' ->
  travels_well sc b fs k i j -> way T p p' 0 0.
Proof.
  intros Sd Lij. revert p'. induction j as [|j IH]; intros p' C C' Mw.
  - assert (i = 0%nat) by lia. subst i. destruct C as (r & A & B), C' as (r' & A' & B'). assert (p = p') as -> by congruence. apply way_stay.
  - destruct (Nat.eq_dec i (S j)) as [->|Ne]. { destruct C as (r & A & B), C' as (r' & A' & B'). assert (p = p') as -> by congruence. apply way_stay. }
    destruct (cell_before sc fuel num pos vel en hs b Ep Lv Le Lh E j k p' C') as (q & Cq).
    apply (way_free T p q p' 0 0); [apply IH; auto; [lia|intros l x y y' L; apply (Mw l); lia]|]. intros ((a, c), x) It m Sg Im. destruct (mesh_of T a c x Sd It) as (f & n & d & If & H).
    apply (unmet j k q p' f n d m Cq C' If); auto. apply (Mw j); auto; lia.
Qed.
Lemma run_answer T k i j p p' bs bs' : fs <> [] -> loose_shell fs T -> (i <= j)%nat -> cell (b_pos b) i k p -> cell (b_pos b) j k p' ->
  travels_well sc b fs k i j ->
  seen_well p fs bs -> seen_well p' fs bs' -> (forall f n d, In (f, n, d) fs -> off_face p f n d) -> (forall f n d, In (f, n, d) fs -> off_face p' f n d) ->
  exists r, solid_point_inside (solid_of fs) p = Ok r /\ solid_point_inside (solid_of fs) p' = Ok r.
Proof. intros Ne Sh L C C' Mw Sp1 Sp2 O1 O2. apply (same_answer fs T p p' 0 bs bs'); auto. apply (rows_way T k i j); auto. apply Sh. Qed.
End Run.
