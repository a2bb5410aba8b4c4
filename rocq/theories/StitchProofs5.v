(** The cut towards a polygon within another. *)
From Coq Require Import Ascii String Reals List Bool Arith Lia Lra ZArith.
From Verif Require Import Prelude VecModel VecProofs GeomModel GeomSpec GeomProofs1 GeomProofs2 GeomProofs3 GeomProofs4 GeomProofs5 TriModel TriSpec TriProofs TriProofs2 TriProofs3 PolyModel PolySpec PolyProofs1 PolyProofs2 VisModel VisSpec VisProofs SliceModel SliceSpec SliceProofs1 SliceProofs3 SliceProofs4 SliceProofs6 SliceProofs7 SliceProofs8 SliceProofs9 SliceProofs10 StitchModel StitchSpec StitchProofs1 StitchProofs2 StitchProofs3 StitchProofs4.
Import ListNotations.
Local Open Scope R_scope.

(** Close pairs of integer points. *)
Section Pairs.
Context (u : z3) (Hu : zdot u u = 1%Z).
Definition zblocks (p q : z3) (e : z3 * z3) : result bool :=
  if small3 p && small3 q && small3 (fst e) && small3 (snd e) then
    if zeqb (fst e) p || zeqb (fst e) q || zeqb (snd e) p || zeqb (snd e) q then Ok false else zlsi u (p, q) e
  else Err OutOfFuel.
Lemma z_blocks p q e r : zblocks p q e = Ok r -> edge_blocks (at3 p) (at3 q) (both e) = r.
Proof.
  unfold zblocks, edge_blocks. destruct e as (a, b). cbn [fst snd both]. destruct (small3 p && small3 q && small3 a && small3 b) eqn:S; [|discriminate]. apply andb_true_iff in S. destruct S as (S & Sb). apply andb_true_iff in S. destruct S as (S & Sa). apply andb_true_iff in S. destruct S as (Sp & Sq).
  rewrite !z3_equal by auto. destruct (_ || _ || _ || _); [intros H; apply Ok_inj in H; auto|]. intros H. destruct (z_lsi u Hu _ _ _ H) as (o & E & X). cbn [both fst snd] in E. rewrite E. destruct r; [destruct o; [auto|exfalso; apply X; auto]|rewrite X; auto].
Qed.
Definition zvisible (p q : z3) (es : list (z3 * z3)) : result bool := do b <- anyM (zblocks p q) es; Ok (negb b).
Lemma existsb_anyM {A B} (f : A -> B) g h l r : (forall x r, h x = Ok r -> g (f x) = r) -> anyM h l = Ok r -> existsb g (map f l) = r.
Proof.
  intros H. revert r. induction l as [|x l IH]; intros r; cbn [anyM map existsb]; [intros E; apply Ok_inj in E; auto|]. destruct (h x) as [b|] eqn:E; [|discriminate]. cbn [rbind]. rewrite (H _ _ E). destruct b; cbn [orb]; [intros X; apply Ok_inj in X; auto|apply IH].
Qed.
Lemma z_visible p q es1 es2 r : zvisible p q (es1 ++ es2) = Ok r -> are_points_visible (at3 p) (at3 q) [map both es1; map both es2] = if r then 1%nat else 0%nat.
Proof.
  unfold zvisible, are_points_visible. destruct (anyM (zblocks p q) (es1 ++ es2)) as [b|] eqn:E; [|discriminate]. cbn [rbind]. intros H. apply Ok_inj in H. subst r. cbn [existsb]. rewrite orb_false_r, <- existsb_app, <- map_app. rewrite (existsb_anyM both (edge_blocks (at3 p) (at3 q)) (zblocks p q) _ b (z_blocks p q) E). destruct b; auto.
Qed.
Definition zpd (p q : z3) : Z := zdot (zsub q p) (zsub q p).
Definition zrow (pts1 : list z3) (es : list (z3 * z3)) (i : nat) (p : z3) : result (list (Z * (nat * nat))) :=
  do l <- mapM (fun jq => do v <- zvisible p (snd jq) es; Ok (if v then [(zpd p (snd jq), (i, fst jq))] else [])) (combine (seq 0 (length pts1)) pts1);
  Ok (concat l).
Definition zcandidates (pts0 pts1 : list z3) : result (list (Z * (nat * nat))) :=
  do l <- mapM (fun ip => zrow pts1 (cyc_pairs pts0 ++ cyc_pairs pts1) (fst ip) (snd ip)) (combine (seq 0 (length pts0)) pts0);
  Ok (concat l).
Definition zle (a b : Z * (nat * nat)) : bool :=
  (fst a <? fst b)%Z || ((fst a =? fst b)%Z && ((fst (snd a) <? fst (snd b))%nat || ((fst (snd a) =? fst (snd b))%nat && (snd (snd a) <=? snd (snd b))%nat))).
Fixpoint zinsert (x : Z * (nat * nat)) (l : list (Z * (nat * nat))) : list (Z * (nat * nat)) :=
  match l with [] => [x] | y :: r => if zle x y then x :: l else y :: zinsert x r end.
Definition zsort (l : list (Z * (nat * nat))) := fold_right zinsert [] l.
Fixpoint ztake (l : list (Z * (nat * nat))) (used0 used1 : list nat) : list (nat * nat) :=
  match l with
  | [] => []
  | (_, (i, j)) :: r => if negb (memb i used0) && negb (memb j used1) then (i, j) :: ztake r (i :: used0) (j :: used1) else ztake r used0 used1
  end.
Definition zclose (pts0 pts1 : list z3) (n : nat) : result (list (z3 * z3)) :=
  do c <- zcandidates pts0 pts1;
  let idx := ztake (zsort c) [] [] in
  if (length idx <? n)%nat then Err ValueError
  else Ok (map (fun ij => (nth (fst ij) pts0 (0, 0, 0)%Z, nth (snd ij) pts1 (0, 0, 0)%Z)) (firstn n idx)).
Definition rt (x : Z * (nat * nat)) : R * (nat * nat) := (sqrt (IZR (fst x)), snd x).
Lemma zpd_norm p q : norm (vsub (at3 q) (at3 p)) = sqrt (IZR (zpd p q)).
Proof. unfold norm, zpd. rewrite at3_sub, at3_dot. auto. Qed.
Lemma z_le a b : (0 <= fst a)%Z -> (0 <= fst b)%Z -> pair_le (rt a) (rt b) = zle a b.
Proof.
  intros A B. unfold pair_le, zle, rt. cbn [fst snd]. apply IZR_le in A as A'. apply IZR_le in B as B'. f_equal; [|f_equal].
  - destruct (Z.ltb_spec (fst a) (fst b)) as [H|H]; [apply Rltb_true; apply sqrt_lt_1_alt; split; auto; apply IZR_lt; auto|apply Rltb_false; apply sqrt_le_1_alt, IZR_le; auto].
  - destruct (Z.eqb_spec (fst a) (fst b)) as [H|H].
    + rewrite H. apply Reqb_true. auto.
    + destruct (Reqb _ _) eqn:E; auto. apply Reqb_true in E. exfalso. apply H. apply eq_IZR. apply sqrt_inj; auto.
Qed.
Definition okd (l : list (Z * (nat * nat))) : Prop := Forall (fun x => (0 <= fst x)%Z) l.
Lemma z_insert x l : (0 <= fst x)%Z -> okd l -> insert_pair (rt x) (map rt l) = map rt (zinsert x l) /\ okd (zinsert x l).
Proof.
  intros X. induction l as [|y l IH]; intros O; cbn [insert_pair map zinsert]; [split; auto; repeat constructor; auto|]. inversion O as [|? ? Oy Ol]; subst. rewrite z_le by auto. destruct (zle x y); [split; auto; constructor; auto|]. destruct (IH Ol) as (E & Q). rewrite E. split; auto. constructor; auto.
Qed.
Lemma z_sort l : okd l -> sort_pairs (map rt l) = map rt (zsort l) /\ okd (zsort l).
Proof.
  induction l as [|x l IH]; intros O; [split; auto|]. inversion O as [|? ? Ox Ol]; subst. destruct (IH Ol) as (E & Q). unfold sort_pairs, zsort in *. cbn [map fold_right]. rewrite E. apply z_insert; auto.
Qed.
Lemma z_take l a b : take_unused (map rt l) a b = ztake l a b.
Proof. revert a b. induction l as [|(d, (i, j)) l IH]; intros a b; auto. cbn [map rt fst snd take_unused ztake]. rewrite !IH. auto. Qed.
Lemma mapM_concat {A B X Y} (f : A -> B) (g : B -> list Y) (h : A -> result (list X)) (k : X -> Y) (Q : X -> Prop) l r : (forall x r, h x = Ok r -> g (f x) = map k r /\ Forall Q r) -> mapM h l = Ok r -> concat (map g (map f l)) = map k (concat r) /\ Forall Q (concat r).
Proof.
  intros H. revert r. induction l as [|x l IH]; intros r; cbn [mapM map concat]; [intros E; apply Ok_inj in E; subst; split; constructor|]. destruct (h x) as [y|] eqn:E; [|discriminate]. cbn [rbind]. destruct (mapM h l) as [ys|]; [|discriminate]. cbn [rbind]. intros X0. apply Ok_inj in X0. subst r. destruct (H _ _ E) as (E1 & Q1), (IH _ eq_refl) as (E2 & Q2). cbn [concat]. rewrite E1, E2, map_app. split; auto. apply Forall_app. auto.
Qed.
Lemma enum_map (l : list z3) : enumerate (map at3 l) = map (fun iq => (fst iq, at3 (snd iq))) (combine (seq 0 (length l)) l).
Proof. unfold enumerate. rewrite map_length. generalize 0%nat. induction l as [|x l IH]; intros k; auto. cbn [length seq combine map fst snd]. rewrite IH. auto. Qed.
Lemma zpd_pos p q : (0 <= zpd p q)%Z.
Proof. unfold zpd. generalize (zsub q p). intros ((x, y), z). unfold zdot, zx, zy, zz. cbn [fst snd]. nia. Qed.
Lemma z_candidates pts0 pts1 c : zcandidates pts0 pts1 = Ok c -> candidate_pairs (map at3 pts0) (map at3 pts1) true [map both (cyc_pairs pts0); map both (cyc_pairs pts1)] = map rt c /\ okd c.
Proof.
  unfold zcandidates, candidate_pairs. set (es := cyc_pairs pts0 ++ cyc_pairs pts1). match goal with |- context [mapM ?h ?l] => destruct (mapM h l) as [r|] eqn:E; [|discriminate] end. cbn [rbind]. intros H. apply Ok_inj in H. subst c. rewrite (enum_map pts0). unfold okd. apply (mapM_concat (fun iq : nat * z3 => (fst iq, at3 (snd iq))) _ (fun ip => zrow pts1 es (fst ip) (snd ip)) rt (fun x => (0 <= fst x)%Z)); [|exact E].
  intros (i, p) r' R. cbn [fst snd] in *. unfold zrow in R. match type of R with context [mapM ?h ?l] => destruct (mapM h l) as [r2|] eqn:E2; [|discriminate] end. cbn [rbind] in R. apply Ok_inj in R. subst r'. rewrite (enum_map pts1). eapply (mapM_concat (fun iq : nat * z3 => (fst iq, at3 (snd iq))) _ _ rt (fun x => (0 <= fst x)%Z)); [|exact E2].
  intros (j, q) r3 R3. cbn [fst snd] in *. destruct (zvisible p q es) as [v|] eqn:V; [|discriminate]. cbn [rbind] in R3. apply Ok_inj in R3. subst r3. rewrite (z_visible p q _ _ v V). destruct v; cbn [andb Nat.eqb map rt fst snd]; [rewrite zpd_norm; split; auto; repeat constructor; apply zpd_pos|split; auto; constructor].
Qed.
Lemma z_close pts0 pts1 n r : pts0 <> [] -> pts1 <> [] -> zclose pts0 pts1 n = Ok r -> find_close_pairs (map at3 pts0) (map at3 pts1) n true = Ok (map both r).
Proof.
  intros N0 N1. unfold zclose, find_close_pairs. assert (M0 : map at3 pts0 <> []) by (destruct pts0; [contradiction|discriminate]). assert (M1 : map at3 pts1 <> []) by (destruct pts1; [contradiction|discriminate]). rewrite !polygon_edges_eq by auto. cbn [rbind].
  destruct (zcandidates pts0 pts1) as [c|] eqn:C; [|discriminate]. cbn [rbind]. destruct (z_candidates _ _ _ C) as (E & O). destruct (z_sort c O) as (E2 & _). rewrite !cyc_map_both. rewrite E, E2, z_take. destruct (_ <? n)%nat; [discriminate|]. intros H. apply Ok_inj in H. subst r. f_equal. rewrite map_map. apply map_ext. intros (i, j). unfold both. cbn [fst snd].
  f_equal; change vzero with (at3 (0, 0, 0)%Z); apply map_nth.
Qed.
End Pairs.

(** A chain between two vertices. *)
Definition zcase4 (pts chain : list z3) : result (list z3 * list z3) :=
  match chain with
  | [] => Err IndexError
  | s0 :: r =>
      if forallb small3 pts && forallb small3 chain then
        let start := last_index (fun p => zeqb p s0) pts in let stop := last_index (fun p => zeqb p (last chain s0)) pts in
        do w1 <- zwalk true pts start stop; do w2 <- zwalk false pts start stop; Ok (w1 ++ rev r, w2 ++ rev r)
      else Err OutOfFuel
  end.
Lemma z_case4 pts chain q1 q2 : zcase4 pts chain = Ok (q1, q2) -> slice_case4 (map at3 pts) (map at3 chain) = Ok (map at3 q1, map at3 q2).
Proof.
  unfold zcase4, slice_case4. destruct chain as [|s0 r]; [discriminate|]. destruct (forallb small3 pts && forallb small3 (s0 :: r)) eqn:S; [|discriminate]. apply andb_true_iff in S. destruct S as (Sp & Sc). rewrite forallb_forall in Sp, Sc. cbn [map]. change (at3 s0 :: map at3 r) with (map at3 (s0 :: r)).
  assert (L : last (map at3 (s0 :: r)) (at3 s0) = at3 (last (s0 :: r) s0)). { generalize (s0 :: r). intros l. induction l as [|x [|y l] IH]; auto. }
  rewrite L. assert (Il : In (last (s0 :: r) s0) (s0 :: r)). { clear. destruct (exists_last (l := s0 :: r) ltac:(discriminate)) as (l & x & E). rewrite E, last_last. apply in_or_app. right. left. auto. }
  rewrite (last_index_ext at3 (fun p => points_equal p (at3 s0)) (fun p => zeqb p s0) pts) by (intros x Ix; apply z3_equal; auto; apply Sc; left; auto).
  rewrite (last_index_ext at3 (fun p => points_equal p (at3 (last (s0 :: r) s0))) (fun p => zeqb p (last (s0 :: r) s0)) pts) by (intros x Ix; apply z3_equal; auto).
  destruct (zwalk true pts _ _) as [w1|] eqn:W1; [|discriminate]. cbn [rbind]. rewrite (z_walk _ _ _ _ _ W1). cbn [rbind]. destruct (zwalk false pts _ _) as [w2|] eqn:W2; [|discriminate]. cbn [rbind]. rewrite (z_walk _ _ _ _ _ W2). cbn [rbind]. intros H. apply Ok_inj in H. injection H as <- <-. rewrite !map_app, !map_rev. auto.
Qed.
(** The points of a chain without points on edges that are kept. *)
Definition no_edge (o : option location) : bool := match o with Some (AtEdge _) => false | _ => true end.
Lemma decide_plain edges pts k prev next p loc : no_edge prev = true -> no_edge next = true -> no_edge (Some loc) = true -> decide edges pts k prev next p loc = decide [] [] k prev next vzero loc.
Proof. unfold no_edge, decide. destruct prev as [[]|], next as [[]|], loc; try discriminate; auto. Qed.
Fixpoint zkeep (k : nat) (prev : option location) (l : list (z3 * location)) : result (list z3) :=
  match l with
  | [] => Ok []
  | (p, loc) :: r =>
      let next := match r with [] => None | x :: _ => Some (snd x) end in
      if no_edge prev && no_edge next && no_edge (Some loc) then
        do v <- decide [] [] k prev next vzero loc;
        match v with Skip => zkeep k (Some loc) r | Keep => do q <- zkeep k (Some loc) r; Ok (p :: q) | KeepAndStop => Ok [p] end
      else Err OutOfFuel
  end.
Lemma z_keep edges pts k l : forall prev r, zkeep k prev l = Ok r -> keep_loop edges pts k prev (map (fun x => (at3 (fst x), snd x)) l) = Ok (map at3 r).
Proof.
  induction l as [|(p, loc) l IH]; intros prev r; cbn [zkeep keep_loop map fst snd]; [intros H; apply Ok_inj in H; subst; auto|].
  replace (match map (fun x : z3 * location => (at3 (fst x), snd x)) l with [] => None | x :: _ => Some (snd x) end) with (match l with [] => None | x :: _ => Some (snd x) end) by (destruct l; auto).
  set (next := match l with [] => None | x :: _ => Some (snd x) end). destruct (no_edge prev && no_edge next && no_edge (Some loc)) eqn:E; [|discriminate]. apply andb_true_iff in E. destruct E as (E & E3). apply andb_true_iff in E. destruct E as (E1 & E2). rewrite (decide_plain edges pts) by auto.
  destruct (decide [] [] k prev next vzero loc) as [[]|]; cbn [rbind]; [apply IH| |intros H; apply Ok_inj in H; subst; auto|discriminate].
  destruct (zkeep k (Some loc) l) as [q|] eqn:Q; [|discriminate]. cbn [rbind]. intros H. apply Ok_inj in H. subst r. rewrite (IH _ _ Q). auto.
Qed.
Fixpoint zredundant (pts : list z3) (ts : list tri) (tries : nat) (chain : list z3) : result (list z3) :=
  match chain with
  | [] => Err OutOfFuel
  | _ =>
      do locs <- zlocs up pts ts chain;
      if ends_interior locs then match tries with O => Err OutOfFuel | S t => zredundant pts ts t (roll_forward chain) end
      else if (count_locs is_edge locs =? 0)%nat then zkeep (count_locs is_interior locs) None (combine chain locs) else Err OutOfFuel
  end.
Lemma roll_map {A B} (f : A -> B) l : roll_forward (map f l) = map f (roll_forward l).
Proof.
  assert (L : forall m (d : A), last (map f m) (f d) = f (last m d)) by (intros m d; induction m as [|y [|z m] IH]; auto).
  assert (Rl : forall m : list A, removelast (map f m) = map f (removelast m)). { induction m as [|y [|z m] IH]; auto. change (f y :: removelast (map f (z :: m)) = f y :: map f (removelast (z :: m))). rewrite IH. auto. }
  destruct l as [|x l]; auto. unfold roll_forward. change (map f (x :: l)) with (f x :: map f l) at 1. cbv iota. rewrite L, Rl. auto.
Qed.
Lemma combine_map {A B C} (f : A -> B) (l : list A) (m : list C) : combine (map f l) m = map (fun x => (f (fst x), snd x)) (combine l m).
Proof. revert m. induction l as [|x l IH]; intros [|y m]; auto. cbn [map combine fst snd]. rewrite IH. auto. Qed.
Lemma z_redundant_from pts ts tries : forall chain r, zredundant pts ts tries chain = Ok r -> remove_redundant_from (cyc_pairs (map at3 pts)) (map at3 pts) ts tries (map at3 chain) = Ok (map at3 r).
Proof.
  induction tries as [|tries IH]; intros chain r; cbn [zredundant remove_redundant_from]; (destruct chain as [|c0 chain]; [discriminate|]); set (ch := c0 :: chain); (destruct (zlocs up pts ts ch) as [locs|] eqn:L; [|discriminate]); rewrite (z_locs up up1 pts ts ch locs) by (auto; discriminate); cbn [rbind]; (destruct (ends_interior locs) eqn:Ei; [|]); try discriminate.
  1,3: destruct (Nat.eqb_spec (count_locs is_edge locs) 0) as [Z|]; [|discriminate]; intros H; unfold select_points; rewrite Z; rewrite !andb_false_r; rewrite combine_map; apply z_keep; auto.
  intros H. rewrite roll_map. apply IH. auto.
Qed.
Lemma z_redundant pts ts chain r : pts <> [] -> zredundant pts ts (length chain + 1) chain = Ok r -> remove_redundant_points (map at3 chain) (map at3 pts) ts = Ok (map at3 r).
Proof. intros N H. unfold remove_redundant_points. rewrite polygon_edges_eq by (destruct pts; [contradiction|discriminate]). cbn [rbind]. rewrite map_length. apply z_redundant_from. auto. Qed.
Definition zarrays4 (pts : list z3) (ts : list tri) (chain : list z3) : result (list z3 * list z3) :=
  if (2 <=? length chain)%nat && (1 <=? length pts)%nat then
    do locs <- zlocs up pts ts chain;
    match count_locs is_edge locs, count_locs is_vertex locs, vertex_numbers locs with
    | 0%nat, 2%nat, [_; _] => zcase4 pts chain
    | _, _, _ => Err OutOfFuel
    end
  else Err OutOfFuel.
Lemma z_arrays4 pts ts chain a1 a2 : zarrays4 pts ts chain = Ok (a1, a2) -> (2 <= length chain)%nat /\ get_point_arrays (map at3 pts) ts (map at3 chain) = Ok (map at3 a1, map at3 a2).
Proof.
  unfold zarrays4, get_point_arrays. destruct (Nat.leb_spec 2 (length chain)) as [L|]; [|discriminate]. destruct (Nat.leb_spec 1 (length pts)) as [P|]; [|discriminate]. cbn [andb]. rewrite map_length. rewrite (proj2 (Nat.ltb_ge _ _) L). rewrite polygon_edges_eq by (destruct pts; [cbn in P; lia|discriminate]). cbn [rbind].
  destruct (zlocs up pts ts chain) as [locs|] eqn:E; [|discriminate]. cbn [rbind]. rewrite (z_locs up up1 pts ts chain locs) by first [exact E|destruct chain; [cbn in L; lia|discriminate]]. cbn [rbind]. unfold point_arrays. rewrite map_length.
  assert (Ll : length locs = length chain). { clear -E. unfold zlocs in E. revert locs E. induction chain as [|x chain IH]; intros locs; cbn [mapM]; [intros H; apply Ok_inj in H; subst; auto|]. destruct (zlocate up pts ts x); [|discriminate]. cbn [rbind]. destruct (mapM _ chain) as [l'|]; [|discriminate]. cbn [rbind]. intros H. apply Ok_inj in H. subst locs. cbn [length]. rewrite (IH l' eq_refl). auto. }
  assert (At : forall i, (i < length chain)%nat -> exists x, at_index locs i = Ok x). { intros i Hi. unfold at_index. destruct (nth_error locs i) eqn:X; [eauto|]. apply nth_error_None in X. lia. }
  destruct (At 0%nat ltac:(lia)) as (x0 & ->). cbn [rbind]. destruct (At (length chain - 1)%nat ltac:(lia)) as (x1 & ->). cbn [rbind].
  destruct (count_locs is_edge locs) as [|e]; [|discriminate]. destruct (count_locs is_vertex locs) as [|[|[|v]]]; try discriminate. destruct (vertex_numbers locs) as [|v1 [|v2 [|v3 vs]]]; try discriminate. intros H. split; auto. rewrite (z_case4 _ _ _ _ H). destruct (edge_numbers locs) as [|? [|? [|? ?]]]; auto.
Qed.
(** One slice of a polygon of a solid between two vertices. *)
Definition zone (pts : list z3) (ts : list tri) (chain : list z3) : result (list z3 * list z3) :=
  do o <- zadded up pts chain; do ch <- zremove up pts ts (snd o);
  if (2 <=? length ch)%nat && zplane up (pts ++ ch) then
    do o' <- zadded up pts ch; do kept <- zredundant pts ts (length (snd o') + 1) (snd o'); zarrays4 pts ts kept
  else Err OutOfFuel.
Lemma z_one rid n p pts chain a1 a2 : pts <> [] -> p_pts p = map at3 pts -> p_vn p = at3 up -> zone pts (p_tri p) chain = Ok (a1, a2) ->
  slice_one rid (n, p) (map at3 chain) =
  match make_polygons (at3 up) (map at3 a1) (map at3 a2) None (Some (n ++ str_of "-main")) None (Some (n ++ str_of "-sup")) rid rid with
  | Err GeometryError => Ok None
  | Err e => Err e
  | Ok (a, b) => do a' <- face_like (at3 up) rid a; do b' <- face_like (at3 up) rid b; Ok (Some (a', b'))
  end.
Proof.
  intros N Ep En H. unfold zone in H. destruct (zadded up pts chain) as [(o1, o2)|] eqn:A; [|discriminate]. cbn [rbind snd] in H. destruct (zremove up pts (p_tri p) o2) as [ch|] eqn:Rm; [|discriminate]. cbn [rbind] in H. destruct (Nat.leb_spec 2 (length ch)) as [L|]; [|discriminate]. destruct (zplane up (pts ++ ch)) eqn:Pl; [|discriminate]. cbn [andb] in H.
  destruct (zadded up pts ch) as [(o3, o4)|] eqn:A2; [|discriminate]. cbn [rbind snd] in H. destruct (zredundant pts (p_tri p) (length o4 + 1) o4) as [kept|] eqn:Rd; [|discriminate]. cbn [rbind] in H. destruct (z_arrays4 _ _ _ _ _ H) as (L2 & Ga).
  unfold slice_one. cbn [fst snd]. rewrite Ep, (z_added up up1 _ _ _ _ A). cbn [rbind snd]. rewrite (z_remove up up1 p pts o2 ch Ep Rm). cbn [rbind]. rewrite map_length. rewrite (proj2 (Nat.ltb_ge _ _) L). rewrite En.
  rewrite (z_slice up up1 p pts ch o3 o4 (map at3 kept) (map at3 a1) (map at3 a2) _ _ _ _ _ _ Ep En Pl A2 (z_redundant _ _ _ _ N Rd)); auto. rewrite map_length. auto.
Qed.
Lemma z_parts rid n p pts chain a1 a2 r1 t1 r2 t2 : pts <> [] -> p_pts p = map at3 pts -> p_vn p = at3 up -> zone pts (p_tri p) chain = Ok (a1, a2) -> zmake_vn up a1 = Ok (r1, t1) -> zmake_vn up a2 = Ok (r2, t2) ->
  exists a b, slice_one rid (n, p) (map at3 chain) = Ok (Some ((n ++ str_of "-main", a), (n ++ str_of "-sup", b))) /\ p_pts a = map at3 r1 /\ p_tri a = t1 /\ p_vn a = at3 up /\ p_pts b = map at3 r2 /\ p_tri b = t2 /\ p_vn b = at3 up.
Proof.
  intros N Ep En H M1 M2. destruct (z_make_vn up up1 a1 r1 t1 M1) as (a & Ma & Ea & Ta & Va & _), (z_make_vn up up1 a2 r2 t2 M2) as (b & Mb & Eb & Tb & Vb & _). exists a, b. split; [|repeat split; auto].
  rewrite (z_one rid n p pts chain a1 a2 N Ep En H). unfold make_polygons. rewrite Ma, Mb. cbn [rbind assign_names fst snd or_random]. rewrite !Prelude.eqb_refl. cbn [rbind andb]. unfold face_like. cbn [snd]. rewrite Va, Vb, allclose_refl by (unfold RTOL, ATOL8; lra). reflexivity.
Qed.
(** Two points do not make a polygon. *)
Lemma z_thin rid n p pts chain a1 a2 x y : pts <> [] -> p_pts p = map at3 pts -> p_vn p = at3 up -> zone pts (p_tri p) chain = Ok (a1, a2) -> a1 = [x; y] -> slice_one rid (n, p) (map at3 chain) = Err AssertionError.
Proof.
  intros N Ep En H E1. rewrite (z_one rid n p pts chain a1 a2 N Ep En H). unfold make_polygons, make_polygon at 1, check_polygon. subst a1. reflexivity.
Qed.

(** A square in the middle of another one. *)
Definition inner2 : list z3 := [(2, 4, 0); (4, 4, 0); (4, 2, 0); (2, 2, 0)]%Z.
Definition off_centre : list z3 := [(3, 2, 0); (5, 2, 0); (5, 1, 0); (3, 1, 0)]%Z.
Lemma nested_cut rid s1 p1 s2 p2 a1 b1 a2 b2 : forall c12 c21 b12 b21, contains_margin GEOM_ATOL (snd p1) (snd p2) = Ok c12 -> contains_margin GEOM_ATOL (snd p2) (snd p1) = Ok c21 ->
  contains_margin with_boundary (snd p1) (snd p2) = Ok b12 -> contains_margin with_boundary (snd p2) (snd p1) = Ok b21 -> find_close_pairs (p_pts (snd p1)) (p_pts (snd p2)) 2 true = Ok [(a1, b1); (a2, b2)] ->
  (c12 = true -> slice_both rid s1 p1 s2 p2 = let r := slice_twice rid s1 p1 [b1; a1; a2; b2] (p_pts (snd p2)) in ((fst r, s2), snd r)) /\
  (c12 = false -> c21 = true -> slice_both rid s1 p1 s2 p2 = let r := slice_twice rid s2 p2 [b1; a1; a2; b2] (p_pts (snd p1)) in ((s1, fst r), snd r)).
Proof.
  intros c12 c21 b12 b21 H1 H2 H3 H4 F. unfold slice_both. rewrite H1, H2, H3, H4. cbn [rbind]. split; [intros ->|intros -> ->]; cbn [orb]; rewrite F; reflexivity.
Qed.
Lemma z_nested v rid s1 n1 p1 s2 n2 p2 pts1 pts2 a1 b1 a2 b2 : zdot v v = 1%Z -> pts1 <> [] -> pts2 <> [] -> p_pts p1 = map at3 pts1 -> p_pts p2 = map at3 pts2 ->
  zcontains up false pts1 (p_tri p1) pts2 = Ok true -> zcontains v false pts2 (p_tri p2) pts1 = Ok false -> zcontains up true pts1 (p_tri p1) pts2 = Ok true -> zcontains v true pts2 (p_tri p2) pts1 = Ok false -> zclose up pts1 pts2 2 = Ok [(a1, b1); (a2, b2)] ->
  slice_both rid s1 (n1, p1) s2 (n2, p2) = let r := slice_twice rid s1 (n1, p1) (map at3 [b1; a1; a2; b2]) (map at3 pts2) in ((fst r, s2), snd r).
Proof.
  intros U N1 N2 E1 E2 C1 C2 C3 C4 F. rewrite <- E2. apply (nested_cut rid s1 (n1, p1) s2 (n2, p2) (at3 a1) (at3 b1) (at3 a2) (at3 b2) true false true false); cbn [snd]; auto.
  - apply (z_contains up up1 false _ _ pts1 pts2 true); auto.
  - apply (z_contains v U false _ _ pts2 pts1 false); auto.
  - apply (z_contains up up1 true _ _ pts1 pts2 true); auto.
  - apply (z_contains v U true _ _ pts2 pts1 false); auto.
  - rewrite E1, E2. apply (z_close up up1 _ _ _ _ N1 N2 F).
Qed.
Lemma next_one w1 n1 p1 w2 n2 p2 : adjacent p1 p2 = Ok true -> next_adjacent (one_poly w1 (n1, p1)) (one_poly w2 (n2, p2)) = Ok (Some ((n1, p1), (n2, p2))).
Proof. intros H. unfold next_adjacent. cbn [one_poly polys walls_and_polys map concat app snd fst first_adjacent]. rewrite H. reflexivity. Qed.
Definition ring : list z3 := [(6, 0, 0); (6, 6, 0); (0, 6, 0); (0, 0, 0); (2, 2, 0); (4, 2, 0)]%Z.
Definition bridge : list z3 := [(4, 2, 0); (2, 2, 0); (0, 0, 0); (6, 0, 0)]%Z.
Definition horseshoe : list z3 := [(2, 4, 0); (4, 4, 0); (4, 2, 0); (6, 0, 0); (6, 6, 0); (0, 6, 0); (0, 0, 0); (2, 2, 0)]%Z.
Definition sw : str := str_of "w". Definition sv : str := str_of "v". Definition sp : str := str_of "p". Definition sq : str := str_of "q".
Lemma replace_first (p a b : polygon) : replace_polygon (one_poly sw (sp, p)) sp [(sp ++ str_of "-main", a); (sp ++ str_of "-sup", b)] = ([(sw, [(str_of "p-main", a); (str_of "p-sup", b)])], Ok tt).
Proof. reflexivity. Qed.
Lemma replace_second (a b c d : polygon) : replace_polygon [(sw, [(str_of "p-main", a); (str_of "p-sup", b)])] (str_of "p-main") [(str_of "p-main" ++ str_of "-main", c); (str_of "p-main" ++ str_of "-sup", d)] = ([(sw, [(str_of "p-sup", b); (str_of "p-main-main", c); (str_of "p-main-sup", d)])], Ok tt).
Proof. reflexivity. Qed.
Lemma nested_runs rid p1 p2 : is_square p1 -> is_made inner2 [(3, 0, 1); (3, 1, 2)]%nat down p2 -> exists b c d,
  stitch rid 2 (one_poly sw (sp, p1)) (one_poly sv (sq, p2)) = (([(sw, [(str_of "p-sup", b); (str_of "p-main-main", c); (str_of "p-main-sup", d)])], one_poly sv (sq, p2)), Ok tt) /\
  p_pts b = map at3 bridge /\ p_pts c = map at3 (rev inner2) /\ p_pts d = map at3 horseshoe.
Proof.
  intros (_ & Ep & Et & En) (_ & Ep2 & Et2 & _).
  destruct (z_parts rid sp p1 sq6 [(2, 2, 0); (0, 0, 0); (6, 0, 0); (4, 2, 0)]%Z ring [(6, 0, 0); (0, 0, 0); (2, 2, 0); (4, 2, 0)]%Z ring [(5, 0, 1); (5, 1, 2); (2, 3, 4); (2, 4, 5)]%nat bridge [(3, 0, 1); (3, 1, 2)]%nat) as (a & b & S1 & Ea & Ta & Va & Eb & Tb & Vb); auto; try discriminate; [rewrite Et; reflexivity|].
  destruct (z_parts rid (str_of "p-main") a ring inner2 (rev inner2) [(2, 2, 0); (0, 0, 0); (0, 6, 0); (6, 6, 0); (6, 0, 0); (4, 2, 0); (4, 4, 0); (2, 4, 0)]%Z (rev inner2) [(3, 0, 1); (3, 1, 2)]%nat horseshoe [(1, 2, 3); (1, 3, 4); (1, 4, 5); (5, 6, 7); (5, 7, 0); (5, 0, 1)]%nat) as (c & d & S2 & Ec & Tc & Vc & Ed & Td & Vd); auto; try discriminate; [rewrite Ta; reflexivity|].
  assert (T : slice_twice rid (one_poly sw (sp, p1)) (sp, p1) (map at3 [(2, 2, 0); (0, 0, 0); (6, 0, 0); (4, 2, 0)]%Z) (map at3 inner2) = ([(sw, [(str_of "p-sup", b); (str_of "p-main-main", c); (str_of "p-main-sup", d)])], Ok tt)).
  { unfold slice_twice, slice_one_and_replace at 1. rewrite S1. cbn [fst]. rewrite replace_first. unfold slice_one_and_replace. change ((sp ++ str_of "-main")%list, a) with (str_of "p-main", a). rewrite S2. cbn [fst]. rewrite replace_second. reflexivity. }
  exists b, c, d. split; [|auto]. cbn [stitch]. rewrite next_one by (rewrite (z_adjacent down p1 p2 sq6 inner2 false true false) by (rewrite ?Et, ?Et2; auto); reflexivity).
  rewrite (z_nested down rid _ sp p1 _ sq p2 sq6 inner2 (0, 0, 0)%Z (2, 2, 0)%Z (6, 0, 0)%Z (4, 2, 0)%Z) by (rewrite ?Et, ?Et2; auto; discriminate).
  rewrite T. cbn zeta. cbn [fst snd].
  unfold next_adjacent. cbn [one_poly polys walls_and_polys map concat app snd fst first_adjacent].
  rewrite (z_adjacent down b p2 bridge inner2 false false false) by (rewrite ?Tb, ?Et2; auto). cbn [rbind orb snd]. rewrite (z_adjacent down c p2 (rev inner2) inner2 false false false) by (rewrite ?Tc, ?Et2; auto). cbn [rbind orb snd]. rewrite (z_adjacent down d p2 horseshoe inner2 false false false) by (rewrite ?Td, ?Et2; auto). reflexivity.
Qed.
Definition strip : list z3 := [(0, 0, 0); (6, 0, 0); (5, 1, 0); (3, 1, 0)]%Z.
Definition rest : list z3 := [(3, 1, 0); (5, 1, 0); (6, 0, 0); (6, 6, 0); (0, 6, 0); (0, 0, 0)]%Z.
Lemma thin_runs rid k p1 p2 : is_square p1 -> is_made off_centre [(3, 0, 1); (3, 1, 2)]%nat down p2 -> exists a b,
  stitch rid (S k) (one_poly sw (sp, p1)) (one_poly sv (sq, p2)) = (([(sw, [(str_of "p-main", a); (str_of "p-sup", b)])], one_poly sv (sq, p2)), Err AssertionError) /\ p_pts a = map at3 strip /\ p_pts b = map at3 rest.
Proof.
  intros (_ & Ep & Et & En) (_ & Ep2 & Et2 & _).
  destruct (z_parts rid sp p1 sq6 [(5, 1, 0); (6, 0, 0); (0, 0, 0); (3, 1, 0)]%Z strip [(0, 0, 0); (0, 6, 0); (6, 6, 0); (6, 0, 0); (5, 1, 0); (3, 1, 0)]%Z strip [(3, 0, 1); (3, 1, 2)]%nat rest [(1, 2, 3); (1, 3, 4); (4, 5, 0); (4, 0, 1)]%nat) as (a & b & S1 & Ea & Ta & Va & Eb & Tb & Vb); auto; try discriminate; [rewrite Et; reflexivity|].
  assert (S2 : slice_one rid (str_of "p-main", a) (map at3 off_centre) = Err AssertionError).
  { eapply (z_thin rid _ a strip off_centre _ _ (5, 1, 0)%Z (3, 1, 0)%Z); auto; [discriminate|rewrite Ta; reflexivity]. }
  exists a, b. split; [|auto]. cbn [stitch]. rewrite next_one by (rewrite (z_adjacent down p1 p2 sq6 off_centre false true false) by (rewrite ?Et, ?Et2; auto); reflexivity).
  rewrite (z_nested down rid _ sp p1 _ sq p2 sq6 off_centre (6, 0, 0)%Z (5, 1, 0)%Z (0, 0, 0)%Z (3, 1, 0)%Z) by (rewrite ?Et, ?Et2; auto; discriminate).
  assert (T : slice_twice rid (one_poly sw (sp, p1)) (sp, p1) (map at3 [(5, 1, 0); (6, 0, 0); (0, 0, 0); (3, 1, 0)]%Z) (map at3 off_centre) = ([(sw, [(str_of "p-main", a); (str_of "p-sup", b)])], Err AssertionError)).
  { unfold slice_twice, slice_one_and_replace at 1. rewrite S1. cbn [fst]. rewrite replace_first. unfold slice_one_and_replace. change ((sp ++ str_of "-main")%list, a) with (str_of "p-main", a). rewrite S2. reflexivity. }
  rewrite T. reflexivity.
Qed.
Lemma nested_stitched : exists p1 p2 b c d, make_polygon (map at3 sq6) None None = Ok p1 /\ make_polygon (map at3 inner2) None None = Ok p2 /\ p_pts b = map at3 bridge /\ p_pts c = map at3 (rev inner2) /\ p_pts d = map at3 horseshoe /\
  stitch [] 2 (one_poly sw (sp, p1)) (one_poly sv (sq, p2)) = (([(sw, [(str_of "p-sup", b); (str_of "p-main-main", c); (str_of "p-main-sup", d)])], one_poly sv (sq, p2)), Ok tt).
Proof.
  destruct square_exists as (p1 & S). destruct (made inner2 [(3, 0, 1); (3, 1, 2)]%nat down eq_refl) as (p2 & M). destruct (nested_runs [] p1 p2 S M) as (b & c & d & R & E1 & E2 & E3). exists p1, p2, b, c, d. split; [apply S|]. split; [apply M|]. auto.
Qed.
Lemma nested_raises : exists p1 p2, make_polygon (map at3 sq6) None None = Ok p1 /\ make_polygon (map at3 off_centre) None None = Ok p2 /\ contains_polygon p1 p2 = Ok true /\ p_vn p2 = vopp (p_vn p1) /\
  forall rid k, exists a b, p_pts a = map at3 strip /\ p_pts b = map at3 rest /\
  stitch rid (S k) (one_poly sw (sp, p1)) (one_poly sv (sq, p2)) = (([(sw, [(str_of "p-main", a); (str_of "p-sup", b)])], one_poly sv (sq, p2)), Err AssertionError).
Proof.
  destruct square_exists as (p1 & S). destruct (made off_centre [(3, 0, 1); (3, 1, 2)]%nat down eq_refl) as (p2 & M). exists p1, p2. pose proof S as (A & Ep & Et & En). pose proof M as (B & Ep2 & Et2 & En2). split; [auto|]. split; [auto|]. split; [apply (z_contains up up1 false p1 p2 sq6 off_centre true); auto; rewrite Et; reflexivity|].
  split; [rewrite En, En2; apply vopp_at3; reflexivity|]. intros rid k. destruct (thin_runs rid k p1 p2 S M) as (a & b & R & E1 & E2). exists a, b. auto.
Qed.
