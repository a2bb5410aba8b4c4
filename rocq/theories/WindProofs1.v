(** The winding number of an outline and its triangles. *)
From Coq Require Import Reals List ZArith Bool Arith Lia Lra Permutation.
From Verif Require Import Prelude VecModel VecProofs GeomModel GeomSpec GeomProofs1 GeomProofs2 GeomProofs3 GeomProofs4 TriModel TriSpec TriProofs2 PolyModel PolySpec CrossSpec InsideSpec InsideProofs1 RoomSpec RoomProofs1 WindSpec.
Import ListNotations.
Local Open Scope R_scope.

(** ** Sums *)
Lemma zsum_app a b : zsum (a ++ b) = (zsum a + zsum b)%Z.
Proof. induction a as [|x a IH]; cbn [app zsum fold_right]; [reflexivity|]. unfold zsum in IH. rewrite IH. unfold zsum. lia. Qed.
Lemma zsum_perm a b : Permutation a b -> zsum a = zsum b.
Proof. unfold zsum. induction 1; cbn [fold_right]; lia. Qed.

(** ** Edges *)
Lemma left_swap n a b q : left_of n b a q = - left_of n a b q.
Proof. unfold left_of. dvec n; dvec a; dvec b; dvec q. vunf. ring. Qed.
Ltac turn := unfold edge_turn; cbn [fst snd]; repeat match goal with
  | |- context [Rle_dec ?a ?b] => destruct (Rle_dec a b)
  | |- context [Rlt_dec ?a ?b] => destruct (Rlt_dec a b) end.
Lemma turn_swap n u q e : edge_turn n u q (swap e) = (- edge_turn n u q e)%Z.
Proof. destruct e as (a, b). unfold swap. unfold edge_turn. cbn [fst snd]. rewrite (left_swap n a b q). turn; try lia; exfalso; lra. Qed.
Lemma turns_swap n u q l : zsum (map (edge_turn n u q) (map swap l)) = (- zsum (map (edge_turn n u q) l))%Z.
Proof. induction l as [|e l IH]; auto. unfold zsum in *. cbn [map fold_right]. rewrite IH, turn_swap. lia. Qed.
Lemma both_ways_turns n u q l : zsum (map (edge_turn n u q) (both_ways l)) = 0%Z.
Proof. induction l as [|e l IH]; auto. unfold zsum, both_ways in *. cbn [flat_map app map fold_right]. fold (@swap vec e). rewrite IH, turn_swap. lia. Qed.

(** The winding number depends on the loop only; it changes its sign with the
    direction and with the normal. *)
Lemma winding_rot n u q l l' : rotation_of l l' -> winding n u q l' = winding n u q l.
Proof. intros R. unfold winding. symmetry. apply zsum_perm, Permutation_map, cyc_pairs_rotation, R. Qed.
Lemma winding_rev n u q l : winding n u q (rev l) = (- winding n u q l)%Z.
Proof. unfold winding. rewrite <- turns_swap. apply zsum_perm, Permutation_map, cyc_pairs_rev. Qed.
Lemma left_opp n a b q : left_of (vopp n) a b q = - left_of n a b q.
Proof. unfold left_of. dvec n; dvec a; dvec b; dvec q. vunf. ring. Qed.

(** ** One triangle *)
Definition crossing (x y s : R) : Z :=
  if Rle_dec x 0 then if Rlt_dec 0 y then if Rlt_dec 0 s then 1%Z else 0%Z else 0%Z
  else if Rle_dec y 0 then if Rlt_dec s 0 then (-1)%Z else 0%Z else 0%Z.
Lemma turn_crossing n u q a b : edge_turn n u q (a, b) = crossing (dot u a - dot u q) (dot u b - dot u q) (left_of n a b q).
Proof. unfold crossing. turn; auto; exfalso; lra. Qed.
Ltac cross_cases := unfold crossing; repeat match goal with
  | |- context [Rle_dec ?a ?b] => destruct (Rle_dec a b)
  | |- context [Rlt_dec ?a ?b] => destruct (Rlt_dec a b) end.
Lemma sign_product s v : (0 < s -> 0 < v -> 0 < s * v) /\ (0 <= s -> v <= 0 -> s * v <= 0) /\ (0 <= s -> 0 < v -> 0 <= s * v) /\ (0 < s -> v < 0 -> s * v < 0) /\
  (s <= 0 -> v <= 0 -> 0 <= s * v) /\ (s <= 0 -> 0 < v -> s * v <= 0) /\ (s < 0 -> 0 < v -> s * v < 0) /\ (s < 0 -> v < 0 -> 0 < s * v).
Proof. repeat split; intros; nra. Qed.
Ltac signs s v :=
  destruct (sign_product s v) as (?P1 & ?P2 & ?P3 & ?P4 & ?P5 & ?P6 & ?P7 & ?P8);
  repeat match goal with
  | H : _ -> _ -> _ |- _ => first [specialize (H ltac:(lra) ltac:(lra)) | clear H] end.
Lemma triangle_crossings x y z s1 s2 s3 : s2 * x + s3 * y + s1 * z = 0 -> 0 < s1 + s2 + s3 ->
  let w := (crossing x y s1 + (crossing y z s2 + crossing z x s3))%Z in
  (0 <= w <= 1)%Z /\ (s1 < 0 \/ s2 < 0 \/ s3 < 0 -> w = 0%Z) /\ (0 < s1 -> 0 < s2 -> 0 < s3 -> ~ (x = y /\ y = z) -> w = 1%Z).
Proof.
  intros E S w. subst w.
  cross_cases; (split; [try lia|split; [intros Hn; try lia|intros H1 H2 H3 N; try lia]]).
  all: exfalso; repeat match goal with H : ~ (_ <= _) |- _ => apply Rnot_le_lt in H | H : ~ (_ < _) |- _ => apply Rnot_lt_le in H end.
  all: try (repeat match goal with H : _ \/ _ |- _ => destruct H as [H|H] end; try lra; solve [signs s2 x; signs s3 y; signs s1 z; lra]).
  all: try solve [apply N; split; signs s2 x; signs s3 y; signs s1 z; nra].
Qed.

Lemma left_side n a b q : left_of n a b q = side n a b q.
Proof. reflexivity. Qed.
Lemma heights n d u a b c q : unit n -> on_plane n d a -> on_plane n d b -> on_plane n d c -> on_plane n d q -> 0 < side n a b c ->
  side n b c q * (dot u a - dot u q) + side n c a q * (dot u b - dot u q) + side n a b q * (dot u c - dot u q) = 0.
Proof.
  intros U A B C Q K. pose proof (in_plane_bary n d a b c q U A B C Q K) as E. pose proof (side_sum n a b c q) as S.
  assert (Eu : dot u q = (side n b c q * dot u a + side n c a q * dot u b + side n a b q * dot u c) / side n a b c).
  { rewrite E at 1. unfold bary. generalize (side n b c q) (side n c a q) (side n a b q). intros s2 s3 s1. replace (dot u (vadd (vadd (smul (s2 / side n a b c) a) (smul (s3 / side n a b c) b)) (smul (s1 / side n a b c) c))) with (s2 / side n a b c * dot u a + s3 / side n a b c * dot u b + s1 / side n a b c * dot u c) by (clear; dvec u; dvec a; dvec b; dvec c; vunf; ring). field. lra. }
  revert Eu S. generalize (side n b c q) (side n c a q) (side n a b q) (dot u a) (dot u b) (dot u c) (dot u q). intros s2 s3 s1 x y z w Eu S. assert (M : w * side n a b c = s2 * x + s3 * y + s1 * z) by (rewrite Eu; field; lra). rewrite <- S in M. lra.
Qed.
Lemma not_level n u a b c d : unit n -> on_plane n d a -> on_plane n d b -> on_plane n d c -> 0 < side n a b c -> cross u n <> vzero -> ~ (dot u a = dot u b /\ dot u b = dot u c).
Proof.
  intros U A B C K N (E1 & E2). apply N. unfold on_plane in *. destruct (perp_cross n (vsub b a) (vsub c a) U) as (k & X); [vunf; lra|vunf; lra|].
  assert (Ek : side n a b c = k). { unfold side. rewrite X. replace (dot n (smul k n)) with (k * dot n n) by (dvec n; vunf; ring). rewrite U. ring. } rewrite Ek in K.
  assert (T : cross u (cross (vsub b a) (vsub c a)) = vsub (smul (dot u (vsub c a)) (vsub b a)) (smul (dot u (vsub b a)) (vsub c a))) by (clear; dvec u; dvec a; dvec b; dvec c; vunf; f_equal; ring).
  assert (D1 : dot u (vsub b a) = 0) by (replace (dot u (vsub b a)) with (dot u b - dot u a) by (clear; dvec u; dvec a; dvec b; vunf; ring); lra). assert (D2 : dot u (vsub c a) = 0) by (replace (dot u (vsub c a)) with (dot u c - dot u a) by (clear; dvec u; dvec a; dvec c; vunf; ring); lra).
  rewrite X, D1, D2 in T. replace (cross u (smul k n)) with (smul k (cross u n)) in T by (clear; dvec u; dvec n; vunf; f_equal; ring). revert T. generalize (cross u n). intros w T. clear - K T. dvec w; dvec a; dvec b; dvec c. revert T. vunf. unfold vzero. intros T. injection T as T1 T2 T3. f_equal; nra.
Qed.
Lemma strictly_sides n d a b c q : unit n -> on_plane n d a -> on_plane n d b -> on_plane n d c -> on_plane n d q -> 0 < side n a b c ->
  (strictly_inside a b c q <-> 0 < side n a b q /\ 0 < side n b c q /\ 0 < side n c a q).
Proof.
  intros U A B C Q K. split.
  - intros (x & y & z & X & Y & Z & E & ->).
    assert (E1 : side n a b (bary a b c x y z) = z * side n a b c) by (apply side_bary; auto).
    assert (E2 : side n b c (bary a b c x y z) = x * side n a b c) by (replace z with (1 - x - y) by lra; unfold side, bary; clear; dvec n; dvec a; dvec b; dvec c; vunf; ring).
    assert (E3 : side n c a (bary a b c x y z) = y * side n a b c) by (replace z with (1 - x - y) by lra; unfold side, bary; clear; dvec n; dvec a; dvec b; dvec c; vunf; ring).
    rewrite E1, E2, E3. repeat split; apply Rmult_lt_0_compat; lra.
  - intros (S1 & S2 & S3). exists (side n b c q / side n a b c), (side n c a q / side n a b c), (side n a b q / side n a b c).
    assert (P : forall x, 0 < x -> 0 < x / side n a b c) by (intros x X; apply Rmult_lt_0_compat; [auto|apply Rinv_0_lt_compat; auto]).
    do 3 (split; [auto|]). split; [|eapply in_plane_bary; eauto]. pose proof (side_sum n a b c q) as S. generalize (side n a b c) (side n a b q) (side n b c q) (side n c a q) K S. clear. intros k x y z K S. replace (y / k + z / k + x / k) with ((x + y + z) / k) by (field; lra). rewrite S. field. lra.
Qed.
Definition tri_turn (n u q a b c : vec) : Z := (edge_turn n u q (a, b) + (edge_turn n u q (b, c) + edge_turn n u q (c, a)))%Z.
Lemma triangle_turn n d u a b c q : unit n -> on_plane n d a -> on_plane n d b -> on_plane n d c -> on_plane n d q -> 0 < side n a b c -> cross u n <> vzero ->
  (0 <= tri_turn n u q a b c <= 1)%Z /\ (~ in_triangle a b c q -> tri_turn n u q a b c = 0%Z) /\ (strictly_inside a b c q -> tri_turn n u q a b c = 1%Z).
Proof.
  intros U A B C Q K N. unfold tri_turn. rewrite !turn_crossing, !left_side.
  destruct (triangle_crossings _ _ _ _ _ _ (heights n d u a b c q U A B C Q K)) as (W1 & W2 & W3); [pose proof (side_sum n a b c q); lra|]. split; [exact W1|]. split.
  - intros I. apply W2. rewrite (in_triangle_sides n d) in I by auto. destruct (Rlt_dec (side n a b q) 0); [auto|]. destruct (Rlt_dec (side n b c q) 0); [auto|]. destruct (Rlt_dec (side n c a q) 0); [auto|]. exfalso. apply I. lra.
  - intros I. apply (strictly_sides n d) in I; auto. destruct I as (S1 & S2 & S3). apply W3; auto. intros (E1 & E2). apply (not_level n u a b c d U A B C K N). split; lra.
Qed.
(** Off the boundary one of the two is the case. *)
Lemma sides_cases n d a b c q : unit n -> on_plane n d a -> on_plane n d b -> on_plane n d c -> on_plane n d q -> 0 < side n a b c ->
  strictly_inside a b c q \/ ~ strictly_inside a b c q.
Proof.
  intros U A B C Q K. rewrite (strictly_sides n d) by auto. destruct (Rlt_dec 0 (side n a b q)); [|right; lra]. destruct (Rlt_dec 0 (side n b c q)); [|right; lra]. destruct (Rlt_dec 0 (side n c a q)); [left; auto|right; lra].
Qed.

(** ** All triangles *)
Definition pair_at (pts : list vec) (e : nat * nat) : vec * vec := (corner pts (fst e), corner pts (snd e)).
Lemma both_ways_map pts l : map (pair_at pts) (both_ways l) = both_ways (map (pair_at pts) l).
Proof. unfold both_ways. induction l as [|e l IH]; auto. cbn [flat_map map app] in *. rewrite IH. reflexivity. Qed.
Lemma cyc_pairs_map {A B} (g : A -> B) l : map (fun e => (g (fst e), g (snd e))) (cyc_pairs l) = cyc_pairs (map g l).
Proof.
  unfold cyc_pairs. destruct l as [|x r]; auto. change (map g (x :: r)) with (g x :: map g r). cbv match. replace (map g r ++ [g x]) with (map g (r ++ [x])) by (rewrite map_app; auto). change (g x :: map g r) with (map g (x :: r)).
  generalize (x :: r) (r ++ [x]). clear. induction l as [|a l IH]; intros [|b m]; auto. cbn [combine map fst snd]. rewrite IH. auto.
Qed.
Lemma outline_turns (f : face) n u q ds : Permutation (tri_edges (snd f)) (cyc_pairs (seq 0 (length (fst f))) ++ both_ways ds) ->
  zsum (map (edge_turn n u q) (map (pair_at (fst f)) (tri_edges (snd f)))) = winding n u q (fst f).
Proof.
  intros P. apply (Permutation_map (pair_at (fst f))), (Permutation_map (edge_turn n u q)), zsum_perm in P. rewrite P, !map_app, zsum_app, both_ways_map, both_ways_turns, Z.add_0_r. unfold winding, pair_at. rewrite (cyc_pairs_map (corner (fst f))), corners. reflexivity.
Qed.
Lemma mesh_turns pts ts n u q : (forall t, In t ts -> exists a b c, tri_verts pts t (a, b, c)) ->
  exists ws, zsum (map (edge_turn n u q) (map (pair_at pts) (tri_edges ts))) = zsum ws /\ Forall2 (fun t w => forall a b c, tri_verts pts t (a, b, c) -> w = tri_turn n u q a b c) ts ws.
Proof.
  induction ts as [|t ts IH]; intros H; [exists []; split; constructor|]. destruct IH as (ws & E & F); [intros s I; apply H; right; auto|]. destruct (H t (or_introl eq_refl)) as (a & b & c & T). exists (tri_turn n u q a b c :: ws). split.
  - destruct t as ((i, j), k). destruct T as (T1 & T2 & T3). unfold tri_edges in *. cbn [flat_map app map]. unfold zsum in *. cbn [fold_right]. rewrite E. unfold pair_at, corner. cbn [fst snd]. rewrite (nth_error_nth _ _ vzero T1), (nth_error_nth _ _ vzero T2), (nth_error_nth _ _ vzero T3). unfold tri_turn. lia.
  - constructor; auto. intros a' b' c' T'. destruct t as ((i, j), k). destruct T as (T1 & T2 & T3), T' as (T1' & T2' & T3'). congruence.
Qed.
Lemma covers_turns f n d u q : covers f n d -> exists ws, winding n u q (fst f) = zsum ws /\ Forall2 (fun t w => forall a b c, tri_verts (fst f) t (a, b, c) -> w = tri_turn n u q a b c) (snd f) ws.
Proof.
  intros (U & P & T & ds & Pm). rewrite <- (outline_turns f n u q ds Pm). apply mesh_turns. intros t I. destruct (T t I) as (a & b & c & V & _). eauto.
Qed.
Lemma covers_tri f n d t a b c : covers f n d -> In t (snd f) -> tri_verts (fst f) t (a, b, c) -> unit n /\ on_plane n d a /\ on_plane n d b /\ on_plane n d c /\ 0 < side n a b c.
Proof.
  intros (U & P & T & _) I V. destruct (T t I) as (a' & b' & c' & V' & K). destruct t as ((i, j), k). destruct V as (V1 & V2 & V3), V' as (W1 & W2 & W3). rewrite V1 in W1. rewrite V2 in W2. rewrite V3 in W3. injection W1 as <-. injection W2 as <-. injection W3 as <-. apply nth_error_In in V1, V2, V3. repeat split; auto.
Qed.
Lemma hits_cons x l : Z.of_nat (hits (x :: l)) = ((if x then 1 else 0) + Z.of_nat (hits l))%Z.
Proof. unfold hits. cbn [filter]. destruct x; cbn [length]; lia. Qed.
Lemma winding_count f n d u q os cs : covers f n d -> on_plane n d q -> cross u n <> vzero ->
  told (fun a b c => strictly_inside a b c q) f os -> told (fun a b c => in_triangle a b c q) f cs ->
  (Z.of_nat (hits os) <= winding n u q (fst f) <= Z.of_nat (hits cs))%Z.
Proof.
  intros C Q N O I. destruct (covers_turns f n d u q C) as (ws & -> & F). unfold told in *. 
  assert (Sub : forall t, In t (snd f) -> In t (snd f)) by auto. revert Sub ws F os cs O I. generalize (snd f) at 1 3 4 5. induction l as [|t ts IH]; intros Sub ws F os cs O I; inversion F; subst; inversion O; subst; inversion I; subst; [cbn; lia|].
  match goal with H : exists a b c, _ /\ (_ <-> strictly_inside _ _ _ _) |- _ => destruct H as (a & b & c & V & Eo) end. match goal with H : exists a b c, _ /\ (_ <-> in_triangle _ _ _ _) |- _ => destruct H as (a' & b' & c' & V' & Ec) end.
  assert (X : a' = a /\ b' = b /\ c' = c). { destruct t as ((i, j), k). destruct V as (V1 & V2 & V3), V' as (W1 & W2 & W3). rewrite V1 in W1. rewrite V2 in W2. rewrite V3 in W3. repeat split; congruence. } destruct X as (-> & -> & ->).
  destruct (covers_tri f n d t a b c C (Sub t (or_introl eq_refl)) V) as (U & A & B & C' & K). match goal with H : forall a b c, _ -> _ = tri_turn _ _ _ _ _ _ |- _ => specialize (H a b c V); subst end.
  destruct (triangle_turn n d u a b c q U A B C' Q K N) as (W & W0 & W1). edestruct IH as (L1 & L2); [intros t' I'; apply Sub; right; exact I'|eassumption|eassumption|eassumption|]. rewrite !hits_cons. unfold zsum in *. cbn [fold_right].
  match type of Eo with ?x = true <-> _ => destruct x end; match type of Ec with ?x = true <-> _ => destruct x end.
  - rewrite W1 by (apply Eo; auto). lia.
  - exfalso. specialize (W1 (proj1 Eo eq_refl)). rewrite W0 in W1; [discriminate|intros Z; apply Ec in Z; discriminate].
  - lia.
  - rewrite W0 by (intros Z; apply Ec in Z; discriminate). lia.
Qed.

(** Lists of answers exist. *)
Lemma told_exists (P : vec -> vec -> vec -> Prop) f : (forall t a b c, In t (snd f) -> tri_verts (fst f) t (a, b, c) -> P a b c \/ ~ P a b c) -> (forall t, In t (snd f) -> exists a b c, tri_verts (fst f) t (a, b, c)) -> exists bs, told P f bs.
Proof.
  unfold told. induction (snd f) as [|t ts IH]; intros D V; [exists []; constructor|]. destruct IH as (bs & F); [intros; apply (D t0); auto; right; auto|intros; apply V; right; auto|]. destruct (V t (or_introl eq_refl)) as (a & b & c & T).
  destruct (D t a b c (or_introl eq_refl) T) as [H|H]; [exists (true :: bs)|exists (false :: bs)]; constructor; auto; exists a, b, c; split; auto; split; auto; try discriminate; intros X; contradiction.
Qed.
Lemma hits_zero l : hits l = 0%nat <-> ~ In true l.
Proof. unfold hits. induction l as [|x l IH]; cbn; [tauto|]. destruct x; cbn [length In]; [split; [discriminate|intros H; exfalso; auto]|]. rewrite IH. split; [intros H [E|E]; [discriminate|auto]|tauto]. Qed.
Lemma told_in P f bs : told P f bs -> In true bs -> exists t a b c, In t (snd f) /\ tri_verts (fst f) t (a, b, c) /\ P a b c.
Proof.
  unfold told. induction 1 as [|t x ts bs (a & b & c & V & E) F IH]; intros I; [destruct I|]. destruct I as [->|I]; [exists t, a, b, c; split; [left; auto|split; auto; apply E; auto]|].
  destruct (IH I) as (t' & a' & b' & c' & It & V' & H). exists t', a', b', c'. split; [right; auto|auto].
Qed.
Lemma told_has P f bs t a b c : told P f bs -> In t (snd f) -> tri_verts (fst f) t (a, b, c) -> P a b c -> In true bs.
Proof.
  unfold told. induction 1 as [|t' x ts bs (a' & b' & c' & V & E) F IH]; intros I T H; [destruct I|]. destruct I as [->|I]; [|right; auto]. left. apply E. destruct t as ((i, j), k). destruct T as (T1 & T2 & T3), V as (V1 & V2 & V3). assert (a' = a) by congruence. assert (b' = b) by congruence. assert (c' = c) by congruence. subst. auto.
Qed.
Lemma sound_verts f n d : covers f n d -> forall t, In t (snd f) -> exists a b c, tri_verts (fst f) t (a, b, c).
Proof. intros (_ & _ & T & _) t I. destruct (T t I) as (a & b & c & V & _). eauto. Qed.
Lemma told_open f n d q : covers f n d -> on_plane n d q -> exists bs, told (fun a b c => strictly_inside a b c q) f bs.
Proof. intros C Q. apply told_exists; [|eapply sound_verts; eauto]. intros t a b c I V. destruct (covers_tri f n d t a b c C I V) as (U & A & B & C' & K). apply (sides_cases n d); auto. Qed.
Lemma told_closed f n d q : covers f n d -> on_plane n d q -> exists bs, told (fun a b c => in_triangle a b c q) f bs.
Proof.
  intros C Q. apply told_exists; [|eapply sound_verts; eauto]. intros t a b c I V. destruct (covers_tri f n d t a b c C I V) as (U & A & B & C' & K). rewrite (in_triangle_sides n d) by auto.
  destruct (Rle_dec 0 (side n a b q)); [|right; lra]. destruct (Rle_dec 0 (side n b c q)); [|right; lra]. destruct (Rle_dec 0 (side n c a q)); [left; auto|right; lra].
Qed.
Lemma winding_mesh f n d u q : covers f n d -> on_plane n d q -> cross u n <> vzero ->
  (0 <= winding n u q (fst f))%Z /\ ((0 < winding n u q (fst f))%Z -> in_mesh f q) /\
  forall t a b c, In t (snd f) -> tri_verts (fst f) t (a, b, c) -> strictly_inside a b c q -> (0 < winding n u q (fst f))%Z.
Proof.
  intros C Q N. destruct (told_open f n d q C Q) as (os & O). destruct (told_closed f n d q C Q) as (cs & Cs). destruct (winding_count f n d u q os cs C Q N O Cs) as (L & H). split; [lia|]. split.
  - intros P. destruct (told_in _ f cs Cs) as (t & a & b & c & I & V & T); [|exists t, a, b, c; auto]. destruct (in_dec Bool.bool_dec true cs) as [I|I]; auto. apply hits_zero in I. lia.
  - intros t a b c I V S. pose proof (told_has _ f os t a b c O I V S) as T. destruct (Nat.eq_dec (hits os) 0) as [E|E]; [apply hits_zero in E; contradiction|lia].
Qed.
