(** Ear clipping: transfer to integer points, convex polygons, and a simple
    polygon that is rejected. *)
From Coq Require Import Reals List Bool Arith Lia Lra ZArith Permutation.
From Verif Require Import Prelude VecModel VecProofs GeomModel GeomSpec GeomProofs1 GeomProofs2 GeomProofs3 GeomProofs4 TriModel TriSpec TriProofs TriProofs2.
Import ListNotations.
Local Open Scope R_scope.

(** Simulation of one instance by another. *)
Section Transfer.
Context {P Q : Type} (f : Q -> P).
Context (convex : P -> P -> P -> result bool) (inside : P -> P -> P -> P -> result bool).
Context (convex' : Q -> Q -> Q -> result bool) (inside' : Q -> Q -> Q -> Q -> result bool).
Context (pts : list Q).
Context (HC : forall a b c r, In a pts -> In b pts -> In c pts -> convex' a b c = Ok r -> convex (f a) (f b) (f c) = Ok r).
Context (HI : forall q a b c r, In q pts -> In a pts -> In b pts -> In c pts -> convex' a b c = Ok true -> inside' q a b c = Ok r -> inside (f q) (f a) (f b) (f c) = Ok r).

Definition lift (v : nat * Q) : nat * P := (fst v, f (snd v)).
Lemma at_index_map {A B} (g : A -> B) l i x : at_index l i = Ok x -> at_index (map g l) i = Ok (g x).
Proof. intros H. apply at_index_ok in H. apply at_index_ok. rewrite nth_error_map, H. auto. Qed.
Lemma pop_at_map {A B} (g : A -> B) l : forall i l', pop_at i l = Ok l' -> pop_at i (map g l) = Ok (map g l').
Proof.
  induction l as [|x l IH]; intros [|i] l' H; simpl in *; try discriminate; [inversion H; auto|]. destruct (pop_at i l) as [m|] eqn:E; [|discriminate]. cbn [rbind] in H. inversion H; subst.
  rewrite (IH _ _ E). reflexivity.
Qed.
Lemma at_index_In {A} (l : list A) i x : at_index l i = Ok x -> In x l.
Proof. intros H. apply at_index_ok in H. eapply nth_error_In; eauto. Qed.
Lemma any_inside_lift a b c pa pb pc : nth_error pts a = Some pa -> nth_error pts b = Some pb -> nth_error pts c = Some pc -> convex' pa pb pc = Ok true ->
  forall vs acc r, any_inside inside' pts a b c vs acc = Ok r -> any_inside inside (map f pts) a b c (map lift vs) acc = Ok r.
Proof.
  intros Ea Eb Ec Cv. induction vs as [|(i, x) vs IH]; intros acc r H; auto. cbn [any_inside map lift fst] in *. destruct (_ || _); auto.
  destruct (at_index pts i) as [q|] eqn:Ei; [|discriminate]. cbn [rbind] in H.
  rewrite (proj2 (at_index_ok _ _ _) Ea), (proj2 (at_index_ok _ _ _) Eb), (proj2 (at_index_ok _ _ _) Ec) in H. cbn [rbind] in H. destruct (inside' q pa pb pc) as [t|] eqn:T; [|discriminate]. cbn [rbind] in H.
  rewrite (at_index_map f _ _ _ Ei), (at_index_map f pts a pa), (at_index_map f pts b pb), (at_index_map f pts c pc) by (apply at_index_ok; auto). cbn [rbind].
  rewrite (HI q pa pb pc t) by (auto; try (eapply nth_error_In; eauto; fail); eapply at_index_In; eauto). cbn [rbind]. apply IH; auto.
Qed.
Lemma ear_loop_lift fuel : forall vs tris pos nf r, good pts vs -> ear_loop convex' inside' fuel pts vs tris pos nf = Ok r -> ear_loop convex inside fuel (map f pts) (map lift vs) tris pos nf = Ok r.
Proof.
  induction fuel as [|fuel IH]; intros vs tris pos nf r G H; [discriminate|]. cbn [ear_loop] in *. rewrite !map_length. destruct (length vs <=? 2)%nat eqn:E2; auto. apply Nat.leb_gt in E2.
  destruct (length pts <? nf)%nat; auto.
  destruct (loop_step pts vs pos) as (a & b & p & c & n & Evs & La & Ep & Ec & En & Epop & Nn & Np & Ip & In_ & Gp); [lia|].
  set (pos' := (if (length vs - 1 <? pos)%nat then 0%nat else pos)) in *. cbn zeta in *. rewrite Ep, Ec, En in H. cbn [rbind] in H. destruct (Gp G) as (Pp & Pc & Pn).
  rewrite (at_index_map lift _ _ _ Ep), (at_index_map lift _ _ _ Ec), (at_index_map lift _ _ _ En). cbn [rbind lift fst snd].
  destruct (convex' (snd p) (snd c) (snd n)) as [cv|] eqn:Cv; [|discriminate]. cbn [rbind] in H. rewrite (HC _ _ _ _ (nth_error_In _ _ Pp) (nth_error_In _ _ Pc) (nth_error_In _ _ Pn) Cv). cbn [rbind].
  destruct cv; auto. destruct (any_inside inside' pts (fst p) (fst c) (fst n) vs false) as [bad|] eqn:Ai; [|discriminate]. cbn [rbind] in H.
  rewrite (any_inside_lift _ _ _ _ _ _ Pp Pc Pn Cv _ _ _ Ai). cbn [rbind]. destruct bad; auto. rewrite Epop in H. cbn [rbind] in H. rewrite (pop_at_map lift _ _ _ Epop). cbn [rbind]. apply IH; auto.
  intros i q J. apply G. rewrite Evs. apply in_app_iff in J. apply in_app_iff. simpl. tauto.
Qed.
Lemma enumerate_map : enumerate (map f pts) = map lift (enumerate pts).
Proof. unfold enumerate. rewrite map_length. generalize 0%nat. clear. induction pts as [|x l IH]; intros k; simpl; auto. f_equal. apply IH. Qed.
Lemma free_ear_lift ring p c n : free_ear convex' inside' pts ring p c n -> free_ear convex inside (map f pts) ring p c n.
Proof.
  intros (pp & pc & pn & Ep & Ec & En & Cv & F). exists (f pp), (f pc), (f pn). rewrite !nth_error_map, Ep, Ec, En. repeat split; auto.
  - apply HC; auto; eapply nth_error_In; eauto.
  - intros q pq I N1 N2 N3 E. rewrite nth_error_map in E. destruct (nth_error pts q) as [x|] eqn:Eq; [|discriminate]. cbn [option_map] in E. inversion E; subst. apply HI; auto; try (eapply nth_error_In; eauto; fail). eapply F; eauto.
Qed.
End Transfer.

(** Both passes. *)
Lemma triangulate_lift {P Q} (f : Q -> P) convex inside convex' inside' (pts : list Q) :
  (forall a b c r, In a pts -> In b pts -> In c pts -> convex' a b c = Ok r -> convex (f a) (f b) (f c) = Ok r) ->
  (forall q a b c r, In q pts -> In a pts -> In b pts -> In c pts -> convex' a b c = Ok true -> inside' q a b c = Ok r -> inside (f q) (f a) (f b) (f c) = Ok r) ->
  (forall z r ts, triangulate convex' inside' z pts = Ok (r, ts) -> triangulate convex inside z (map f pts) = Ok (map f r, ts)) /\
  (forall z, triangulate convex' inside' z pts = Err TriangulationError -> (forall a b c, convex' a b c <> Err TriangulationError) -> (forall q a b c, inside' q a b c <> Err TriangulationError) ->
    triangulate convex inside z (map f pts) = Err TriangulationError).
Proof.
  intros HC HI. assert (L : forall l r, (forall x, In x l -> In x pts) -> ear_loop convex' inside' (2 * length l + 2) l (enumerate l) [] 0 0 = Ok r ->
    ear_loop convex inside (2 * length (map f l) + 2) (map f l) (enumerate (map f l)) [] 0 0 = Ok r).
  { intros l r S H. rewrite enumerate_map, map_length. apply (ear_loop_lift f convex inside convex' inside'); auto; try apply enumerate_good. }
  assert (R : forall x, In x (rev pts) -> In x pts) by (intros x; rewrite <- in_rev; auto).
  split.
  - intros z r ts. unfold triangulate, triangulate_from. destruct z; [discriminate|]. intros H.
    destruct (ear_loop convex' inside' (2 * length pts + 2) pts (enumerate pts) [] 0 0) as [[t|]|] eqn:E; cbn [rbind] in H; try discriminate; apply L in E; auto; rewrite E; cbn [rbind].
    + inversion H; subst; auto.
    + destruct (ear_loop convex' inside' (2 * length (rev pts) + 2) (rev pts) (enumerate (rev pts)) [] 0 0) as [[t|]|] eqn:E'; cbn [rbind] in H; try discriminate. apply L in E'; auto. rewrite <- map_rev, E'. cbn [rbind]. inversion H; subst; auto.
  - intros z. unfold triangulate, triangulate_from. destruct z; auto. intros H NC NI.
    destruct (ear_loop convex' inside' (2 * length pts + 2) pts (enumerate pts) [] 0 0) as [[t|]|] eqn:E; cbn [rbind] in H; try discriminate.
    + apply L in E; auto; rewrite E; cbn [rbind].
      destruct (ear_loop convex' inside' (2 * length (rev pts) + 2) (rev pts) (enumerate (rev pts)) [] 0 0) as [[t|]|e] eqn:E'; cbn [rbind] in H; try discriminate.
      * apply L in E'; auto. rewrite <- map_rev, E'. auto.
      * inversion H; subst. exfalso. apply ear_loop_err in E'; [|apply enumerate_good]. destruct E' as [?|[(a & b & c & _ & _ & _ & X)|(q & a & b & c & _ & X)]]; [discriminate|apply (NC _ _ _ X)|apply (NI _ _ _ _ X)].
    + inversion H; subst. exfalso. apply ear_loop_err in E; [|apply enumerate_good]. destruct E as [?|[(a & b & c & _ & _ & _ & X)|(q & a & b & c & _ & X)]]; [discriminate|apply (NC _ _ _ X)|apply (NI _ _ _ _ X)].
Qed.

(** Integer points with coordinates from 0 to 10. *)
Definition zconvex (a b c : Z * Z) : result bool := Ok (0 <? orient a b c)%Z.
Definition small (p : Z * Z) : bool := ((0 <=? fst p) && (fst p <=? 10) && (0 <=? snd p) && (snd p <=? 10))%Z.
Definition zinside (q a b c : Z * Z) : result bool :=
  if small q && small a && small b && small c && negb (orient a b q =? 0)%Z && negb (orient b c q =? 0)%Z && negb (orient c a q =? 0)%Z then
    Ok ((0 <? orient a b q) && (0 <? orient b c q) && (0 <? orient c a q))%Z
  else Err OutOfFuel.
Definition ez1 : vec := V 0 0 1.
Lemma ez1_unit : unit ez1.
Proof. unfold unit, ez1. vunf. ring. Qed.
Lemma grid_cross a b c : cross (vsub (at_grid b) (at_grid a)) (vsub (at_grid c) (at_grid a)) = smul (IZR (orient a b c)) ez1.
Proof. unfold at_grid, orient, ez1. rewrite minus_IZR, !mult_IZR, !minus_IZR. vunf. f_equal; ring. Qed.
Lemma grid_convex a b c r : zconvex a b c = Ok r -> ear_convex ez1 (at_grid a) (at_grid b) (at_grid c) = Ok r.
Proof.
  unfold zconvex. intros H. inversion H; subst. unfold ear_convex. rewrite (corner_convex_plane _ _ _ _ (IZR (orient a b c)) ez1_unit).
  - f_equal. unfold GEOM_ATOL. destruct (Z.ltb_spec 0 (orient a b c)) as [L|L].
    + apply Rleb_true. assert (1 <= IZR (orient a b c)) by (apply IZR_le; lia). lra.
    + apply Rleb_false. apply IZR_le in L. lra.
  - rewrite <- grid_cross. generalize (at_grid a) (at_grid b) (at_grid c). intros x y z. vring.
Qed.
Lemma grid_dist a b : small a = true -> small b = true -> a <> b -> 1 <= dist (at_grid a) (at_grid b) <= 15.
Proof.
  unfold small. rewrite !andb_true_iff, !Z.leb_le. intros Sa Sb N. destruct a as (ax, ay), b as (bx, by_). cbn [fst snd] in *.
  assert (Q : dot (vsub (at_grid (bx, by_)) (at_grid (ax, ay))) (vsub (at_grid (bx, by_)) (at_grid (ax, ay))) = IZR ((bx - ax) * (bx - ax) + (by_ - ay) * (by_ - ay))).
  { rewrite plus_IZR, !mult_IZR, !minus_IZR. unfold at_grid. cbn [fst snd]. vunf. ring. }
  assert (B : (1 <= (bx - ax) * (bx - ax) + (by_ - ay) * (by_ - ay) <= 225)%Z).
  { split; [|nia]. assert (bx <> ax \/ by_ <> ay) by (destruct (Z.eq_dec bx ax), (Z.eq_dec by_ ay); subst; auto; congruence).
    assert (SQ : forall x, (x <> 0 -> 1 <= x * x)%Z) by (intros x X; destruct (Z.lt_trichotomy x 0) as [?|[?|?]]; nia).
    assert (SP : forall x, (0 <= x * x)%Z) by (intros; nia). pose proof (SP (bx - ax)%Z). pose proof (SP (by_ - ay)%Z). destruct H as [H|H]; [pose proof (SQ (bx - ax)%Z)|pose proof (SQ (by_ - ay)%Z)]; lia. }
  unfold dist, norm. rewrite Q. destruct B as (B1 & B2). apply IZR_le in B1, B2. split.
  - rewrite <- sqrt_1. apply sqrt_le_1_alt. lra.
  - replace 15 with (sqrt 225) by (replace 225 with (15 * 15) by lra; apply sqrt_square; lra). apply sqrt_le_1_alt. lra.
Qed.
Lemma grid_norm a : small a = true -> norm (at_grid a) <= 15.
Proof.
  unfold small. rewrite !andb_true_iff, !Z.leb_le. intros Sa. destruct a as (ax, ay). cbn [fst snd] in *. unfold norm. replace 15 with (sqrt 225) by (replace 225 with (15 * 15) by lra; apply sqrt_square; lra). apply sqrt_le_1_alt.
  assert (Q : dot (at_grid (ax, ay)) (at_grid (ax, ay)) = IZR (ax * ax + ay * ay)) by (rewrite plus_IZR, !mult_IZR; unfold at_grid; cbn [fst snd]; vunf; ring).
  rewrite Q. apply IZR_le. nia.
Qed.
Lemma grid_area a b c : 2 * true_area (at_grid a) (at_grid b) (at_grid c) = IZR (Z.abs (orient a b c)).
Proof. unfold true_area. rewrite grid_cross, norm_smul, (unit_norm _ ez1_unit), abs_IZR. lra. Qed.
Lemma orient_ne a b q : orient a b q <> 0%Z -> a <> b /\ a <> q /\ b <> q.
Proof. intros H. repeat split; intros E; subst; apply H; unfold orient; ring. Qed.
Lemma grid_off a b q : small a = true -> small b = true -> small q = true -> orient a b q <> 0%Z -> off_edge (at_grid a) (at_grid b) (at_grid q).
Proof.
  intros Sa Sb Sq N. destruct (orient_ne _ _ _ N) as (N1 & N2 & _). pose proof (grid_dist a b Sa Sb N1) as D1. pose proof (grid_dist a q Sa Sq N2) as D2.
  assert (A : 1 <= IZR (Z.abs (orient a b q))) by (apply IZR_le; lia). unfold off_edge. rewrite grid_area. repeat split; try lra.
  assert (1 / 10000 * dist (at_grid a) (at_grid b) * dist (at_grid a) (at_grid q) <= 225 / 10000) by nra. lra.
Qed.
Lemma grid_far v q : small v = true -> small q = true -> v <> q -> far_from (at_grid v) (at_grid q).
Proof. intros Sv Sq N. unfold far_from. pose proof (grid_dist v q Sv Sq N). pose proof (grid_norm v Sv). lra. Qed.
Lemma orient_cyc a b c : orient b c a = orient a b c /\ orient c a b = orient a b c.
Proof. unfold orient. split; ring. Qed.
Lemma grid_inside q a b c r : zconvex a b c = Ok true -> zinside q a b c = Ok r -> ear_inside (at_grid q) (at_grid a) (at_grid b) (at_grid c) = Ok r.
Proof.
  unfold zconvex, zinside. intros Cv. assert (T : (0 < orient a b c)%Z) by (inversion Cv as [Q]; apply Z.ltb_lt; auto). clear Cv.
  destruct (small q && small a && small b && small c && negb (orient a b q =? 0)%Z && negb (orient b c q =? 0)%Z && negb (orient c a q =? 0)%Z) eqn:S; [|discriminate].
  rewrite !andb_true_iff, !negb_true_iff, !Z.eqb_neq in S. destruct S as ((((((Sq & Sa) & Sb) & Sc) & N1) & N2) & N3). intros H. inversion H; subst. clear H.
  assert (A : 1 / 10000000000000 <= 2 * true_area (at_grid a) (at_grid b) (at_grid c)). { rewrite grid_area. assert (1 <= IZR (Z.abs (orient a b c))) by (apply IZR_le; lia). lra. }
  assert (O : off_edges (at_grid a) (at_grid b) (at_grid c) (at_grid q)) by (split; [|split]; apply grid_off; auto).
  assert (Sum : (orient a b q + orient b c q + orient c a q = orient a b c)%Z) by (unfold orient; ring).
  unfold ear_inside. destruct ((0 <? orient a b q) && (0 <? orient b c q) && (0 <? orient c a q))%Z eqn:E.
  - apply inside_complete; auto. rewrite !andb_true_iff, !Z.ltb_lt in E. destruct E as ((E1 & E2) & E3). apply IZR_lt in E1, E2, E3, T. rewrite <- Sum in T. rewrite !plus_IZR in T.
    set (D := IZR (orient a b c)). assert (DD : D = IZR (orient a b q) + IZR (orient b c q) + IZR (orient c a q)) by (unfold D; rewrite <- Sum, !plus_IZR; auto).
    exists (IZR (orient b c q) / D), (IZR (orient c a q) / D), (IZR (orient a b q) / D). repeat split; try (apply Rdiv_lt_0_compat; lra).
    + rewrite DD. field. lra.
    + assert (X : smul D (at_grid q) = bary (at_grid a) (at_grid b) (at_grid c) (IZR (orient b c q)) (IZR (orient c a q)) (IZR (orient a b q))).
      { unfold D, bary, at_grid. unfold orient. rewrite !minus_IZR, !mult_IZR, !minus_IZR. vunf. f_equal; ring. }
      transitivity (smul (/ D) (smul D (at_grid q))); [unfold at_grid; vunf; f_equal; field; lra|]. rewrite X. unfold bary. generalize (at_grid a) (at_grid b) (at_grid c). intros x y z. vunf. f_equal; field; lra.
  - destruct (inside_total (at_grid a) (at_grid b) (at_grid c) (at_grid q)) as ([|] & R); [exact A| |exact R]. exfalso.
    destruct (orient_ne _ _ _ N1) as (_ & F1 & F2), (orient_ne _ _ _ N2) as (_ & _ & F3).
    apply inside_sound in R; auto; try (apply grid_far; auto).
    + destruct R as (x & y & z & X & Y & Z_ & S1 & Eq). destruct (inside_crosses _ _ _ _ x y z S1 Eq) as (C1 & C2 & C3).
      assert (G : forall u v w k, cross (vsub (at_grid v) (at_grid u)) (vsub (at_grid w) (at_grid u)) = smul k (cross (vsub (at_grid b) (at_grid a)) (vsub (at_grid c) (at_grid a))) -> 0 < k -> (0 < orient u v w)%Z).
      { intros u v w k Q K. rewrite !grid_cross in Q. apply (f_equal vz) in Q. unfold ez1 in Q. cbn in Q. apply lt_IZR. apply IZR_lt in T. nra. }
      apply G in C1, C2, C3; auto. apply Z.ltb_lt in C1, C2, C3. rewrite C1, C2, C3 in E. discriminate.
    + unfold in_plane_of. rewrite grid_cross. unfold at_grid, ez1. vunf. ring.
Qed.
Lemma grid_vn_zero : isclose (norm ez1) 0 RTOL ATOL8 = false.
Proof. rewrite (unit_norm _ ez1_unit). unfold isclose. apply Rleb_false. unfold RTOL, ATOL8. rewrite Rminus_0_r, Rabs_R0, Rabs_pos_eq; lra. Qed.
Lemma grid_triangulate pts r ts : triangulate zconvex zinside false pts = Ok (r, ts) -> triangulate_pts (map at_grid pts) ez1 = Ok (map at_grid r, ts).
Proof.
  unfold triangulate_pts. rewrite grid_vn_zero. apply (triangulate_lift at_grid (ear_convex ez1) ear_inside zconvex zinside pts).
  - intros a b c b0 _ _ _. apply grid_convex.
  - intros q a b c b0 _ _ _ _. apply grid_inside.
Qed.
Lemma grid_rejected pts : triangulate zconvex zinside false pts = Err TriangulationError -> triangulate_pts (map at_grid pts) ez1 = Err TriangulationError.
Proof.
  unfold triangulate_pts. rewrite grid_vn_zero. intros H. apply (triangulate_lift at_grid (ear_convex ez1) ear_inside zconvex zinside pts); auto.
  - intros a b c b0 _ _ _. apply grid_convex.
  - intros q a b c b0 _ _ _ _. apply grid_inside.
  - discriminate.
  - intros q a b c. unfold zinside. destruct (_ && _); discriminate.
Qed.
Lemma grid_free_ear pts ring p c n : free_ear zconvex zinside pts ring p c n -> free_ear (ear_convex ez1) ear_inside (map at_grid pts) ring p c n.
Proof.
  apply (free_ear_lift at_grid).
  - intros a b d b0 _ _ _. apply grid_convex.
  - intros q a b d b0 _ _ _ _. apply grid_inside.
Qed.

(** The rejected heptagon. *)
Definition heptagon : list (Z * Z) := [(4, 5); (6, 2); (6, 1); (1, 0); (9, 1); (2, 7); (2, 5)]%Z.
Lemma heptagon_rejected : triangulate_pts (map at_grid heptagon) ez1 = Err TriangulationError.
Proof. apply grid_rejected. vm_compute. reflexivity. Qed.
Definition zz_dec (a b : Z * Z) : {a = b} + {a <> b}.
Proof. decide equality; apply Z.eq_dec. Defined.
Lemma heptagon_simple : simple_grid heptagon.
Proof.
  split; [|split].
  - repeat (constructor; [simpl; intuition congruence|]). constructor.
  - assert (H : forallb (fun a => forallb (fun b => forallb (fun c => (if zz_dec a b then true else false) || (if zz_dec b c then true else false) || (if zz_dec a c then true else false) || negb (orient a b c =? 0)%Z) heptagon) heptagon) heptagon = true) by (vm_compute; reflexivity).
    intros a b c Ia Ib Ic N1 N2 N3. rewrite forallb_forall in H. specialize (H a Ia). rewrite forallb_forall in H. specialize (H b Ib). rewrite forallb_forall in H. specialize (H c Ic).
    destruct (zz_dec a b), (zz_dec b c), (zz_dec a c); try contradiction. simpl in H. apply negb_true_iff, Z.eqb_neq in H. auto.
  - assert (H : forallb (fun e => forallb (fun g => (if zz_dec (fst e) (fst g) then true else false) || (if zz_dec (fst e) (snd g) then true else false) || (if zz_dec (snd e) (fst g) then true else false)
      || (0 <? orient (fst e) (snd e) (fst g) * orient (fst e) (snd e) (snd g))%Z || (0 <? orient (fst g) (snd g) (fst e) * orient (fst g) (snd g) (snd e))%Z) (cyc_pairs heptagon)) (cyc_pairs heptagon) = true) by (vm_compute; reflexivity).
    intros a b c d I J N1 N2 N3. rewrite forallb_forall in H. specialize (H _ I). rewrite forallb_forall in H. specialize (H _ J). cbn [fst snd] in H.
    destruct (zz_dec a c), (zz_dec a d), (zz_dec b c); try contradiction. cbn [orb] in H. apply orb_true_iff in H. rewrite !Z.ltb_lt in H. auto.
Qed.
Lemma free_ear_check pts ring p c n pp pc pn : nth_error pts p = Some pp -> nth_error pts c = Some pc -> nth_error pts n = Some pn -> (0 <? orient pp pc pn)%Z = true ->
  forallb (fun q => (q =? p)%nat || (q =? c)%nat || (q =? n)%nat || match nth_error pts q with Some pq => match zinside pq pp pc pn with Ok false => true | _ => false end | None => true end) ring = true ->
  free_ear (ear_convex ez1) ear_inside (map at_grid pts) ring p c n.
Proof.
  intros Ep Ec En Cv F. apply grid_free_ear. exists pp, pc, pn. repeat split; auto; [unfold zconvex; rewrite Cv; auto|]. intros q pq I N1 N2 N3 Eq. rewrite forallb_forall in F. specialize (F q I).
  rewrite !orb_true_iff, !Nat.eqb_eq, Eq in F. destruct F as [[[?|?]|?]|F]; try contradiction. destruct (zinside pq pp pc pn) as [[|]|]; congruence.
Qed.
Ltac ear_step bf cc af := 
  match goal with |- clipped ?e ?ring ((?p, ?c, ?n) :: ?ts) => change (clipped e (bf ++ cc :: af) ((p, cc, n) :: ts)) end;
  apply clipped_ear; [eexists; reflexivity| |simpl; lia|eapply free_ear_check; try reflexivity; vm_compute; reflexivity|cbn [app]].
Lemma heptagon_clipped : clipped (free_ear (ear_convex ez1) ear_inside (map at_grid heptagon)) (seq 0 7)
  [(2, 3, 4); (5, 6, 0); (1, 2, 4); (4, 5, 0); (4, 0, 1)]%nat.
Proof.
  cbn [seq].
  ear_step [0; 1; 2]%nat 3%nat [4; 5; 6]%nat; [exists [4; 5; 6; 0; 1]%nat; reflexivity|].
  ear_step [0; 1; 2; 4; 5]%nat 6%nat (@nil nat); [exists [0; 1; 2; 4]%nat; reflexivity|].
  ear_step [0; 1]%nat 2%nat [4; 5]%nat; [exists [4; 5; 0]%nat; reflexivity|].
  ear_step [0; 1; 4]%nat 5%nat (@nil nat); [exists [0; 1]%nat; reflexivity|].
  ear_step (@nil nat) 0%nat [1; 4]%nat; [exists [1]%nat; reflexivity|].
  apply clipped_done. simpl. lia.
Qed.
Lemma heptagon_area : dot (vector_area2 (map at_grid heptagon)) ez1 = 19.
Proof.
  assert (L : (3 <= length (map at_grid heptagon))%nat) by (simpl; lia). rewrite <- (clipped_area _ _ _ L heptagon_clipped).
  unfold vtotal, tri_vec, corner, heptagon, at_grid, ez1. cbn [map nth fst snd fold_right]. vunf. ring.
Qed.

(** Convex polygons are cut into the fan around the last vertex. *)
Section Fan.
Context {P : Type} (convex : P -> P -> P -> result bool) (inside : P -> P -> P -> P -> result bool).
Lemma any_inside_all pts a b c pa pb pc : nth_error pts a = Some pa -> nth_error pts b = Some pb -> nth_error pts c = Some pc ->
  forall vs acc, (forall i, In i (map fst vs) -> (i < length pts)%nat) ->
  (forall q pq, In q (map fst vs) -> q <> a -> q <> b -> q <> c -> nth_error pts q = Some pq -> inside pq pa pb pc = Ok false) -> any_inside inside pts a b c vs acc = Ok acc.
Proof.
  intros Ea Eb Ec. induction vs as [|(i, x) vs IH]; intros acc V F; auto. cbn [any_inside]. destruct ((i =? a) || (i =? b) || (i =? c))%nat eqn:T.
  - apply IH; [intros; apply V; right; auto|]. intros; eapply F; eauto. right; auto.
  - rewrite !orb_false_iff, !Nat.eqb_neq in T. destruct T as ((T1 & T2) & T3). destruct (at_index_lt pts i (V i (or_introl eq_refl))) as (q & Eq). rewrite Eq.
    rewrite (proj2 (at_index_ok _ _ _) Ea), (proj2 (at_index_ok _ _ _) Eb), (proj2 (at_index_ok _ _ _) Ec). cbn [rbind]. rewrite (F i q); auto; [|left; auto|apply at_index_ok; auto]. cbn [rbind].
    apply IH; [intros; apply V; right; auto|]. intros; eapply F; eauto. right; auto.
Qed.
Lemma skipn_enum (pts : list P) i x : nth_error pts i = Some x -> skipn i (enumerate pts) = (i, x) :: skipn (S i) (enumerate pts).
Proof.
  unfold enumerate. change i with (0 + i)%nat at 3. generalize 0%nat as k. revert i. induction pts as [|y l IH]; intros [|i] k H; try discriminate; cbn [length seq combine skipn]; simpl in H.
  - inversion H; subst. rewrite Nat.add_0_r. auto.
  - rewrite (IH i (S k) H). replace (S k + i)%nat with (k + S i)%nat by lia. auto.
Qed.
Lemma fst_skipn (pts : list P) i : map fst (skipn i (enumerate pts)) = seq i (length pts - i).
Proof. rewrite <- skipn_map, enumerate_fst. generalize (length pts) as n. intros n. revert i. assert (G : forall n k i, skipn i (seq k n) = seq (k + i) (n - i)).
  { clear. induction n as [|n IH]; intros k [|i]; cbn [seq skipn]; auto; rewrite ?Nat.add_0_r; auto. rewrite IH. replace (S k + i)%nat with (k + S i)%nat by lia. auto. }
  intros i. apply G. Qed.
Context (pts : list P).
Context (HC : forall i a b c, (i + 2 < length pts)%nat -> nth_error pts (length pts - 1) = Some a -> nth_error pts i = Some b -> nth_error pts (i + 1) = Some c ->
  convex a b c = Ok true /\ forall j q, (i + 1 < j < length pts - 1)%nat -> nth_error pts j = Some q -> inside q a b c = Ok false).
Lemma fan_loop k : forall i fuel tris, (i + k + 2 = length pts)%nat -> (k < fuel)%nat ->
  ear_loop convex inside fuel pts (skipn i (enumerate pts)) tris 0 0 = Ok (Some (tris ++ map (fun j => (length pts - 1, j, j + 1)%nat) (seq i k))).
Proof.
  induction k as [|k IH]; intros i fuel tris E F; destruct fuel as [|fuel]; try lia; cbn [ear_loop].
  - rewrite (proj2 (Nat.leb_le _ _)) by (rewrite skipn_length, enumerate_length; lia). rewrite app_nil_r. auto.
  - assert (L : length (skipn i (enumerate pts)) = (length pts - i)%nat) by (rewrite skipn_length, enumerate_length; auto).
    rewrite (proj2 (Nat.leb_gt _ _)) by lia. replace (length pts <? 0)%nat with false by (symmetry; apply Nat.ltb_ge; lia).
    replace (length (skipn i (enumerate pts)) - 1 <? 0)%nat with false by (symmetry; apply Nat.ltb_ge; lia). cbn zeta. rewrite (proj2 (Nat.ltb_lt 0 (length (skipn i (enumerate pts)) - 1))) by lia. cbn [Nat.ltb Nat.leb].
    destruct (nth_error pts i) as [b|] eqn:Eb; [|apply nth_error_None in Eb; lia]. destruct (nth_error pts (i + 1)) as [c|] eqn:Ec; [|apply nth_error_None in Ec; lia].
    destruct (nth_error pts (length pts - 1)) as [a|] eqn:Ea; [|apply nth_error_None in Ea; lia].
    assert (NE : forall j x, nth_error pts j = Some x -> nth_error (enumerate pts) j = Some (j, x)). { intros j x H. pose proof (skipn_enum pts j x H) as S. assert (Q : forall A (l : list A) m y r, skipn m l = y :: r -> nth_error l m = Some y) by (clear; induction l; intros [|m] y r H; simpl in *; try discriminate; [inversion H; auto|eauto]). eapply Q; eauto. }
    assert (NS : forall A (l : list A) m j, nth_error (skipn m l) j = nth_error l (m + j)) by (clear; induction l; intros [|m] j; simpl; auto; destruct j; auto).
    rewrite (proj2 (at_index_ok (skipn i (enumerate pts)) (length (skipn i (enumerate pts)) - 1) ((length pts - 1)%nat, a))) by (rewrite NS, L; replace (i + (length pts - i - 1))%nat with (length pts - 1)%nat by lia; auto).
    rewrite (proj2 (at_index_ok (skipn i (enumerate pts)) 0 (i, b))) by (rewrite NS, Nat.add_0_r; auto). rewrite (proj2 (at_index_ok (skipn i (enumerate pts)) (0 + 1) ((i + 1)%nat, c))) by (rewrite NS; cbn [Nat.add]; auto). cbn [rbind fst snd].
    destruct (HC i a b c) as (Cv & In_); auto; [lia|]. rewrite Cv. cbn [rbind].
    rewrite (any_inside_all pts _ _ _ a b c Ea Eb Ec).
    + cbn [rbind]. rewrite (skipn_enum pts i b Eb). cbn [pop_at rbind]. rewrite IH by lia. rewrite <- app_assoc. cbn [seq map app]. rewrite Nat.add_1_r. auto.
    + intros j J. rewrite fst_skipn in J. apply in_seq in J. lia.
    + intros j q J N1 N2 N3 Eq. rewrite fst_skipn in J. apply in_seq in J. apply (In_ j q); auto. lia.
Qed.
Lemma triangulate_fan : (3 <= length pts)%nat -> triangulate convex inside false pts = Ok (pts, fan (length pts)).
Proof.
  intros L. unfold triangulate, triangulate_from. change (enumerate pts) with (skipn 0 (enumerate pts)). rewrite (fan_loop (length pts - 2) 0) by lia. reflexivity.
Qed.
End Fan.

(** Real points: a polygon in a plane with unit normal, convex with margins. *)
Lemma convex_fan pts vn : (3 <= length pts)%nat -> unit vn ->
  (forall i a b c, (i + 2 < length pts)%nat -> nth_error pts (length pts - 1) = Some a -> nth_error pts i = Some b -> nth_error pts (i + 1) = Some c ->
    (exists k, cross (vsub b a) (vsub c a) = smul k vn /\ 1 / 10000000000000 <= k) /\
    forall j q, (i + 1 < j < length pts - 1)%nat -> nth_error pts j = Some q ->
      in_plane_of a b c q /\ off_edges a b c q /\ far_from a q /\ far_from b q /\ far_from c q /\ ~ strictly_inside a b c q) ->
  triangulate_pts pts vn = Ok (pts, fan (length pts)).
Proof.
  intros L U H. unfold triangulate_pts. replace (isclose (norm vn) 0 RTOL ATOL8) with false.
  - apply triangulate_fan; auto. intros i a b c Li Ea Eb Ec. destruct (H i a b c Li Ea Eb Ec) as ((k & Ek & Kp) & Hq).
    assert (Cv : ear_convex vn a b c = Ok true). { unfold ear_convex. rewrite (corner_convex_plane _ _ _ _ k U); [f_equal; apply Rleb_true; exact Kp|]. rewrite <- Ek. vring. }
    split; auto. intros j q J Eq. destruct (Hq j q J Eq) as (A1 & A2 & A3 & A4 & A5 & A6). destruct (convex_inside_total a b c vn q Cv) as ([|] & R); auto. exfalso. apply A6. apply inside_sound; auto.
  - symmetry. rewrite (unit_norm _ U). unfold isclose. apply Rleb_false. unfold RTOL, ATOL8. rewrite Rminus_0_r, Rabs_R0, Rabs_pos_eq; lra.
Qed.
