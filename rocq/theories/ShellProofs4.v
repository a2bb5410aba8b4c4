(** Counting by rays and along paths agree. *)
From Coq Require Import Reals List ZArith Bool Arith Lia Lra Psatz Permutation.
From Verif Require Import Prelude VecModel VecProofs GeomModel GeomSpec GeomProofs1 PolySpec InsideSpec RoomSpec WindSpec ShellSpec ShellProofs1 ShellProofs2 ShellProofs3.
Import ListNotations.
Local Open Scope R_scope.

Lemma gen_pt_cons t T q : gen_pt (t :: T) q -> gen_pt T q.
Proof. intros G a b c I. apply G. right. auto. Qed.
Lemma gen_dir_cons t T q r : gen_dir (t :: T) q r -> gen_dir T q r.
Proof. intros G a b I. apply G. destruct t as ((x, y), z). rewrite mesh_edges_cons. apply in_or_app. auto. Qed.
Lemma gen_dir_tri T q r a b c : In (a, b, c) T -> gen_dir T q r -> trip r (vsub a q) (vsub b q) <> 0 /\ trip r (vsub b q) (vsub c q) <> 0 /\ trip r (vsub c q) (vsub a q) <> 0.
Proof. intros I G. destruct (mesh_edges_in a b c T I) as (A & B & C). repeat split; apply G; auto. Qed.

(** Near q and r, the ray meets the same triangles. *)
Lemma sees_near T q r bs : r <> vzero -> Forall2 (fun t (b : bool) => if b then pierces q r t else misses q r t) T bs ->
  exists P, pos P q /\ forall q', pos P q' -> exists Q, pos Q r /\ forall r', pos Q r' -> gen_pt T q' -> gen_dir T q' r' -> total T q' r' = net T r bs.
Proof.
  intros Nr F. induction F as [|((a, b), c) bo T bs H F (P & P1 & P2)].
  - exists []. split; [apply pos_nil|]. intros q' _. exists []. split; [apply pos_nil|]. reflexivity.
  - assert (One : exists P, pos P q /\ forall q', pos P q' -> exists Q, pos Q r /\ forall r', pos Q r' -> trip (vsub a q') (vsub b q') (vsub c q') <> 0 -> trip r' (vsub a q') (vsub b q') <> 0 -> trip r' (vsub b q') (vsub c q') <> 0 -> trip r' (vsub c q') (vsub a q') <> 0 ->
      chi r' (vsub a q') (vsub b q') (vsub c q') = if bo then sense r (a, b, c) else 0%Z).
    { clear P P1 P2 F. destruct bo.
      - destruct H as (N & s & S & I). fold (tn a b c) in N. destruct (pierce_signs q r a b c s N S I) as (S0 & S1 & S2 & S3 & _). set (k := IZR (sense r (a, b, c))) in *.
        exists [f_det k a b c; f_edge k r a b; f_edge k r b c; f_edge k r c a]. split.
        + intros f [<-|[<-|[<-|[<-|[]]]]]; rewrite ?f_det_aff, ?f_edge_aff; auto.
        + intros q' H. exists [f_dir k (vsub a q') (vsub b q'); f_dir k (vsub b q') (vsub c q'); f_dir k (vsub c q') (vsub a q')].
          assert (D0 := H _ (or_introl eq_refl)). assert (D1 := H _ (or_intror (or_introl eq_refl))). assert (D2 := H _ (or_intror (or_intror (or_introl eq_refl)))). assert (D3 := H _ (or_intror (or_intror (or_intror (or_introl eq_refl))))).
          rewrite f_det_aff in D0. rewrite f_edge_aff in D1, D2, D3. split; [intros f [<-|[<-|[<-|[]]]]; rewrite f_dir_aff; auto|].
          intros r' H' _ _ _ _. assert (G1 := H' _ (or_introl eq_refl)). assert (G2 := H' _ (or_intror (or_introl eq_refl))). assert (G3 := H' _ (or_intror (or_intror (or_introl eq_refl)))). rewrite f_dir_aff in G1, G2, G3.
          unfold chi. apply sgb_is; auto. apply sense_pm.
      - destruct (miss_side q r a b c Nr H) as (m & M1 & M2 & M3 & M4). exists [f_side m a; f_side m b; f_side m c]. split; [intros f [<-|[<-|[<-|[]]]]; rewrite f_side_aff; auto|].
        intros q' Hq. exists [f_back m]. split; [intros f [<-|[]]; rewrite f_back_aff; lra|]. intros r' Hr G0 G1 G2 G3. assert (D1 := Hq _ (or_introl eq_refl)). assert (D2 := Hq _ (or_intror (or_introl eq_refl))). assert (D3 := Hq _ (or_intror (or_intror (or_introl eq_refl)))).
        assert (D4 := Hr _ (or_introl eq_refl)). rewrite f_side_aff in D1, D2, D3. rewrite f_back_aff in D4. apply (chi_none m); auto. lra. }
    destruct One as (P' & P1' & P2'). exists (P ++ P'). split; [apply pos_app; auto|]. intros q' H'. apply pos_app in H'. destruct H' as (H1 & H2). destruct (P2 q' H1) as (Q & Q1 & Q2). destruct (P2' q' H2) as (Q' & Q1' & Q2').
    exists (Q ++ Q'). split; [apply pos_app; auto|]. intros r' Hr G D. apply pos_app in Hr. destruct Hr as (Hr & Hr').
    unfold total, net. cbn [map combine fst snd]. rewrite !Zsum_cons. destruct (gen_dir_tri ((a, b, c) :: T) q' r' a b c (or_introl eq_refl) D) as (E1 & E2 & E3). rewrite (Q2' r' Hr') by (auto; apply G; left; auto).
    f_equal. apply Q2; auto; [apply (gen_pt_cons (a, b, c)); auto|apply (gen_dir_cons (a, b, c)); auto].
Qed.

(** Triangles beside a segment. *)
Lemma beside_all T q q' : (forall t, In t T -> avoids q q' t) ->
  exists A B, pos A q /\ pos B q' /\ forall x w, pos A x -> pos B (vadd x w) -> gen_pt T x -> gen_pt T (vadd x w) -> gen_dir T x w -> total T x w = total T (vadd x w) w.
Proof.
  intros Av. induction T as [|((a, b), c) T IH]; [exists [], []; split; [apply pos_nil|split; [apply pos_nil|reflexivity]]|]. destruct IH as (A & B & A1 & B1 & C1); [intros t I; apply Av; right; auto|].
  destruct (avoid_side q q' a b c (Av _ (or_introl eq_refl))) as (m & M1 & M2 & M3 & N1 & N2 & N3). exists ([f_side m a; f_side m b; f_side m c] ++ A), ([f_side m a; f_side m b; f_side m c] ++ B).
  split; [apply pos_app; split; auto; intros f [<-|[<-|[<-|[]]]]; rewrite f_side_aff; auto|]. split; [apply pos_app; split; auto; intros f [<-|[<-|[<-|[]]]]; rewrite f_side_aff; auto|].
  intros x w Ha Hb G G' D. apply pos_app in Ha. apply pos_app in Hb. destruct Ha as (Ha & Ha'), Hb as (Hb & Hb'). unfold total in *. cbn [map]. rewrite !Zsum_cons. f_equal.
  - destruct (gen_dir_tri ((a, b, c) :: T) x w a b c (or_introl eq_refl) D) as (E1 & E2 & E3).
    apply (chi_beside m); auto; try (apply G; left; reflexivity); try (apply G'; left; reflexivity); rewrite <- f_side_aff; [apply Ha|apply Ha|apply Ha|apply Hb|apply Hb|apply Hb]; simpl; auto.
  - apply C1; auto; [apply (gen_pt_cons (a, b, c)); auto|apply (gen_pt_cons (a, b, c)); auto|apply (gen_dir_cons (a, b, c)); auto].
Qed.
Lemma total_app T1 T2 q r : total (T1 ++ T2) q r = (total T1 q r + total T2 q r)%Z.
Proof. unfold total. rewrite map_app. apply Zsum_app. Qed.
Lemma gen_pt_app T1 T2 q : gen_pt (T1 ++ T2) q <-> gen_pt T1 q /\ gen_pt T2 q.
Proof. split; [intros G; split; intros a b c I; apply G; apply in_or_app; auto|]. intros (G & H) a b c I. apply in_app_or in I. destruct I; auto. Qed.
Lemma mesh_edges_app T1 T2 : mesh_edges (T1 ++ T2) = mesh_edges T1 ++ mesh_edges T2.
Proof. unfold mesh_edges. rewrite map_app. apply concat_app. Qed.
Lemma gen_dir_app T1 T2 q r : gen_dir (T1 ++ T2) q r <-> gen_dir T1 q r /\ gen_dir T2 q r.
Proof. unfold gen_dir. rewrite mesh_edges_app. split; [intros G; split; intros a b I; apply G; apply in_or_app; auto|]. intros (G & H) a b I. apply in_app_or in I. destruct I; auto. Qed.

Section Closed.
Context (T : list (vec * vec * vec)).
Hypothesis Pr : proper_mesh T.
Hypothesis Cl : closed_mesh T.
(** The signed number of triangles seen from generic points near q. *)
Definition worth (q : vec) (z : Z) : Prop := exists P, pos P q /\ forall q' r', pos P q' -> gen_pt T q' -> gen_dir T q' r' -> total T q' r' = z.
Lemma worth_unique q z z' : worth q z -> worth q z' -> z = z'.
Proof.
  intros (P & P1 & P2) (P' & P1' & P2'). destruct (near_pt T (P ++ P') [] q Pr) as (q' & A & _ & G); [apply pos_app; auto|intros f []|]. apply pos_app in A. destruct A as (A & A').
  destruct (near_dir T [] q' vzero G (pos_nil _)) as (r & _ & D). rewrite <- (P2 q' r A G D). auto.
Qed.
Lemma sees_worth q r bs : sees T q r bs -> worth q (net T r bs).
Proof.
  intros (Nr & F). destruct (sees_near T q r bs Nr F) as (P & P1 & P2). exists P. split; auto. intros q' r' H G D. destruct (P2 q' H) as (Q & Q1 & Q2). destruct (near_dir T Q q' r G Q1) as (r2 & R1 & R2).
  rewrite (total_dir T q' r' r2) by auto. auto.
Qed.
(** Going from q to q' changes the number by what is true near both. *)
Lemma transfer q q' z k B (F : vec -> list (vec * R)) : worth q z -> pos B q' -> (forall y, pos B y -> pos (F y) q) ->
  (forall x w, pos B (vadd x w) -> pos (F (vadd x w)) x -> gen_pt T x -> gen_pt T (vadd x w) -> gen_dir T x w -> total T (vadd x w) w = (total T x w - k)%Z) -> worth q' (z - k).
Proof.
  intros (P & P1 & P2) Hb Hf St. exists B. split; auto. intros y r Hy Gy Dy.
  destruct (near_pt T (P ++ F y) (map (fun e => (cross (vsub (fst e) y) (vsub (snd e) y), - dot (cross (vsub (fst e) y) (vsub (snd e) y)) y)) (mesh_edges T)) q Pr) as (x & Hx & Nx & Gx).
  - apply pos_app. auto.
  - intros f I. apply in_map_iff in I. destruct I as ((a, b) & <- & I). cbn [fst snd]. destruct (mesh_edges_inv a b T I) as (c & [J|[J|J]]); pose proof (trip_cross _ _ _ (Gy _ _ _ J)) as (X1 & X2 & X3); auto.
  - apply pos_app in Hx. destruct Hx as (Hx & Hx'). set (w := vsub y x). assert (Ey : vadd x w = y) by (unfold w; destruct x, y; vunf; f_equal; ring).
    assert (E : forall a b v, v = x \/ v = y -> trip w (vsub a v) (vsub b v) = - aff (cross (vsub a y) (vsub b y), - dot (cross (vsub a y) (vsub b y)) y) x).
    { intros a b v [-> | ->]; unfold w, trip, aff; cbn [fst snd]; vunf; ring. }
    assert (Nw : forall a b, In (a, b) (mesh_edges T) -> aff (cross (vsub a y) (vsub b y), - dot (cross (vsub a y) (vsub b y)) y) x <> 0). { intros a b I. apply Nx. apply in_map_iff. exists (a, b). auto. }
    assert (D1 : gen_dir T x w) by (intros a b I; rewrite (E a b x) by auto; specialize (Nw a b I); lra).
    assert (D2 : gen_dir T y w) by (intros a b I; rewrite (E a b y) by auto; specialize (Nw a b I); lra).
    rewrite (total_dir T y r w) by auto. rewrite <- (P2 x w Hx Gx D1). rewrite <- Ey in Hy, Gy, Hx' |- *. apply St; auto.
Qed.
Lemma move_worth q q' z : worth q z -> (forall t, In t T -> avoids q q' t) -> worth q' z.
Proof.
  intros W Av. destruct (beside_all T q q' Av) as (A & B & A1 & B1 & C1). replace z with (z - 0)%Z by lia. apply (transfer q q' z 0 B (fun _ => A)); auto. intros x w Hb Ha G G' D. rewrite <- C1; auto. lia.
Qed.
Lemma cross_worth q q' z T1 t T2 : worth q z -> T = T1 ++ t :: T2 -> crosses q q' t -> (forall t', In t' (T1 ++ T2) -> avoids q q' t') -> worth q' (z - sense (vsub q' q) t).
Proof.
  intros W ET Cr Av. destruct (beside_all (T1 ++ T2) q q' Av) as (A & B & A1 & B1 & C1). destruct t as ((a, b), c). destruct Cr as (N & s & S & I). fold (tn a b c) in N.
  destruct (pierce_signs q (vsub q' q) a b c s N (proj1 S) I) as (S0 & S1 & S2 & S3 & S4). set (k := IZR (sense (vsub q' q) (a, b, c))) in *.
  assert (S5 : k * trip (vsub a q') (vsub b q') (vsub c q') < 0).
  { assert (E : trip (vsub a q') (vsub b q') (vsub c q') = trip (vsub a q) (vsub b q) (vsub c q) - dot (tn a b c) (vsub q' q)) by (unfold trip, tn; vunf; ring).
    rewrite E, S4. pose proof (sense_pos (vsub q' q) a b c N) as K. fold k in K. replace (k * (s * dot (tn a b c) (vsub q' q) - dot (tn a b c) (vsub q' q))) with ((s - 1) * (k * dot (tn a b c) (vsub q' q))) by ring. nra. }
  set (g := fun (y u v : vec) => (smul (- k) (cross (vsub u y) (vsub v y)), k * dot (cross (vsub u y) (vsub v y)) y)).
  assert (Eg : forall y u v x, aff (g y u v) x = k * trip (vsub y x) (vsub u x) (vsub v x)) by (intros y u v x; unfold aff, g, trip; cbn [fst snd]; vunf; ring).
  set (h := fun (u v : vec) => (smul k (cross (vsub u q) (vsub v q)), - k * dot (cross (vsub u q) (vsub v q)) q)).
  assert (Eh : forall u v y, aff (h u v) y = k * trip (vsub y q) (vsub u q) (vsub v q)) by (intros u v y; unfold aff, h, trip; cbn [fst snd]; vunf; ring).
  apply (transfer q q' z _ (f_det (- k) a b c :: h a b :: h b c :: h c a :: B) (fun y => f_det k a b c :: g y a b :: g y b c :: g y c a :: A)); auto.
  - apply pos_cons. split; [rewrite f_det_aff; lra|]. repeat (apply pos_cons; split; [rewrite Eh; auto|]). exact B1.
  - intros y Hy. apply pos_cons in Hy. destruct Hy as (_ & Hy). apply pos_cons in Hy. destruct Hy as (H1 & Hy). apply pos_cons in Hy. destruct Hy as (H2 & Hy). apply pos_cons in Hy. destruct Hy as (H3 & Hy). rewrite Eh in H1, H2, H3.
    apply pos_cons. split; [rewrite f_det_aff; auto|]. repeat (apply pos_cons; split; [rewrite Eg; auto|]). exact A1.
  - intros x w Hy Hx G G' D. apply pos_cons in Hy. destruct Hy as (H0 & Hy). apply pos_cons in Hy. destruct Hy as (_ & Hy). apply pos_cons in Hy. destruct Hy as (_ & Hy). apply pos_cons in Hy. destruct Hy as (_ & Hy).
    apply pos_cons in Hx. destruct Hx as (K0 & Hx). apply pos_cons in Hx. destruct Hx as (K1 & Hx). apply pos_cons in Hx. destruct Hx as (K2 & Hx). apply pos_cons in Hx. destruct Hx as (K3 & Hx).
    rewrite f_det_aff in H0, K0. rewrite Eg in K1, K2, K3. replace (vsub (vadd x w) x) with w in K1, K2, K3 by (destruct w; vunf; f_equal; ring).
    assert (C2 : total (T1 ++ T2) x w = total (T1 ++ T2) (vadd x w) w).
    { rewrite ET in G, G', D. change ((a, b, c) :: T2) with ([(a, b, c)] ++ T2) in *. rewrite !gen_pt_app in G, G'. rewrite !gen_dir_app in D. apply C1; auto; rewrite ?gen_pt_app, ?gen_dir_app; tauto. }
    rewrite total_app in C2. rewrite total_app in C2. rewrite ET. rewrite !total_app. change (total ((a, b, c) :: T2)) with (total ([(a, b, c)] ++ T2)). rewrite !total_app.
    assert (X1 : total [(a, b, c)] x w = sense (vsub q' q) (a, b, c)).
    { unfold total. cbn [map]. rewrite Zsum_cons. unfold chi. rewrite (sgb_is (sense (vsub q' q) (a, b, c))); auto; [cbn; lia|apply sense_pm]. }
    assert (X2 : total [(a, b, c)] (vadd x w) w = 0%Z).
    { assert (E1 : forall u v, trip w (vsub u (vadd x w)) (vsub v (vadd x w)) = trip w (vsub u x) (vsub v x)) by (intros u v; unfold trip; vunf; ring).
      unfold total. cbn [map]. rewrite Zsum_cons. unfold chi, sg4. rewrite !E1. destruct (sense_pm (vsub q' q) (a, b, c)) as [E|E]; unfold k in *; rewrite E in *.
      - rewrite (proj2 (sg_true (trip w (vsub a x) (vsub b x)))), (proj2 (sg_true (trip w (vsub b x) (vsub c x)))), (proj2 (sg_true (trip w (vsub c x) (vsub a x)))), (proj2 (sg_false (trip _ _ _))) by lra. reflexivity.
      - rewrite (proj2 (sg_false (trip w (vsub a x) (vsub b x)))), (proj2 (sg_false (trip w (vsub b x) (vsub c x)))), (proj2 (sg_false (trip w (vsub c x) (vsub a x)))), (proj2 (sg_true (trip _ _ _))) by lra. reflexivity. }
    rewrite X1, X2. lia.
Qed.
Lemma way_worth p q n z z0 : way T p q n z -> worth p z0 -> worth q (z0 + z).
Proof.
  intros Wy W0. induction Wy as [|q q' n z _ IH Av|q q' n z T1 t T2 _ IH E Cr Av].
  - replace (z0 + 0)%Z with z0 by lia. auto.
  - apply (move_worth q); auto.
  - replace (z0 + (z - sense (vsub q' q) t))%Z with (z0 + z - sense (vsub q' q) t)%Z by lia. apply (cross_worth q q' (z0 + z) T1 t T2); auto.
Qed.
End Closed.

(** Parity. *)
Lemma way_parity T p q n z : way T p q n z -> Z.odd z = Nat.odd n.
Proof.
  intros W. induction W as [|q q' n z _ IH Av|q q' n z T1 t T2 _ IH E Cr Av]; auto. rewrite Nat.odd_succ, <- Nat.negb_odd, <- IH. rewrite Z.odd_sub. destruct (sense_pm (vsub q' q) t) as [-> | ->]; cbn; destruct (Z.odd z); auto.
Qed.
Lemma net_parity T r bs : length T = length bs -> Z.odd (net T r bs) = Nat.odd (hits bs).
Proof.
  revert bs. induction T as [|t T IH]; intros [|b bs] L; try discriminate; auto. unfold net, hits in *. cbn [combine map fst snd filter]. rewrite Zsum_cons, Z.odd_add, IH by (cbn [length] in L; lia). destruct b; cbn [length].
  - rewrite Nat.odd_succ, <- Nat.negb_odd. destruct (sense_pm r t) as [-> | ->]; cbn [Z.odd]; destruct (Nat.odd _); auto.
  - cbn. destruct (Nat.odd _); auto.
Qed.
Lemma sees_length T q r bs : sees T q r bs -> length T = length bs.
Proof. intros (_ & F). induction F; cbn [length]; auto. Qed.
(** Outside. *)
Lemma triangle_side m k a b c q : in_triangle a b c q -> dot m a < k -> dot m b < k -> dot m c < k -> dot m q < k.
Proof.
  intros (x & y & z & X & Y & Z & S & ->) A B C. replace (dot m (bary a b c x y z)) with (x * dot m a + y * dot m b + z * dot m c) by (unfold bary; vunf; ring). set (M := Rmax (dot m a) (Rmax (dot m b) (dot m c))).
  assert (L : M < k) by (unfold M; repeat apply Rmax_lub_lt; auto). assert (LA : dot m a <= M) by apply Rmax_l. assert (LB : dot m b <= M) by (eapply Rle_trans; [apply Rmax_l|apply Rmax_r]). assert (LC : dot m c <= M) by (eapply Rle_trans; [apply Rmax_r|apply Rmax_r]).
  pose proof (Rmult_le_compat_l x _ _ X LA). pose proof (Rmult_le_compat_l y _ _ Y LB). pose proof (Rmult_le_compat_l z _ _ Z LC). assert (x * M + y * M + z * M = M) by (replace (x * M + y * M + z * M) with ((x + y + z) * M) by ring; rewrite S; ring). lra.
Qed.
Lemma outside_sees T p : outside T p -> exists r bs, sees T p r bs /\ net T r bs = 0%Z /\ hits bs = 0%nat.
Proof.
  intros (m & H). destruct T as [|t T]; [exists (V 1 0 0), []; split; [split; [intros E; injection E; lra|constructor]|split; reflexivity]|].
  exists m, (map (fun _ => false) (t :: T)). split; [|split].
  - split.
    + intros ->. destruct t as ((a, b), c). destruct (H a b c (or_introl eq_refl)) as (X & _). revert X. vunf. lra.
    + remember (t :: T) as T0. clear HeqT0. induction T0 as [|((a, b), c) T0 IH]; cbn [map]; constructor.
      * destruct (H a b c (or_introl eq_refl)) as (A & B & C). intros s Sp In'. pose proof (triangle_side m _ a b c _ In' A B C) as L. replace (dot m (vadd p (smul s m))) with (dot m p + s * dot m m) in L by (vunf; ring). pose proof (dot_pos m). nra.
      * apply IH. intros x y z I. apply H. right. auto.
  - unfold net. clear H. induction (t :: T) as [|u l IH]; [reflexivity|]. cbn [map combine fst snd]. rewrite Zsum_cons, IH. lia.
  - clear H. induction (t :: T) as [|u l IH]; auto.
Qed.

(** From every point off the triangles some ray can be used. *)
Lemma nz_list (l : list vec) : exists N, (forall f : vec * R, In f N -> fst f <> vzero) /\ forall r, nonz N r -> forall v, In v l -> v <> vzero -> dot v r <> 0.
Proof.
  induction l as [|v l (N & A & B)]; [exists []; split; [intros f []|intros r _ v []]|]. destruct (Req_EM_T (dot v v) 0) as [E|E].
  - exists N. split; auto. intros r H u [<-|I] Nz; [|apply B; auto]. exfalso. apply Nz. apply dot_zero. auto.
  - exists ((v, 0) :: N). split; [intros f [<-|I]; auto; cbn [fst]; intros ->; apply E; vunf; ring|]. intros r H u I Nz. apply nonz_cons in H. destruct H as (H & H'). destruct I as [<-|I]; [|apply B; auto]. unfold aff in H. cbn [fst snd] in H. lra.
Qed.
Lemma on_ray_weights q r a b c s x y z : x + y + z = 1 -> vadd q (smul s r) = bary a b c x y z ->
  let d := trip (vsub a q) (vsub b q) (vsub c q) in s * trip r (vsub a q) (vsub b q) = z * d /\ s * trip r (vsub b q) (vsub c q) = x * d /\ s * trip r (vsub c q) (vsub a q) = y * d /\ s * dot (tn a b c) r = d.
Proof.
  intros Su E d.
  assert (Er : smul s r = vadd (vadd (smul x (vsub a q)) (smul y (vsub b q))) (smul z (vsub c q))).
  { assert (Ez : z = 1 - x - y) by lra. subst z. revert E. unfold bary. dvec a; dvec b; dvec c; dvec q; dvec r. vunf. intros E. injection E as E1 E2 E3. f_equal; lra. }
  assert (A1 : s * trip r (vsub a q) (vsub b q) = z * d). { replace (s * trip r (vsub a q) (vsub b q)) with (trip (smul s r) (vsub a q) (vsub b q)) by (unfold trip; vunf; ring). rewrite Er. unfold d, trip. vunf. ring. }
  assert (A2 : s * trip r (vsub b q) (vsub c q) = x * d). { replace (s * trip r (vsub b q) (vsub c q)) with (trip (smul s r) (vsub b q) (vsub c q)) by (unfold trip; vunf; ring). rewrite Er. unfold d, trip. vunf. ring. }
  assert (A3 : s * trip r (vsub c q) (vsub a q) = y * d). { replace (s * trip r (vsub c q) (vsub a q)) with (trip (smul s r) (vsub c q) (vsub a q)) by (unfold trip; vunf; ring). rewrite Er. unfold d, trip. vunf. ring. }
  split; auto. split; auto. split; auto. replace (dot (tn a b c) r) with (trip r (vsub a q) (vsub b q) + trip r (vsub b q) (vsub c q) + trip r (vsub c q) (vsub a q)) by (unfold trip, tn; vunf; ring).
  replace d with ((x + y + z) * d) by (rewrite Su; ring). lra.
Qed.
Lemma ray_point q r a b c : let d := trip (vsub a q) (vsub b q) (vsub c q) in let k := dot (tn a b c) r in k <> 0 ->
  vadd q (smul (d / k) r) = bary a b c (trip r (vsub b q) (vsub c q) / k) (trip r (vsub c q) (vsub a q) / k) (trip r (vsub a q) (vsub b q) / k).
Proof.
  intros d k K. assert (Ek : k = trip r (vsub a q) (vsub b q) + trip r (vsub b q) (vsub c q) + trip r (vsub c q) (vsub a q)) by (unfold k, trip, tn; vunf; ring).
  assert (F : forall m, d * dot m r = trip r (vsub b q) (vsub c q) * dot m (vsub a q) + trip r (vsub c q) (vsub a q) * dot m (vsub b q) + trip r (vsub a q) (vsub b q) * dot m (vsub c q)) by (intros m; apply trip_frame).
  set (e1 := trip r (vsub a q) (vsub b q)) in *. set (e2 := trip r (vsub b q) (vsub c q)) in *. set (e3 := trip r (vsub c q) (vsub a q)) in *. clearbody e1 e2 e3 d k.
  pose proof (F (V 1 0 0)) as F1. pose proof (F (V 0 1 0)) as F2. pose proof (F (V 0 0 1)) as F3. clear F. dvec a; dvec b; dvec c; dvec q; dvec r. unfold bary. vunf. f_equal; apply (Rmult_eq_reg_r k); auto; field_simplify; auto; rewrite Ek in *; lra.
Qed.
Lemma any_ray T q : proper_mesh T -> (forall a b c, In (a, b, c) T -> ~ in_triangle a b c q) -> exists r bs, sees T q r bs.
Proof.
  intros Pr Off. destruct (nz_list (flat_map (fun t => let '(a, b, c) := t in [tn a b c; cross (vsub a q) (vsub b q); cross (vsub b q) (vsub c q); cross (vsub c q) (vsub a q)]) T)) as (N & N1 & N2).
  destruct (generic_point [] ((V 1 0 0, 0) :: N) vzero (pos_nil _)) as (r & _ & Hr); [intros f [<-|I]; auto; cbn [fst]; intros E; injection E; lra|]. apply nonz_cons in Hr. destruct Hr as (Hx & Hr).
  assert (Nr : r <> vzero) by (intros ->; apply Hx; unfold aff; cbn [fst snd]; vunf; ring). specialize (N2 r Hr). exists r.
  assert (F : forall T', (forall t, In t T' -> In t T) -> exists bs, Forall2 (fun t (b : bool) => if b then pierces q r t else misses q r t) T' bs).
  { induction T' as [|((a, b), c) T' IH]; intros Sub; [exists []; constructor|]. destruct IH as (bs & F); [intros; apply Sub; right; auto|]. assert (I := Sub _ (or_introl eq_refl)).
    assert (Nv : forall v, In v [tn a b c; cross (vsub a q) (vsub b q); cross (vsub b q) (vsub c q); cross (vsub c q) (vsub a q)] -> v <> vzero -> dot v r <> 0) by (intros v J; apply N2; apply in_flat_map; exists (a, b, c); auto).
    assert (K : dot (tn a b c) r <> 0) by (apply Nv; [simpl; auto|apply (Pr a b c I)]). set (d := trip (vsub a q) (vsub b q) (vsub c q)).
    assert (One : exists bo : bool, if bo then pierces q r (a, b, c) else misses q r (a, b, c)).
    { destruct (Req_EM_T d 0) as [Ed|Ed].
      - exists false. intros s Sp In'. apply (Off a b c I). destruct In' as (x & y & z & X & Y & Z & Su & E). destruct (on_ray_weights q r a b c s x y z Su E) as (_ & _ & _ & L). fold d in L. rewrite Ed in L. assert (s = 0) by (apply Rmult_integral in L; tauto). subst s.
        exists x, y, z. repeat (split; auto). rewrite <- E. destruct q. vunf. f_equal; ring.
      - destruct (trip_cross _ _ _ Ed) as (C1 & C2 & C3). assert (E1 : trip r (vsub a q) (vsub b q) <> 0) by (unfold trip; rewrite dot_comm; apply Nv; simpl; auto). assert (E2 : trip r (vsub b q) (vsub c q) <> 0) by (unfold trip; rewrite dot_comm; apply Nv; simpl; auto). assert (E3 : trip r (vsub c q) (vsub a q) <> 0) by (unfold trip; rewrite dot_comm; apply Nv; simpl; auto 6).
        assert (Ek : dot (tn a b c) r = trip r (vsub a q) (vsub b q) + trip r (vsub b q) (vsub c q) + trip r (vsub c q) (vsub a q)) by (unfold trip, tn; vunf; ring).
        destruct (sgb_inv _ _ _ _ E1 E2 E3 Ed) as [Z0|(sg_ & Spm & _ & P1 & P2 & P3 & P4)].
        + exists false. intros s Sp In'. destruct In' as (x & y & z & X & Y & Z & Su & E). destruct (on_ray_weights q r a b c s x y z Su E) as (L1 & L2 & L3 & L4). fold d in L1, L2, L3, L4.
          assert (Sp' : 0 < s). { destruct Sp as [Sp|<-]; auto. exfalso. apply Ed. lra. }
          assert (G : forall e w, e <> 0 -> 0 <= w -> s * e = w * d -> 0 < e * d).
          { intros e w Ne W Ee. assert (0 < e * e) by nra. assert (Q : s * (e * e) = w * (e * d)) by (replace (s * (e * e)) with (s * e * e) by ring; rewrite Ee; ring). destruct (Rle_lt_dec (e * d) 0) as [L|L]; auto. exfalso. nra. }
          assert (G1 := G _ _ E1 Z L1). assert (G2 := G _ _ E2 X L2). assert (G3 := G _ _ E3 Y L3). clear G.
          destruct (Rlt_dec 0 d) as [Dp|Dp].
          * rewrite (sgb_is 1) in Z0; [discriminate|auto|nra|nra|nra|lra].
          * rewrite (sgb_is (-1)) in Z0; [discriminate|auto|nra|nra|nra|lra].
        + exists true. split; [exact K|]. exists (d / dot (tn a b c) r). assert (Sk : 0 < IZR sg_ * dot (tn a b c) r) by (rewrite Ek; lra).
          assert (Q : forall u, 0 < IZR sg_ * u -> 0 < u / dot (tn a b c) r). { intros u U. replace (u / dot (tn a b c) r) with ((IZR sg_ * u) / (IZR sg_ * dot (tn a b c) r)) by (field; split; auto; destruct Spm as [-> | ->]; lra). apply Rdiv_lt_0_compat; auto. }
          split; [apply Q; auto|]. exists (trip r (vsub b q) (vsub c q) / dot (tn a b c) r), (trip r (vsub c q) (vsub a q) / dot (tn a b c) r), (trip r (vsub a q) (vsub b q) / dot (tn a b c) r).
          split; [apply Q; auto|]. split; [apply Q; auto|]. split; [apply Q; auto|]. split; [rewrite Ek; field; rewrite <- Ek; auto|]. apply ray_point. exact K. }
    destruct One as (bo & One). exists (bo :: bs). constructor; auto. }
  destruct (F T) as (bs & Fb); auto. exists bs. split; auto.
Qed.
