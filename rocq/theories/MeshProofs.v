(** Proofs about mesh stacking and the array format. *)
From Coq Require Import List Arith Bool Lia.
From Verif Require Import Prelude MeshModel MeshSpec.
Import ListNotations.

Lemma set_nth_app {A} (a : list A) x b y : set_nth (a ++ x :: b) (length a) y = a ++ y :: b.
Proof. induction a as [|z a IH]; simpl; auto. rewrite IH. auto. Qed.

Lemma store_app {A} (a : list A) b i y : i = length a -> b <> [] ->
  store (a ++ b) i y = Ok (a ++ y :: tl b).
Proof.
  intros -> N. unfold store. destruct b as [|x b]; [congruence|].
  rewrite app_length. simpl. destruct (Nat.ltb_spec (length a) (length a + S (length b))); [|lia].
  rewrite set_nth_app. auto.
Qed.

Section P.
  Context {P : Type} (zero : P).

  Lemma fill_pos {A} (rows : list A) : forall j pre rest off bump, 0 < j -> length pre = j + off ->
    length rows <= length rest ->
    fill j rows (pre ++ rest) off bump = Ok (pre ++ rows ++ skipn (length rows) rest, off).
  Proof.
    induction rows as [|r rows IH]; intros j pre rest off bump Hj Hp Hl; simpl; auto.
    destruct (Nat.eqb_spec j 0); [lia|]. destruct rest as [|x rest]; [simpl in Hl; lia|].
    rewrite store_app by (auto; discriminate). cbn [rbind tl].
    replace (pre ++ r :: rest) with ((pre ++ [r]) ++ rest) by (rewrite <- app_assoc; auto).
    rewrite IH; [|lia|rewrite app_length; simpl; lia|simpl in Hl; lia].
    rewrite <- app_assoc. auto.
  Qed.

  Lemma fill_zero {A} (rows : list A) pre rest off bump :
    (rows <> [] -> length pre = off + bump) -> length rows <= length rest ->
    fill 0 rows (pre ++ rest) off bump =
      Ok (pre ++ rows ++ skipn (length rows) rest, if length rows =? 0 then off else off + bump).
  Proof.
    intros Hp Hl. destruct rows as [|r rows]; auto.
    specialize (Hp ltac:(discriminate)). cbn [fill Nat.eqb length].
    destruct rest as [|x rest]; [simpl in Hl; lia|].
    rewrite store_app by (try lia; discriminate). cbn [rbind tl].
    replace (pre ++ r :: rest) with ((pre ++ [r]) ++ rest) by (rewrite <- app_assoc; auto).
    rewrite fill_pos; [|lia|rewrite app_length; simpl; lia|simpl in Hl; lia].
    rewrite <- app_assoc. auto.
  Qed.

  (** Offsets are right whenever rows are written. *)
  Fixpoint okoff (off prev tot : nat) (sizes : list nat) : Prop :=
    match sizes with
    | [] => True
    | n :: r => (n <> 0 -> off + prev = tot) /\ okoff (if n =? 0 then off else off + prev) n (tot + n) r
    end.

  (** Faces of stacked objects, renumbered. *)
  Fixpoint shifted (k : nat) (objs : list (mesh (P := P))) : list face :=
    match objs with
    | [] => []
    | (p, t) :: r => map (shift_face k) t ++ shifted (k + length p) r
    end.

  Lemma total_app_fst (l : list (mesh (P := P))) : total fst l = length (concat (map fst l)).
  Proof. unfold total. induction l as [|x l IH]; simpl; auto. rewrite app_length, IH. auto. Qed.

  Lemma shifted_length l : forall k, length (shifted k l) = total snd l.
  Proof. unfold total. induction l as [|(p, t) l IH]; intros k; simpl; auto. rewrite app_length, map_length, IH. auto. Qed.

  Lemma stack_spec objs : forall dv df rv rf prev to po,
    okoff po (fst prev) (length dv) (map (fun o => length (fst o)) objs) ->
    okoff to (snd prev) (length df) (map (fun o => length (snd o)) objs) ->
    length rv = total fst objs -> length rf = total snd objs ->
    stack objs prev (dv ++ rv) (df ++ rf) (length dv) to po =
      Ok (dv ++ concat (map fst objs), df ++ shifted (length dv) objs).
  Proof.
    induction objs as [|(p, t) objs IH]; intros dv df rv rf prev to po OP OT LV LF; cbn [stack].
    - unfold total in *. simpl in *. destruct rv; [|discriminate]. destruct rf; [|discriminate]. auto.
    - unfold total in LV, LF. cbn [fold_right fst snd] in LV, LF. fold (total (B := P) fst objs) in LV.
      fold (total (B := face) snd objs) in LF.
      cbn [map okoff fst snd] in OP, OT. destruct OP as (OP1 & OP2), OT as (OT1 & OT2).
      rewrite fill_zero; [|rewrite <- (map_length (shift_face (length dv)) t) in OT1|rewrite map_length; lia].
      2:{ intros N. symmetry. apply OT1. destruct (map _ t); [congruence|discriminate]. }
      cbn [rbind fst snd]. rewrite fill_zero; [|intros N; symmetry; apply OP1; destruct p; [congruence|discriminate]|lia].
      cbn [rbind fst snd]. rewrite !map_length.
      replace (dv ++ p ++ skipn (length p) rv) with ((dv ++ p) ++ skipn (length p) rv) by (rewrite <- app_assoc; auto).
      replace (df ++ map (shift_face (length dv)) t ++ skipn (length t) rf)
        with ((df ++ map (shift_face (length dv)) t) ++ skipn (length t) rf) by (rewrite <- app_assoc; auto).
      replace (length dv + length p) with (length (dv ++ p)) by (rewrite app_length; auto).
      rewrite IH.
      + rewrite <- !app_assoc, app_length. simpl. auto.
      + rewrite app_length. exact OP2.
      + rewrite app_length, map_length. exact OT2.
      + rewrite skipn_length. lia.
      + rewrite skipn_length. lia.
  Qed.

  Lemma okoff_zeros c : forall off prev tot, okoff off prev tot (repeat 0 c).
  Proof. induction c as [|c IH]; intros; simpl; auto. split; [lia|]. apply IH. Qed.

  Lemma okoff_pos m : forall off prev tot c, Forall (fun n => 0 < n) m -> off + prev = tot ->
    okoff off prev tot (m ++ repeat 0 c).
  Proof.
    induction m as [|n m IH]; intros off prev tot c F E; simpl; [apply okoff_zeros|].
    inversion F; subst. split; auto. destruct (Nat.eqb_spec n 0); [lia|]. apply IH; auto.
  Qed.

  Lemma no_gap_okoff sizes : no_gap sizes -> okoff 0 0 0 sizes.
  Proof.
    intros (a & m & c & -> & F). induction a as [|a IH]; simpl; [apply okoff_pos; auto|]. split; [lia|exact IH].
  Qed.

  Lemma vstack_spec (objs : list (mesh (P := P))) : no_gap (map (fun o => length (fst o)) objs) ->
    no_gap (map (fun o => length (snd o)) objs) ->
    vstack_mesh zero objs = Ok (concat (map fst objs), shifted 0 objs).
  Proof.
    intros G1 G2. unfold vstack_mesh.
    apply (stack_spec objs [] [] (repeat zero (total fst objs)) (repeat (0, 0, 0) (total snd objs)) (0, 0) 0 0).
    - apply no_gap_okoff; auto.
    - apply no_gap_okoff; auto.
    - apply repeat_length.
    - apply repeat_length.
  Qed.

  Lemma coords_shift pre pts post f : (forall i, In i (face_corners f) -> i < length pts) ->
    coords (pre ++ pts ++ post) (shift_face (length pre) f) = coords (P := P) pts f.
  Proof.
    intros V. destruct f as ((a, b), c). unfold coords, shift_face.
    assert (N : forall i, i < length pts -> nth_error (pre ++ pts ++ post) (i + length pre) = nth_error pts i).
    { intros i Hi. rewrite nth_error_app2 by lia. replace (i + length pre - length pre) with i by lia.
      apply nth_error_app1. auto. }
    rewrite !N; auto; apply V; simpl; auto.
  Qed.

  Lemma shifted_coords objs : forall pre post, Forall valid objs ->
    map (coords (pre ++ concat (map fst objs) ++ post)) (shifted (length pre) objs) =
    concat (map (soup (P := P)) objs).
  Proof.
    induction objs as [|(p, t) objs IH]; intros pre post V; simpl; auto.
    inversion V; subst. rewrite map_app. f_equal.
    - unfold soup. simpl. rewrite map_map. apply map_ext_in. intros f I.
      rewrite <- !app_assoc. apply coords_shift. intros i Hi. apply (H1 f i); auto.
    - rewrite <- app_length. replace (pre ++ (p ++ concat (map fst objs)) ++ post)
        with ((pre ++ p) ++ concat (map fst objs) ++ post) by (rewrite <- !app_assoc; auto).
      apply IH. auto.
  Qed.

  Lemma in_shifted objs : forall k f i, Forall valid objs -> In f (shifted k objs) -> In i (face_corners f) ->
    k <= i < k + total fst objs.
  Proof.
    unfold total. induction objs as [|(p, t) objs IH]; intros k f i V I J; simpl in I; [destruct I|].
    inversion V; subst. simpl. apply in_app_iff in I. destruct I as [I|I].
    - apply in_map_iff in I. destruct I as (g & <- & Ig).
      assert (exists i', i = i' + k /\ In i' (face_corners g)).
      { destruct g as ((x, y), z). simpl in J. destruct J as [<-|[<-|[<-|[]]]]; eexists; split; eauto; simpl; auto. }
      destruct H as (i' & -> & Hi). specialize (H1 g i' Ig Hi). simpl in H1. lia.
    - specialize (IH (k + length p) f i H2 I J). lia.
  Qed.

  Lemma vstack_soup objs m : vstack_mesh zero objs = Ok m ->
    no_gap (map (fun o => length (fst o)) objs) -> no_gap (map (fun o => length (snd o)) objs) ->
    Forall valid objs ->
    fst m = concat (map fst objs) /\ soup m = concat (map (soup (P := P)) objs) /\ valid m.
  Proof.
    intros E G1 G2 V. rewrite vstack_spec in E by auto. inversion E; subst. simpl. split; auto. split.
    - unfold soup at 1. simpl. pose proof (shifted_coords objs [] [] V) as S. simpl in S.
      rewrite app_nil_r in S. exact S.
    - intros f i I J. simpl in *. pose proof (in_shifted objs 0 f i V I J) as B.
      rewrite total_app_fst in B. lia.
  Qed.

  Lemma no_gap_pos sizes : Forall (fun n => 0 < n) sizes -> no_gap sizes.
  Proof. intros F. exists 0, sizes, 0. simpl. rewrite app_nil_r. auto. Qed.

  Lemma pos_length {A B} (f : A -> list B) l : Forall (fun x => f x <> []) l ->
    Forall (fun n => 0 < n) (map (fun x => length (f x)) l).
  Proof.
    intros F. apply Forall_forall. intros n I. apply in_map_iff in I. destruct I as (x & <- & Ix).
    rewrite Forall_forall in F. specialize (F x Ix). destruct (f x); [congruence|simpl; lia].
  Qed.

  Lemma vstack_good objs : objs <> [] -> Forall good objs ->
    exists m, vstack_mesh zero objs = Ok m /\ good m /\
      fst m = concat (map fst objs) /\ soup m = concat (map (soup (P := P)) objs).
  Proof.
    intros N G.
    assert (G1 : no_gap (map (fun o => length (fst o)) objs)).
    { apply no_gap_pos, pos_length. eapply Forall_impl; [|exact G]. intros o (A & _). exact A. }
    assert (G2 : no_gap (map (fun o => length (snd o)) objs)).
    { apply no_gap_pos, pos_length. eapply Forall_impl; [|exact G]. intros o (_ & B & _). exact B. }
    assert (V : Forall valid objs).
    { eapply Forall_impl; [|exact G]. intros o (_ & _ & B). exact B. }
    pose proof (vstack_spec objs G1 G2) as E. eexists. split; [exact E|].
    destruct (vstack_soup objs _ E G1 G2 V) as (A & B & C). split; auto.
    destruct objs as [|(p, t) objs]; [congruence|]. inversion G; subst. destruct H1 as (Hp & Ht & _).
    simpl in Hp, Ht. repeat split; simpl; auto.
    - destruct p; [congruence|discriminate].
    - destruct t; [congruence|discriminate].
  Qed.

  (** One level of get_mesh: the children's meshes are good and stacked. *)
  Lemma level_good {A} (get : A -> result mesh) (flat : A -> list (mesh (P := P))) l :
    l <> [] ->
    Forall (fun x => exists m, get x = Ok m /\ good m /\ fst m = concat (map fst (flat x)) /\
                     soup m = concat (map (soup (P := P)) (flat x))) l ->
    exists m, (do ms <- mapM get l; vstack_mesh zero ms) = Ok m /\ good m /\
      fst m = concat (map fst (flat_map flat l)) /\ soup m = concat (map (soup (P := P)) (flat_map flat l)).
  Proof.
    intros N F.
    assert (E : exists ms, mapM get l = Ok ms /\ Forall good ms /\ length ms = length l /\
      concat (map fst ms) = concat (map fst (flat_map flat l)) /\
      concat (map (soup (P := P)) ms) = concat (map (soup (P := P)) (flat_map flat l))).
    { clear N. induction F as [|x l (m & E & G & A1 & A2) F IH]; simpl.
      - exists []. repeat split; auto.
      - destruct IH as (ms & Em & Gm & L & B1 & B2). rewrite E, Em. cbn [rbind].
        exists (m :: ms). split; auto. split; auto. split; [simpl; auto|]. simpl.
        rewrite !map_app, !concat_app, A1, A2, B1, B2. auto. }
    destruct E as (ms & -> & G & L & E1 & E2). cbn [rbind].
    destruct (vstack_good ms) as (m & Em & Gm & C & D); auto.
    { destruct ms; [destruct l; [congruence|discriminate]|discriminate]. }
    exists m. rewrite C, D, E1, E2. auto.
  Qed.


  Lemma wall_mesh_good w : nonempty_wall w -> exists m, wall_mesh zero w = Ok m /\ good m /\
    fst m = concat (map fst w) /\ soup m = concat (map (soup (P := P)) w).
  Proof. intros (N & F). apply vstack_good; auto. Qed.

  Lemma flat_map_id {A} (l : list (list A)) : flat_map (fun x => x) l = concat l.
  Proof. induction l as [|x l IH]; simpl; congruence. Qed.

  Lemma solid_mesh_good s : nonempty_solid s -> exists m, solid_mesh zero s = Ok m /\ good m /\
    fst m = concat (map fst (concat s)) /\ soup m = concat (map (soup (P := P)) (concat s)).
  Proof.
    intros (N & F). rewrite <- flat_map_id. apply (level_good (wall_mesh zero) (fun w => w) s); auto.
    eapply Forall_impl; [|exact F]. intros w W. apply wall_mesh_good; auto.
  Qed.

  Lemma zone_mesh_good z : nonempty_zone z -> exists m, zone_mesh zero z = Ok m /\ good m /\
    fst m = concat (map fst (concat (concat z))) /\ soup m = concat (map (soup (P := P)) (concat (concat z))).
  Proof.
    intros (N & F).
    destruct (level_good (solid_mesh zero) (fun s => concat s) z) as (m & E & G & A & B); auto.
    { eapply Forall_impl; [|exact F]. intros s S. apply solid_mesh_good; auto. }
    exists m. rewrite A, B. repeat split; auto; try apply G; do 2 f_equal;
      rewrite flat_map_concat_map; clear; induction z as [|s z IH]; simpl; auto; rewrite IH, concat_app; auto.
  Qed.

  Lemma building_mesh_good b : nonempty_building b -> exists m, building_mesh zero b = Ok m /\ good m /\
    fst m = concat (map fst (all_polys b)) /\ soup m = concat (map (soup (P := P)) (all_polys b)).
  Proof.
    intros (N & F).
    destruct (level_good (zone_mesh zero) (fun s => concat (concat s)) b) as (m & E & G & A & B); auto.
    { eapply Forall_impl; [|exact F]. intros s S. apply zone_mesh_good; auto. }
    exists m. rewrite A, B. repeat split; auto; try apply G; do 2 f_equal;
      unfold all_polys, all_walls, all_solids;
      rewrite flat_map_concat_map; clear; induction b as [|s z IH]; simpl; auto; rewrite IH, !concat_app; auto.
  Qed.

  (** ** to_array_format *)

  Lemma store_rows_app {A} (rows : list A) : forall pre rest, length rows <= length rest ->
    store_rows (pre ++ rest) (length pre) rows = Ok (pre ++ rows ++ skipn (length rows) rest).
  Proof.
    induction rows as [|r rows IH]; intros pre rest L; simpl; auto.
    destruct rest as [|x rest]; [simpl in L; lia|]. simpl in L.
    rewrite app_length. simpl. destruct (Nat.ltb_spec (length pre) (length pre + S (length rest))); [|lia].
    rewrite set_nth_app. replace (pre ++ r :: rest) with ((pre ++ [r]) ++ rest) by (rewrite <- app_assoc; auto).
    replace (S (length pre)) with (length (pre ++ [r])) by (rewrite app_length; simpl; lia).
    rewrite IH by lia. rewrite <- app_assoc. auto.
  Qed.

  Lemma store_const_app n v : forall pre rest, n <= length rest ->
    store_const (pre ++ rest) (length pre) n v = Ok (pre ++ repeat v n ++ skipn n rest).
  Proof.
    induction n as [|n IH]; intros pre rest L; simpl; auto.
    destruct rest as [|x rest]; [simpl in L; lia|]. simpl in L.
    rewrite store_app by (auto; discriminate). cbn [rbind tl].
    replace (pre ++ v :: rest) with ((pre ++ [v]) ++ rest) by (rewrite <- app_assoc; auto).
    replace (S (length pre)) with (length (pre ++ [v])) by (rewrite app_length; simpl; lia).
    rewrite IH by lia. rewrite <- app_assoc. auto.
  Qed.

  (** Parent labels of grouped elements. *)
  Fixpoint labels {A} (k : nat) (ls : list (list A)) : list nat :=
    match ls with [] => [] | l :: r => repeat k (length l) ++ labels (S k) r end.

  Lemma labels_length {A} (ls : list (list A)) : forall k, length (labels k ls) = length (concat ls).
  Proof. induction ls as [|l ls IH]; intros k; simpl; auto. rewrite !app_length, repeat_length, IH. auto. Qed.

  Lemma labels_app {A} (l1 l2 : list (list A)) : forall k, labels k (l1 ++ l2) = labels k l1 ++ labels (k + length l1) l2.
  Proof.
    induction l1 as [|l l1 IH]; intros k; simpl; [rewrite Nat.add_0_r; auto|].
    rewrite IH, <- app_assoc, Nat.add_succ_r. auto.
  Qed.

  Lemma shifted_app l1 : forall k l2, shifted k (l1 ++ l2) = shifted k l1 ++ shifted (k + total fst l1) l2.
  Proof.
    induction l1 as [|(p, t) l1 IH]; intros k l2; unfold total; simpl; [rewrite Nat.add_0_r; auto|].
    rewrite IH, <- app_assoc. unfold total. simpl. rewrite Nat.add_assoc. auto.
  Qed.

  (** The state reached after the solids' (Z), walls' (S), polygons' (W) parent
      labels and the polygons ps have been written, with [todo] rows left. *)
  Record rep (st : tstate (P := P)) (ps : list (mesh (P := P))) (W S Z : list nat)
      (tp tf tw ts tz : nat) : Prop := mkRep {
    r_points : exists t, a_points (t_arr st) = concat (map fst ps) ++ t /\ length t = tp;
    r_faces : exists t, a_faces (t_arr st) = shifted 0 ps ++ t /\ length t = tf;
    r_polygons : exists t, a_polygons (t_arr st) = labels 0 (map snd ps) ++ t /\ length t = tf;
    r_walls : exists t, a_walls (t_arr st) = W ++ t /\ length t = tw;
    r_solids : exists t, a_solids (t_arr st) = S ++ t /\ length t = ts;
    r_zones : exists t, a_zones (t_arr st) = Z ++ t /\ length t = tz;
    r_pn : t_pn st = length ps;
    r_lw : length W = length ps;
    r_pt : t_pt st = total fst ps;
    r_fc : t_face st = total snd ps
  }.

  Lemma total_app {A B} (f : A -> list B) l1 l2 : total f (l1 ++ l2) = total f l1 + total f l2.
  Proof. unfold total. induction l1 as [|x l1 IH]; simpl; auto. rewrite IH. lia. Qed.

  Lemma labels_total (ps : list (mesh (P := P))) k : length (labels k (map snd ps)) = total snd ps.
  Proof.
    rewrite labels_length. unfold total. induction ps as [|x ps IH]; simpl; auto.
    rewrite app_length, IH. auto.
  Qed.

  Lemma put_polygon_rep st ps W S Z tp tf tw ts tz p :
    rep st ps W S Z (length (fst p) + tp) (length (snd p) + tf) (1 + tw) ts tz ->
    exists st', put_polygon st p = Ok st' /\ rep st' (ps ++ [p]) (W ++ [t_wn st]) S Z tp tf tw ts tz /\
      t_wn st' = t_wn st /\ t_sn st' = t_sn st /\ t_zn st' = t_zn st.
  Proof.
    intros [(t1 & E1 & L1) (t2 & E2 & L2) (t3 & E3 & L3) (t4 & E4 & L4) E5 E6 E7 E8 E11 E12].
    unfold put_polygon.
    rewrite E4, store_app; [|lia|destruct t4; [simpl in L4; lia|discriminate]]. cbn [rbind].
    rewrite E1, E11, total_app_fst, store_rows_app by lia. cbn [rbind].
    rewrite E2, E12, <- (shifted_length ps 0), store_rows_app by (rewrite map_length; lia). cbn [rbind].
    rewrite E3. rewrite (shifted_length ps 0), <- (labels_total ps 0), store_const_app by lia. cbn [rbind].
    eexists. split; [reflexivity|]. cbn [t_wn t_sn t_zn]. split; auto.
    constructor; cbn [t_arr t_pn t_wn t_sn t_zn t_pt t_face a_points a_faces a_polygons a_walls a_solids a_zones]; auto.
    - exists (skipn (length (fst p)) t1). split.
      + rewrite map_app, concat_app. cbn [map concat]. rewrite app_nil_r, <- app_assoc. reflexivity.
      + rewrite skipn_length. lia.
    - exists (skipn (length (map (shift_face (total fst ps)) (snd p))) t2). split.
      + rewrite shifted_app, <- ?total_app_fst. destruct p as (pp, pt). cbn [shifted fst snd plus].
        rewrite app_nil_r, <- app_assoc. reflexivity.
      + rewrite skipn_length, map_length. lia.
    - exists (skipn (length (snd p)) t3). split.
      + rewrite map_app, labels_app, map_length. cbn [map labels plus]. rewrite app_nil_r, <- app_assoc, <- E7. reflexivity.
      + rewrite skipn_length. lia.
    - exists (tl t4). split.
      + rewrite <- app_assoc. reflexivity.
      + destruct t4; simpl in *; lia.
    - rewrite app_length. simpl. lia.
    - rewrite !app_length. simpl. lia.
    - rewrite <- total_app_fst, total_app. unfold total at 3. simpl. lia.
    - rewrite labels_total, total_app. unfold total at 3. simpl. lia.
  Qed.

  Lemma put_polygons_rep w : forall st ps W S Z tp tf tw ts tz,
    rep st ps W S Z (total fst w + tp) (total snd w + tf) (length w + tw) ts tz ->
    exists st', foldM put_polygon w st = Ok st' /\
      rep st' (ps ++ w) (W ++ repeat (t_wn st) (length w)) S Z tp tf tw ts tz /\
      t_wn st' = t_wn st /\ t_sn st' = t_sn st /\ t_zn st' = t_zn st.
  Proof.
    induction w as [|p w IH]; intros st ps W S Z tp tf tw ts tz R; simpl.
    - exists st. rewrite !app_nil_r. auto.
    - destruct (put_polygon_rep st ps W S Z (total fst w + tp) (total snd w + tf) (length w + tw) ts tz p)
        as (st1 & E1 & R1 & Q1 & Q2 & Q3).
      { unfold total in R. simpl in R. rewrite <- !Nat.add_assoc in R. exact R. }
      rewrite E1. cbn [rbind]. destruct (IH _ _ _ _ _ _ _ _ _ _ R1) as (st2 & E2 & R2 & Q4 & Q5 & Q6).
      exists st2. split; auto. rewrite <- !app_assoc, Q1 in R2. simpl in R2. split; [exact R2|]; repeat split; congruence.
  Qed.


  Lemma put_wall_rep st ps W S Z tp tf tw ts tz w :
    rep st ps W S Z (total fst w + tp) (total snd w + tf) (length w + tw) (1 + ts) tz ->
    t_wn st = length S ->
    exists st', put_wall st w = Ok st' /\
      rep st' (ps ++ w) (W ++ repeat (length S) (length w)) (S ++ [t_sn st]) Z tp tf tw ts tz /\
      t_wn st' = length (S ++ [t_sn st]) /\ t_sn st' = t_sn st /\ t_zn st' = t_zn st.
  Proof.
    intros [E1 E2 E3 E4 (t5 & E5 & L5) E6 E7 E8 E11 E12] Hw. unfold put_wall.
    rewrite E5, store_app; [|lia|destruct t5; [simpl in L5; lia|discriminate]]. cbn [rbind].
    set (st0 := mkT _ _ _ _ _ _ _).
    destruct (put_polygons_rep w st0 ps W (S ++ [t_sn st]) Z tp tf tw ts tz) as (st' & E & R & Q1 & Q2 & Q3).
    { constructor; unfold st0; cbn [t_arr t_pn t_wn t_sn t_zn t_pt t_face a_points a_faces a_polygons a_walls a_solids a_zones]; auto.
      eexists. split; [rewrite <- app_assoc; reflexivity|]. destruct t5; simpl in *; lia. }
    rewrite E. cbn [rbind]. eexists. split; [reflexivity|]. cbn [t_wn t_sn t_zn].
    split; [|rewrite Q1, Q2, Q3; unfold st0; cbn [t_wn t_sn t_zn]; rewrite app_length; simpl; lia].
    replace (t_wn st0) with (length S) in R by (unfold st0; auto). destruct R. constructor; auto.
  Qed.

  Lemma put_walls_rep s : forall st ps W S Z tp tf tw ts tz,
    rep st ps W S Z (total fst (concat s) + tp) (total snd (concat s) + tf) (length (concat s) + tw) (length s + ts) tz ->
    t_wn st = length S ->
    exists st', foldM put_wall s st = Ok st' /\
      rep st' (ps ++ concat s) (W ++ labels (length S) s) (S ++ repeat (t_sn st) (length s)) Z tp tf tw ts tz /\
      t_wn st' = length (S ++ repeat (t_sn st) (length s)) /\ t_sn st' = t_sn st /\ t_zn st' = t_zn st.
  Proof.
    induction s as [|w s IH]; intros st ps W S Z tp tf tw ts tz R Hw; cbn [foldM concat labels length repeat].
    - exists st. rewrite !app_nil_r. auto.
    - destruct (put_wall_rep st ps W S Z (total fst (concat s) + tp) (total snd (concat s) + tf)
        (length (concat s) + tw) (length s + ts) tz w) as (st1 & E1 & R1 & Q1 & Q2 & Q3); auto.
      { cbn [concat length] in R. rewrite !total_app, app_length, <- !Nat.add_assoc in R. exact R. }
      rewrite E1. cbn [rbind]. destruct (IH _ _ _ _ _ _ _ _ _ _ R1 Q1) as (st2 & E2 & R2 & Q4 & Q5 & Q6).
      exists st2. split; auto. rewrite Q2 in R2, Q4. repeat rewrite <- app_assoc in R2. rewrite <- app_assoc in Q4. simpl in R2, Q4.
      rewrite app_length, Nat.add_1_r in R2. split; [exact R2|]; repeat split; congruence.
  Qed.

  Lemma put_solid_rep st ps W S Z tp tf tw ts tz s :
    rep st ps W S Z (total fst (concat s) + tp) (total snd (concat s) + tf) (length (concat s) + tw) (length s + ts) (1 + tz) ->
    t_wn st = length S -> t_sn st = length Z ->
    exists st', put_solid st s = Ok st' /\
      rep st' (ps ++ concat s) (W ++ labels (length S) s) (S ++ repeat (length Z) (length s)) (Z ++ [t_zn st]) tp tf tw ts tz /\
      t_wn st' = length (S ++ repeat (length Z) (length s)) /\ t_sn st' = length (Z ++ [t_zn st]) /\ t_zn st' = t_zn st.
  Proof.
    intros [E1 E2 E3 E4 E5 (t6 & E6 & L6) E7 E8 E11 E12] Hw Hs. unfold put_solid.
    rewrite E6, store_app; [|lia|destruct t6; [simpl in L6; lia|discriminate]]. cbn [rbind].
    set (st0 := mkT _ _ _ _ _ _ _).
    destruct (put_walls_rep s st0 ps W S (Z ++ [t_zn st]) tp tf tw ts tz) as (st' & E & R & Q1 & Q2 & Q3); auto.
    { constructor; unfold st0; cbn [t_arr t_pn t_wn t_sn t_zn t_pt t_face a_points a_faces a_polygons a_walls a_solids a_zones]; auto.
      eexists. split; [rewrite <- app_assoc; reflexivity|]. destruct t6; simpl in *; lia. }
    rewrite E. cbn [rbind]. eexists. split; [reflexivity|]. cbn [t_wn t_sn t_zn].
    replace (t_sn st0) with (length Z) in * by (unfold st0; cbn [t_sn]; auto).
    split; [destruct R; constructor; auto|].
    split; [auto|]. split; [rewrite Q2, app_length; simpl; lia|auto].
  Qed.

  Lemma put_solids_rep z : forall st ps W S Z tp tf tw ts tz,
    rep st ps W S Z (total fst (concat (concat z)) + tp) (total snd (concat (concat z)) + tf)
      (length (concat (concat z)) + tw) (length (concat z) + ts) (length z + tz) ->
    t_wn st = length S -> t_sn st = length Z ->
    exists st', foldM put_solid z st = Ok st' /\
      rep st' (ps ++ concat (concat z)) (W ++ labels (length S) (concat z)) (S ++ labels (length Z) z)
        (Z ++ repeat (t_zn st) (length z)) tp tf tw ts tz /\
      t_wn st' = length (S ++ labels (length Z) z) /\ t_sn st' = length (Z ++ repeat (t_zn st) (length z)) /\
      t_zn st' = t_zn st.
  Proof.
    induction z as [|s z IH]; intros st ps W S Z tp tf tw ts tz R Hw Hs; cbn [foldM concat labels length repeat].
    - exists st. rewrite !app_nil_r. auto.
    - destruct (put_solid_rep st ps W S Z (total fst (concat (concat z)) + tp) (total snd (concat (concat z)) + tf)
        (length (concat (concat z)) + tw) (length (concat z) + ts) (length z + tz) s) as (st1 & E1 & R1 & Q1 & Q2 & Q3); auto.
      { cbn [concat length] in R. rewrite !concat_app, !total_app, !app_length, <- !Nat.add_assoc in R. exact R. }
      rewrite E1. cbn [rbind]. destruct (IH _ _ _ _ _ _ _ _ _ _ R1 Q1 Q2) as (st2 & E2 & R2 & Q4 & Q5 & Q6).
      exists st2. split; auto. rewrite Q3 in *. rewrite !app_length, repeat_length in R2. simpl in R2.
      rewrite !app_length in Q4, Q5. simpl in Q4, Q5. rewrite repeat_length in Q4, Q5.
      rewrite concat_app, labels_app, !app_length, repeat_length. cbn [length].
      rewrite !Nat.add_1_r in *. repeat rewrite <- app_assoc in R2. simpl in R2.
      split; [exact R2|]; repeat split; try lia.
      + rewrite !labels_length in *. lia.
      + rewrite !repeat_length in *. lia.
  Qed.

  Lemma put_zones_rep b : forall st ps W S Z tp tf tw ts tz,
    rep st ps W S Z (total fst (all_polys b) + tp) (total snd (all_polys b) + tf)
      (length (all_polys b) + tw) (length (all_walls b) + ts) (length (all_solids b) + tz) ->
    t_wn st = length S -> t_sn st = length Z ->
    exists st', foldM put_zone b st = Ok st' /\
      rep st' (ps ++ all_polys b) (W ++ labels (length S) (all_walls b)) (S ++ labels (length Z) (all_solids b))
        (Z ++ labels (t_zn st) b) tp tf tw ts tz.
  Proof.
    unfold all_polys, all_walls, all_solids.
    induction b as [|z b IH]; intros st ps W S Z tp tf tw ts tz R Hw Hs; cbn [foldM concat labels].
    - exists st. rewrite !app_nil_r. auto.
    - unfold put_zone at 1.
      cbn [concat] in R. rewrite !concat_app, !total_app, !app_length, <- !Nat.add_assoc in R.
      destruct (put_solids_rep z _ _ _ _ _ _ _ _ _ _ R Hw Hs) as (st1 & E1 & R1 & Q1 & Q2 & Q3).
      rewrite E1. cbn [rbind]. set (st1' := mkT _ _ _ _ _ _ _).
      destruct (IH st1' (ps ++ concat (concat z)) (W ++ labels (length S) (concat z)) (S ++ labels (length Z) z)
        (Z ++ repeat (t_zn st) (length z)) tp tf tw ts tz) as (st2 & E2 & R2); auto.
      { destruct R1. constructor; auto. }
      exists st2. split; auto. repeat rewrite concat_app.
      rewrite (labels_app (concat z) (concat (concat b)) (length S) : labels (length S) (concat z ++ concat (concat b)) = _).
      rewrite (labels_app z (concat b) (length Z) : labels (length Z) (z ++ concat b) = _).
      rewrite !app_length, !labels_length, !repeat_length in R2.
      repeat rewrite <- app_assoc in R2. unfold st1' in R2. cbn [t_zn] in R2. rewrite Q3 in R2. exact R2.
  Qed.

  Lemma sum_concat {A B} (f : A -> list B) (l : list A) : sum (map (fun x => length (f x)) l) = total f l.
  Proof. unfold sum, total. induction l; simpl; auto. Qed.

  Lemma sum_nested {A} (g : list A -> nat) (f : A -> nat) (l : list (list A)) :
    (forall x, g x = sum (map f x)) -> sum (map g l) = sum (map f (concat l)).
  Proof.
    intros H. induction l as [|x l IH]; auto. cbn [map concat]. rewrite map_app. unfold sum in *. simpl.
    rewrite IH, H. clear. unfold sum. induction (map f x); simpl; auto. lia.
  Qed.

  Lemma sum_length {A} (l : list (list A)) : sum (map (@length _) l) = length (concat l).
  Proof. unfold sum. induction l; simpl; auto. rewrite app_length. lia. Qed.

  Lemma num_faces_total (b : building_m (P := P)) : num_faces b = total snd (all_polys b).
  Proof.
    unfold num_faces, all_polys, all_walls, all_solids. rewrite <- sum_concat.
    rewrite (sum_nested _ (fun s => sum (map (fun w => sum (map (fun p => length (snd p)) w)) s)) b); auto.
    rewrite (sum_nested _ (fun w => sum (map (fun p => length (snd p)) w)) (concat b)); auto.
    apply (sum_nested _ (fun p => length (snd p)) (concat (concat b))); auto.
  Qed.

  Lemma num_pts_total (b : building_m (P := P)) : num_pts b = total fst (all_polys b).
  Proof.
    unfold num_pts, all_polys, all_walls, all_solids. rewrite <- sum_concat.
    rewrite (sum_nested _ (fun s => sum (map (fun w => sum (map (fun p => length (fst p)) w)) s)) b); auto.
    rewrite (sum_nested _ (fun w => sum (map (fun p => length (fst p)) w)) (concat b)); auto.
    apply (sum_nested _ (fun p => length (fst p)) (concat (concat b))); auto.
  Qed.

  Lemma num_polys_total (b : building_m (P := P)) : num_polys b = length (all_polys b).
  Proof.
    unfold num_polys, all_polys, all_walls, all_solids. rewrite <- sum_length.
    rewrite (sum_nested _ (fun s => sum (map (@length _) s)) b); auto.
    apply (sum_nested _ (@length _) (concat b)); auto.
  Qed.

  Lemma num_walls_total (b : building_m (P := P)) : num_walls b = length (all_walls b).
  Proof.
    unfold num_walls, all_walls, all_solids. rewrite <- sum_length.
    apply (sum_nested _ (@length _) b); auto.
  Qed.

  Lemma num_solids_total (b : building_m (P := P)) : num_solids b = length (all_solids b).
  Proof. unfold num_solids, all_solids. apply sum_length. Qed.

  Definition flat_arrays (b : building_m (P := P)) : arrays :=
    mkArrays (concat (map fst (all_polys b))) (shifted 0 (all_polys b)) (labels 0 (map snd (all_polys b)))
      (labels 0 (all_walls b)) (labels 0 (all_solids b)) (labels 0 b).

  Lemma to_array_spec b : to_array_format zero b = Ok (flat_arrays b).
  Proof.
    unfold to_array_format. rewrite num_pts_total, num_faces_total, num_polys_total, num_walls_total, num_solids_total.
    set (st0 := mkT _ _ _ _ _ _ _).
    destruct (put_zones_rep b st0 [] [] [] [] 0 0 0 0 0) as (st' & E & R); auto.
    { constructor; unfold st0; cbn; auto; eexists; (split; [reflexivity|]); rewrite repeat_length; lia. }
    rewrite E. cbn [rbind]. cbn [app length] in R. unfold st0 in R. cbn [t_zn] in R.
    destruct R as [(u1 & F1 & M1) (u2 & F2 & M2) (u3 & F3 & M3) (u4 & F4 & M4) (u5 & F5 & M5) (u6 & F6 & M6) _ _ _ _].
    apply length_zero_iff_nil in M1, M2, M3, M4, M5, M6. subst. rewrite app_nil_r in *.
    unfold flat_arrays. rewrite <- F1, <- F2, <- F3, <- F4, <- F5, <- F6. destruct (t_arr st'); auto.
  Qed.

  (** ** Reading labels *)

  Lemma pick_labelled {A} (xs : list A) : forall ls k, length xs <= length ls -> pick xs ls k = Ok (labelled ls xs k).
  Proof.
    unfold labelled. induction xs as [|x xs IH]; intros [|l ls] k L; simpl in *; auto; try lia.
    rewrite IH by lia. cbn [rbind]. destruct (l =? k); auto.
  Qed.

  Lemma labelled_app {A} (l1 : list nat) (x1 : list A) l2 x2 k : length l1 = length x1 ->
    labelled (l1 ++ l2) (x1 ++ x2) k = labelled l1 x1 k ++ labelled l2 x2 k.
  Proof.
    intros L. unfold labelled. revert x1 L. induction l1 as [|a l1 IH]; intros [|x x1] L; simpl in *; try lia; auto.
    destruct (a =? k); simpl; rewrite IH by lia; auto.
  Qed.

  Lemma labelled_repeat {A} (x : list A) k j : labelled (repeat j (length x)) x k = if j =? k then x else [].
  Proof.
    unfold labelled. induction x as [|a x IH]; simpl; [destruct (j =? k); auto|].
    destruct (j =? k); simpl; rewrite IH; auto.
  Qed.

  Lemma labelled_groups {A} (ls : list (list A)) : forall j k,
    labelled (labels j ls) (concat ls) k = if k <? j then [] else nth (k - j) ls [].
  Proof.
    induction ls as [|l ls IH]; intros j k; simpl.
    - unfold labelled. simpl. destruct (k <? j); auto. destruct (k - j); auto.
    - rewrite labelled_app by apply repeat_length. rewrite labelled_repeat, IH.
      destruct (Nat.eqb_spec j k); destruct (Nat.ltb_spec k (S j)); destruct (Nat.ltb_spec k j); try lia; auto.
      + subst. rewrite Nat.sub_diag, app_nil_r. auto.
      + replace (k - j) with (S (k - S j)) by lia. auto.
  Qed.

  Lemma labelled_map {A B} (f : A -> B) ls xs k : labelled ls (map f xs) k = map f (labelled ls xs k).
  Proof.
    unfold labelled. revert xs. induction ls as [|l ls IH]; intros [|x xs]; simpl; auto.
    destruct (l =? k); simpl; rewrite IH; auto.
  Qed.

  Fixpoint offset (k : nat) (ps : list (mesh (P := P))) : nat :=
    match k, ps with
    | S k', p :: ps' => length (fst p) + offset k' ps'
    | _, _ => 0
    end.

  Lemma labelled_shifted (ps : list (mesh (P := P))) : forall j off k, 
    labelled (labels j (map snd ps)) (shifted off ps) (j + k) =
    match @nth_error (mesh (P := P)) ps k with Some p => map (shift_face (off + offset k ps)) (snd p) | None => [] end.
  Proof.
    induction ps as [|(p, t) ps IH]; intros j off k; simpl.
    - destruct k; auto.
    - rewrite labelled_app by (rewrite repeat_length, map_length; auto).
      rewrite <- (map_length (shift_face off) t) at 1. rewrite labelled_repeat.
      destruct k as [|k]; simpl.
      + rewrite Nat.add_0_r, Nat.eqb_refl, Nat.add_0_r.
        assert (N : labelled (labels (S j) (map snd ps)) (shifted (off + length p) ps) j = []); [|rewrite N, app_nil_r; auto].
        unfold labelled. assert (G : forall (ps : list (mesh (P := P))) i o, j < i ->
          filter (fun lx => fst lx =? j) (combine (labels i (map snd ps)) (shifted o ps)) = []).
        { clear. induction ps as [|(p, t) ps IH]; intros i o L; simpl; auto.
          generalize t as u. induction u as [|f u IHu]; simpl; [apply IH; lia|].
          destruct (Nat.eqb_spec i j); [lia|]. auto. }
        rewrite G; auto.
      + destruct (Nat.eqb_spec j (j + S k)); [lia|]. simpl.
        rewrite <- (Nat.add_succ_comm j k), IH. destruct (nth_error ps k); auto. rewrite Nat.add_assoc. auto.
  Qed.

  Lemma faces_of_polygon (ps : list (mesh (P := P))) k p : Forall valid ps -> nth_error ps k = Some p ->
    map (coords (concat (map fst ps))) (labelled (labels 0 (map snd ps)) (shifted 0 ps) k) = soup (P := P) p.
  Proof.
    intros V N. pose proof (labelled_shifted ps 0 0 k) as E. simpl in E. rewrite N in E. rewrite E. clear E.
    rewrite map_map. unfold soup. apply map_ext_in. intros f I.
    assert (D : exists pre post, concat (map fst ps) = pre ++ fst p ++ post /\ length pre = offset k ps).
    { clear V I. revert k N. induction ps as [|q ps IH]; intros [|k] N; simpl in N; try discriminate.
      - inversion N; subst. exists [], (concat (map fst ps)). auto.
      - destruct (IH k N) as (pre & post & E & L). exists (fst q ++ pre), post. simpl.
        rewrite E, <- app_assoc, app_length, L. auto. }
    destruct D as (pre & post & -> & <-). apply coords_shift. intros i Hi.
    rewrite Forall_forall in V. apply (V p (nth_error_In _ _ N) f i); auto.
  Qed.

  (** ** Reading a polygon back *)

  Lemma positions_lookup {A} (ls : list nat) : forall (xs pre : list A) k, length xs = length ls ->
    mapM (lookup_row (pre ++ xs)) (positions (length pre) ls k) = Ok (labelled ls xs k).
  Proof.
    induction ls as [|l ls IH]; intros [|x xs] pre k L; simpl in *; try lia; auto.
    assert (E : mapM (lookup_row (pre ++ x :: xs)) (positions (S (length pre)) ls k) = Ok (labelled ls xs k)).
    { replace (pre ++ x :: xs) with ((pre ++ [x]) ++ xs) by (rewrite <- app_assoc; auto).
      replace (S (length pre)) with (length (pre ++ [x])) by (rewrite app_length; simpl; lia). apply IH. lia. }
    unfold labelled in *. simpl. destruct (l =? k); simpl; auto. rewrite E. unfold lookup_row at 1.
    rewrite nth_error_app2, Nat.sub_diag by lia. auto.
  Qed.

  Lemma positions_ge ls : forall i k x, In x (positions i ls k) -> i <= x.
  Proof.
    induction ls as [|l ls IH]; intros i k x I; simpl in I; [destruct I|].
    destruct (l =? k); [destruct I as [<-|I]; [lia|]|]; specialize (IH _ _ _ I); lia.
  Qed.

  Lemma filter_ext_in' {A} (f g : A -> bool) l : (forall x, In x l -> f x = g x) -> filter f l = filter g l.
  Proof.
    induction l as [|x l IH]; intros H; simpl; auto. rewrite (H x) by (simpl; auto).
    rewrite IH by (intros; apply H; simpl; auto). auto.
  Qed.

  Lemma chosen_eq {A} (ls : list nat) : forall (xs : list A) i k, length xs = length ls ->
    map snd (filter (fun ix : nat * A => let '(j, _) := ix in existsb (Nat.eqb j) (positions i ls k))
               (combine (seq i (length xs)) xs)) = labelled ls xs k.
  Proof.
    induction ls as [|l ls IH]; intros [|x xs] i k L; simpl in *; try lia; auto.
    assert (E : map snd (filter (fun ix : nat * A => let '(j, _) := ix in
        existsb (Nat.eqb j) (if l =? k then i :: positions (S i) ls k else positions (S i) ls k))
          (combine (seq (S i) (length xs)) xs)) = labelled ls xs k).
    { rewrite <- (IH xs (S i) k) by lia. f_equal. apply filter_ext_in'. intros (j, y) I.
      apply in_combine_l in I. apply in_seq in I. destruct (l =? k); auto. simpl.
      destruct (Nat.eqb_spec j i); [lia|auto]. }
    unfold labelled in *. simpl. destruct (l =? k) eqn:El; simpl.
    - rewrite Nat.eqb_refl. simpl. f_equal. simpl in E. exact E.
    - replace (existsb (Nat.eqb i) (positions (S i) ls k)) with false; auto.
      symmetry. apply not_true_is_false. intros T. apply existsb_exists in T. destruct T as (y & Iy & Ey).
      apply Nat.eqb_eq in Ey. subst. apply positions_ge in Iy. lia.
  Qed.

  Fixpoint ssorted (l : list nat) : Prop :=
    match l with [] => True | x :: r => (forall y, In y r -> x < y) /\ ssorted r end.

  Lemma in_insert x l : forall y, In y (insert_sorted x l) <-> y = x \/ In y l.
  Proof.
    induction l as [|z l IH]; intros y; simpl; [firstorder|].
    destruct (x <? z); simpl; [firstorder|]. destruct (Nat.eqb_spec x z); simpl; [firstorder; subst; auto|].
    rewrite IH. firstorder.
  Qed.

  Lemma insert_ssorted x l : ssorted l -> ssorted (insert_sorted x l).
  Proof.
    induction l as [|z l IH]; intros S; simpl; [firstorder|]. destruct S as (S1 & S2).
    destruct (Nat.ltb_spec x z); simpl.
    - split; [|auto]. intros y [<-|I]; auto. specialize (S1 y I). lia.
    - destruct (Nat.eqb_spec x z); simpl; [auto|]. split; auto. intros y I. apply in_insert in I.
      destruct I as [->|I]; [lia|auto].
  Qed.

  Lemma fold_insert xs : forall s, ssorted s ->
    ssorted (fold_left (fun s x => insert_sorted x s) xs s) /\ forall y, In y (fold_left (fun s x => insert_sorted x s) xs s) <-> In y xs \/ In y s.
  Proof.
    induction xs as [|x xs IH]; intros s S; simpl; [firstorder|].
    destruct (IH (insert_sorted x s) (insert_ssorted x s S)) as (A & B). split; auto.
    intros y. rewrite B, in_insert. firstorder.
  Qed.

  Lemma ssorted_unique l : forall l', ssorted l -> ssorted l' -> (forall y, In y l <-> In y l') -> l = l'.
  Proof.
    induction l as [|x l IH]; intros [|x' l'] S S' H; auto.
    - specialize (H x'). simpl in H. tauto.
    - specialize (H x). simpl in H. tauto.
    - destruct S as (S1 & S2), S' as (S1' & S2').
      assert (x = x').
      { pose proof (proj1 (H x) (or_introl eq_refl)) as A. pose proof (proj2 (H x') (or_introl eq_refl)) as B.
        simpl in A, B. destruct A as [A|A]; auto. destruct B as [B|B]; auto.
        specialize (S1 _ B). specialize (S1' _ A). lia. }
      subst x'. f_equal. apply IH; auto. intros y. specialize (H y). simpl in H. split; intros I.
      + destruct (proj1 H (or_intror I)) as [E|]; auto. subst. specialize (S1 _ I). lia.
      + destruct (proj2 H (or_intror I)) as [E|]; auto. subst. specialize (S1' _ I). lia.
  Qed.

  Lemma seq_ssorted n : forall a, ssorted (seq a n).
  Proof.
    induction n as [|n IH]; intros a; simpl; auto. split; auto. intros y I. apply in_seq in I. lia.
  Qed.

  Lemma index_of_seq n : forall a i, i < n -> index_of (i + a) (seq a n) = Ok i.
  Proof.
    induction n as [|n IH]; intros a i L; [lia|]. cbn [seq index_of].
    destruct (Nat.eqb_spec (i + a) a).
    - f_equal. lia.
    - destruct i as [|i]; [lia|]. replace (S i + a) with (i + S a) by lia. rewrite IH by lia. auto.
  Qed.

  Lemma mapM_lookup_seq (pts pre post : list P) :
    mapM (lookup_row (pre ++ pts ++ post)) (seq (length pre) (length pts)) = Ok pts.
  Proof.
    revert pre. induction pts as [|x pts IH]; intros pre; simpl; auto.
    unfold lookup_row at 1. rewrite nth_error_app2, Nat.sub_diag by lia. cbn [nth_error rbind].
    replace (pre ++ x :: pts ++ post) with ((pre ++ [x]) ++ pts ++ post) by (rewrite <- app_assoc; auto).
    replace (S (length pre)) with (length (pre ++ [x])) by (rewrite app_length; simpl; lia).
    rewrite IH. auto.
  Qed.

  Lemma mapM_bind {A B C} (f : A -> result B) (g : B -> result C) l ys : mapM f l = Ok ys ->
    mapM (fun x => do y <- f x; g y) l = mapM g ys.
  Proof.
    revert ys. induction l as [|x l IH]; intros ys E; simpl in *; [inversion E; auto|].
    destruct (f x) as [y|]; simpl in *; [|discriminate]. destruct (mapM f l) as [ys'|] eqn:El; simpl in *; [|discriminate].
    inversion E; subst. simpl. rewrite (IH ys' eq_refl). auto.
  Qed.

  Lemma mapM_id_on {A B} (f : A -> result B) (h : B -> A) l : (forall x, In x l -> f (h x) = Ok x) ->
    mapM f (map h l) = Ok l.
  Proof.
    induction l as [|x l IH]; intros H; simpl; auto. rewrite (H x) by (simpl; auto). cbn [rbind].
    rewrite IH; auto. intros; apply H; simpl; auto.
  Qed.

  Lemma offset_split (ps : list (mesh (P := P))) : forall k p, nth_error ps k = Some p ->
    exists pre post, concat (map fst ps) = pre ++ fst p ++ post /\ length pre = offset k ps.
  Proof.
    induction ps as [|q ps IH]; intros [|k] p N; simpl in N; try discriminate.
    - inversion N; subst. exists [], (concat (map fst ps)). auto.
    - destruct (IH k p N) as (pre & post & E & L). exists (fst q ++ pre), post. simpl.
      rewrite E, <- app_assoc, app_length, L. auto.
  Qed.

  Lemma read_polygon (ps : list (mesh (P := P))) k p : nth_error ps k = Some p -> valid p -> all_used p ->
    get_polygon_points_and_faces (concat (map fst ps)) (shifted 0 ps) (labels 0 (map snd ps)) k = Ok p.
  Proof.
    intros N V U. unfold get_polygon_points_and_faces.
    assert (L : length (shifted 0 ps) = length (labels 0 (map snd ps))).
    { rewrite shifted_length, labels_total. auto. }
    rewrite chosen_eq by auto.
    pose proof (labelled_shifted ps 0 0 k) as E. simpl in E. rewrite N in E.
    destruct (offset_split ps k p N) as (pre & post & Ec & Lp). rewrite <- Lp in E.
    rewrite E. set (pt_index := fold_left _ _ _).
    assert (I : pt_index = seq (length pre) (length (fst p))).
    { destruct (fold_insert (flat_map face_corners (map (shift_face (length pre)) (snd p))) [] Logic.I) as (A & B).
      fold pt_index in A, B. apply ssorted_unique; auto; [apply seq_ssorted|]. intros y. rewrite B, in_seq. split.
      - intros [C|[]]. apply in_flat_map in C. destruct C as (f & If & Iy). apply in_map_iff in If.
        destruct If as (g & <- & Ig).
        assert (exists i', y = i' + length pre /\ In i' (face_corners g)) as (i & -> & Ii).
        { destruct g as ((x0, y0), z0). simpl in Iy. destruct Iy as [<-|[<-|[<-|[]]]]; eexists; split; eauto; simpl; auto. }
        specialize (V g i Ig Ii). lia.
      - intros H. left. destruct (U (y - length pre)) as (g & Ig & Iy); [lia|].
        apply in_flat_map. exists (shift_face (length pre) g). split; [apply in_map; auto|].
        assert (y = (y - length pre) + length pre) by lia.
        destruct g as ((x0, y0), z0). simpl in *. intuition lia. }
    rewrite I, Ec, mapM_lookup_seq. cbn [rbind].
    rewrite (mapM_bind (lookup_row (shifted 0 ps))
      (fun f => let '(a, b, c) := f in
        do a' <- index_of a (seq (length pre) (length (fst p))); do b' <- index_of b (seq (length pre) (length (fst p)));
        do c' <- index_of c (seq (length pre) (length (fst p))); Ok (a', b', c')) _ (map (shift_face (length pre)) (snd p))).
    2:{ rewrite <- E. apply (positions_lookup _ (shifted 0 ps) [] k L). }
    rewrite mapM_id_on; [destruct p; auto|]. intros ((a, b), c) If. simpl.
    rewrite !index_of_seq; auto; apply (V _ _ If); simpl; auto.
  Qed.

  Lemma mapM_seq_nth {A} (f : nat -> result A) l : forall i,
    (forall k x, nth_error l k = Some x -> f (i + k) = Ok x) -> mapM f (seq i (length l)) = Ok l.
  Proof.
    induction l as [|x l IH]; intros i H; simpl; auto.
    rewrite <- (Nat.add_0_r i) at 1. rewrite (H 0 x eq_refl). cbn [rbind].
    rewrite IH; auto. intros k y N. rewrite Nat.add_succ_comm. apply H. auto.
  Qed.

  Lemma pick_groups {A} (ls : list (list A)) k x : nth_error ls k = Some x ->
    pick (concat ls) (labels 0 ls) k = Ok x.
  Proof.
    intros N. rewrite pick_labelled by (rewrite labels_length; auto). rewrite labelled_groups. simpl.
    rewrite Nat.sub_0_r. f_equal. apply nth_error_nth. auto.
  Qed.

  Lemma list_max_labels {A} (ls : list (list A)) : forall j, ls <> [] -> last ls [] <> [] ->
    list_max (labels j ls) = j + length ls - 1.
  Proof.
    induction ls as [|l ls IH]; intros j N L; [congruence|]. cbn [labels]. rewrite list_max_app.
    assert (R : forall n, list_max (repeat j n) <= j).
    { intros n. apply list_max_le. apply Forall_forall. intros x I. apply repeat_spec in I. lia. }
    destruct ls as [|l' ls].
    - simpl in *. destruct l; [congruence|]. simpl. specialize (R (length l)). lia.
    - rewrite IH by (try discriminate; exact L). specialize (R (length l)). cbn [length]. lia.
  Qed.

  Context (coplanar : list P -> bool).

  Lemma accepted_new p : accepted coplanar p -> new_polygon coplanar p = Ok p.
  Proof.
    intros (C & L & N). unfold new_polygon. rewrite C. simpl.
    destruct (Nat.ltb_spec (length (fst p)) 3); [lia|]. destruct (snd p); [congruence|auto].
  Qed.

  Lemma labels_nil_tail {A} (ls : list (list A)) n : forall j, labels j (ls ++ repeat [] n) = labels j ls.
  Proof.
    intros j. rewrite labels_app. assert (E : forall k, labels k (repeat (@nil A) n) = []).
    { induction n; intros; simpl; auto. } rewrite E, app_nil_r. auto.
  Qed.

  Lemma concat_nil_tail {A} (ls : list (list A)) n : concat (ls ++ repeat [] n) = concat ls.
  Proof. rewrite concat_app. assert (E : concat (repeat (@nil A) n) = []) by (induction n; auto). rewrite E, app_nil_r. auto. Qed.

  Lemma array_roundtrip b n : b <> [] -> last b [] <> [] ->
    (forall p, In p (all_polys b) -> accepted coplanar p /\ valid p /\ all_used p) ->
    (do a <- to_array_format zero (b ++ repeat [] n); from_array_format coplanar a) = Ok b.
  Proof.
    intros N L G. rewrite to_array_spec. cbn [rbind]. unfold from_array_format, flat_arrays.
    assert (E : all_solids (b ++ repeat [] n) = all_solids b) by apply concat_nil_tail.
    unfold all_polys, all_walls in *. rewrite E, labels_nil_tail. clear E. unfold all_solids in *.
    cbn [a_points a_faces a_polygons a_walls a_solids a_zones].
    assert (Z : max_plus_one (labels 0 b) = Ok (length b)).
    { unfold max_plus_one. destruct (labels 0 b) eqn:El.
      - exfalso. assert (length (concat b) = 0) by (rewrite <- (labels_length b 0), El; auto).
        destruct (exists_last N) as (b' & z & ->). rewrite last_last in L. rewrite concat_app, app_length in H.
        simpl in H. destruct z; [congruence|]. simpl in H. lia.
      - rewrite <- El, list_max_labels by auto. destruct b; [congruence|simpl; f_equal; lia]. }
    rewrite Z. cbn [rbind]. rewrite !labels_length.
    rewrite (mapM_seq_nth _ (concat (concat (concat b))) 0).
    2:{ intros k p Hk. cbn [plus]. destruct (G p (nth_error_In _ _ Hk)) as (A & V & U).
        rewrite (read_polygon _ k p Hk V U). cbn [rbind]. apply accepted_new; auto. }
    cbn [rbind]. rewrite (mapM_seq_nth _ (concat (concat b)) 0) by (intros; apply pick_groups; auto).
    cbn [rbind]. rewrite (mapM_seq_nth _ (concat b) 0) by (intros; apply pick_groups; auto).
    cbn [rbind]. rewrite (mapM_seq_nth _ b 0) by (intros; apply pick_groups; auto). auto.
  Qed.

  Lemma no_solids_error b : all_solids b = [] ->
    (do a <- to_array_format zero b; from_array_format coplanar a) = Err ValueError.
  Proof.
    intros N. rewrite to_array_spec. cbn [rbind]. unfold from_array_format, flat_arrays.
    cbn [a_zones]. assert (E : labels 0 b = []).
    { apply length_zero_iff_nil. rewrite labels_length. unfold all_solids in N. rewrite N. auto. }
    rewrite E. auto.
  Qed.

  Lemma labels_bound {A} (ls : list (list A)) x : forall j, In x (labels j ls) -> j <= x < j + length ls.
  Proof.
    induction ls as [|l ls IH]; intros j I; simpl in *; [destruct I|]. apply in_app_iff in I.
    destruct I as [I|I]; [apply repeat_spec in I; lia|]. apply IH in I. lia.
  Qed.

  Lemma offset_firstn (ps : list (mesh (P := P))) : forall k, offset k ps = length (concat (map fst (firstn k ps))).
  Proof.
    induction ps as [|p ps IH]; intros [|k]; simpl; auto. rewrite IH, app_length. auto.
  Qed.

  Lemma array_faithful b : exists a, to_array_format zero b = Ok a /\
    a_points a = concat (map fst (all_polys b)) /\
    length (a_faces a) = length (concat (map snd (all_polys b))) /\
    length (a_polygons a) = length (a_faces a) /\
    length (a_walls a) = length (all_polys b) /\
    length (a_solids a) = length (all_walls b) /\
    length (a_zones a) = length (all_solids b) /\
    (forall x, In x (a_polygons a) -> x < length (all_polys b)) /\
    (forall x, In x (a_walls a) -> x < length (all_walls b)) /\
    (forall x, In x (a_solids a) -> x < length (all_solids b)) /\
    (forall x, In x (a_zones a) -> x < length b) /\
    (forall k p, nth_error (all_polys b) k = Some p ->
       labelled (a_polygons a) (a_faces a) k =
         map (shift_face (length (concat (map fst (firstn k (all_polys b)))))) (snd p)) /\
    (forall k w, nth_error (all_walls b) k = Some w -> labelled (a_walls a) (all_polys b) k = w) /\
    (forall k s, nth_error (all_solids b) k = Some s -> labelled (a_solids a) (all_walls b) k = s) /\
    (forall k z, nth_error b k = Some z -> labelled (a_zones a) (all_solids b) k = z).
  Proof.
    exists (flat_arrays b). split; [apply to_array_spec|]. unfold flat_arrays.
    cbn [a_points a_faces a_polygons a_walls a_solids a_zones].
    assert (G : forall A (ls : list (list A)) k x, nth_error ls k = Some x -> labelled (labels 0 ls) (concat ls) k = x).
    { intros A ls k x N. rewrite labelled_groups. simpl. rewrite Nat.sub_0_r. apply nth_error_nth; auto. }
    rewrite !labels_length.
    split; [auto|]. split.
    { rewrite shifted_length, <- labels_total with (k := 0), labels_length. auto. }
    split; [rewrite shifted_length, <- labels_total with (k := 0), labels_length; auto|].
    split; [auto|]. split; [auto|]. split; [auto|].
    split; [intros x I; apply labels_bound in I; rewrite map_length in I; exact (proj2 I)|].
    split; [intros x I; apply labels_bound in I; exact (proj2 I)|].
    split; [intros x I; apply labels_bound in I; exact (proj2 I)|].
    split; [intros x I; apply labels_bound in I; exact (proj2 I)|].
    split; [|split; [|split]; intros; apply G; auto].
    intros k p N. pose proof (labelled_shifted (all_polys b) 0 0 k) as E. simpl in E. rewrite N in E.
    rewrite E, offset_firstn. auto.
  Qed.

  Lemma array_coordinates b a : to_array_format zero b = Ok a -> Forall valid (all_polys b) ->
    forall k p, nth_error (all_polys b) k = Some p ->
      map (coords (a_points a)) (labelled (a_polygons a) (a_faces a) k) = soup p.
  Proof.
    intros E V k p N. rewrite to_array_spec in E. inversion E; subst. apply (faces_of_polygon (all_polys b) k p V N).
  Qed.

  Lemma vstack_ok objs : no_gap (map (fun o => length (fst o)) objs) ->
    no_gap (map (fun o => length (snd o)) objs) -> Forall valid objs ->
    exists m, vstack_mesh zero objs = Ok m /\ fst m = concat (map fst objs) /\
      soup m = concat (map (soup (P := P)) objs).
  Proof.
    intros G1 G2 V. pose proof (vstack_spec objs G1 G2) as E. eexists. split; [exact E|].
    destruct (vstack_soup objs _ E G1 G2 V) as (A & B & _). auto.
  Qed.

  Lemma mesh_levels :
    (forall w, nonempty_wall w -> exists m, wall_mesh zero w = Ok m /\
       fst m = concat (map fst w) /\ soup m = concat (map (soup (P := P)) w)) /\
    (forall s, nonempty_solid s -> exists m, solid_mesh zero s = Ok m /\
       fst m = concat (map fst (concat s)) /\ soup m = concat (map (soup (P := P)) (concat s))) /\
    (forall z, nonempty_zone z -> exists m, zone_mesh zero z = Ok m /\
       fst m = concat (map fst (concat (concat z))) /\ soup m = concat (map (soup (P := P)) (concat (concat z)))) /\
    (forall b, nonempty_building b -> exists m, building_mesh zero b = Ok m /\
       fst m = concat (map fst (all_polys b)) /\ soup m = concat (map (soup (P := P)) (all_polys b))).
  Proof.
    split; [|split; [|split]]; intros x N.
    - destruct (wall_mesh_good x N) as (m & E & _ & A); eauto.
    - destruct (solid_mesh_good x N) as (m & E & _ & A); eauto.
    - destruct (zone_mesh_good x N) as (m & E & _ & A); eauto.
    - destruct (building_mesh_good x N) as (m & E & _ & A); eauto.
  Qed.

  (** What is read consists of accepted polygons only. *)
  Lemma mapM_in {A B} (f : A -> result B) l : forall r y, mapM f l = Ok r -> In y r -> exists x, In x l /\ f x = Ok y.
  Proof.
    induction l as [|a l IH]; intros r y E I; simpl in E; [inversion E; subst; destruct I|].
    destruct (f a) as [b|] eqn:Ea; [|discriminate]. cbn [rbind] in E. destruct (mapM f l) as [r'|] eqn:El; [|discriminate].
    cbn [rbind] in E. inversion E; subst. destruct I as [<-|I]; [exists a; simpl; auto|].
    destruct (IH r' y eq_refl I) as (x & Ix & Ex). exists x; simpl; auto.
  Qed.
  Lemma pick_in {A} (xs : list A) : forall labels k r y, pick xs labels k = Ok r -> In y r -> In y xs.
  Proof.
    induction xs as [|x xs IH]; intros [|l labels] k r y E I; simpl in E; try discriminate; try (inversion E; subst; destruct I; fail).
    destruct (pick xs labels k) as [r'|] eqn:Ep; [|discriminate]. cbn [rbind] in E. inversion E; subst.
    destruct (l =? k); [destruct I as [<-|I]; [left; auto|]|]; right; eapply IH; eauto.
  Qed.
  Lemma new_accepted p q : new_polygon coplanar p = Ok q -> accepted coplanar q.
  Proof.
    unfold new_polygon. destruct (coplanar (fst p)) eqn:C; [|discriminate]. simpl.
    destruct (Nat.ltb_spec (length (fst p)) 3); [discriminate|]. destruct (Nat.eqb_spec (length (snd p)) 0); [discriminate|].
    intros E. inversion E; subst. split; auto. split; auto. destruct (snd q); [contradiction|discriminate].
  Qed.
  Lemma read_accepted a b : from_array_format coplanar a = Ok b -> forall p, In p (all_polys b) -> accepted coplanar p.
  Proof.
    unfold from_array_format. destruct (max_plus_one (a_zones a)) as [n|]; [|discriminate]. cbn [rbind].
    destruct (mapM _ (seq 0 (length (a_walls a)))) as [ps|] eqn:Ep; [|discriminate]. cbn [rbind].
    destruct (mapM _ (seq 0 (length (a_solids a)))) as [ws|] eqn:Ew; [|discriminate]. cbn [rbind].
    destruct (mapM _ (seq 0 (length (a_zones a)))) as [ss|] eqn:Es; [|discriminate]. cbn [rbind]. intros Ez p I.
    unfold all_polys, all_walls, all_solids in I. apply in_concat in I. destruct I as (w & Iw & Ip). apply in_concat in Iw. destruct Iw as (s & Is & Iw).
    apply in_concat in Is. destruct Is as (z & Iz & Is).
    destruct (mapM_in _ _ _ _ Ez Iz) as (iz & _ & Fz). pose proof (pick_in _ _ _ _ _ Fz Is) as Is'.
    destruct (mapM_in _ _ _ _ Es Is') as (i1 & _ & Fs). pose proof (pick_in _ _ _ _ _ Fs Iw) as Iw'.
    destruct (mapM_in _ _ _ _ Ew Iw') as (i2 & _ & Fw). pose proof (pick_in _ _ _ _ _ Fw Ip) as Ip'.
    destruct (mapM_in _ _ _ _ Ep Ip') as (i3 & _ & Fp). destruct (get_polygon_points_and_faces _ _ _ _) as [m|]; [|discriminate].
    cbn [rbind] in Fp. eapply new_accepted; eauto.
  Qed.

  (** Corners outside the array of points. *)
  Lemma lookup_rows_fail {A} (l : list A) idx : (exists i, In i idx /\ length l <= i) -> mapM (lookup_row l) idx = Err IndexError.
  Proof.
    induction idx as [|j idx IH]; intros (i & I & L); [destruct I|]. cbn [mapM]. unfold lookup_row at 1. destruct (nth_error l j) as [x|] eqn:N; [|reflexivity].
    cbn [rbind]. destruct I as [->|I]; [apply nth_error_None in L; congruence|]. rewrite IH by eauto. reflexivity.
  Qed.

  Lemma positions_in p l k : forall i, nth_error l i = Some k -> In (p + i) (positions p l k).
  Proof.
    revert p. induction l as [|y l IH]; intros p [|i] N; try discriminate; cbn [nth_error positions] in *.
    - injection N as ->. rewrite Nat.eqb_refl, Nat.add_0_r. left. auto.
    - specialize (IH (S p) i N). replace (p + S i) with (S p + i) by lia. destruct (Nat.eqb _ _); [right|]; auto.
  Qed.

  Lemma corner_out_of_range (points : list P) faces polygons k i f c : nth_error polygons i = Some k -> nth_error faces i = Some f -> In c (face_corners f) -> length points <= c ->
    get_polygon_points_and_faces points faces polygons k = Err IndexError.
  Proof.
    intros Np Nf Ic L. unfold get_polygon_points_and_faces. rewrite lookup_rows_fail; [reflexivity|]. exists c. split; auto.
    apply (proj2 (fold_insert _ [] I)). left. apply in_flat_map. exists f. split; auto. apply in_map_iff. exists (i, f). split; auto. apply filter_In. split.
    - apply nth_error_In with i. assert (E : i < length faces) by (apply nth_error_Some; congruence). clear - Nf E. assert (G : forall a, nth_error (combine (seq a (length faces)) faces) i = Some (a + i, f)); [|apply (G 0)].
      revert i Nf E. induction faces as [|g faces IH]; intros [|i] Nf E a; try discriminate; cbn [length seq combine nth_error] in *; [injection Nf as ->; rewrite Nat.add_0_r; auto|]. rewrite IH by (auto; lia). do 2 f_equal. lia.
    - apply existsb_exists. exists i. split; [apply (positions_in 0 _ _ _ Np)|apply Nat.eqb_refl].
  Qed.

  (** Decision procedures, used for the concrete instances. *)
  Lemma valid_check (m : mesh (P := P)) :
    forallb (fun f => forallb (fun i => i <? length (fst m)) (face_corners f)) (snd m) = true -> valid m.
  Proof.
    intros H f i I J. rewrite forallb_forall in H. specialize (H f I). rewrite forallb_forall in H.
    specialize (H i J). apply Nat.ltb_lt. auto.
  Qed.

  Lemma used_check (m : mesh (P := P)) :
    forallb (fun i => existsb (fun f => existsb (Nat.eqb i) (face_corners f)) (snd m)) (seq 0 (length (fst m))) = true ->
    all_used m.
  Proof.
    intros H i L. rewrite forallb_forall in H. specialize (H i). rewrite in_seq in H. specialize (H ltac:(lia)).
    apply existsb_exists in H. destruct H as (f & If & E). apply existsb_exists in E. destruct E as (j & Ij & E).
    apply Nat.eqb_eq in E. subst. eauto.
  Qed.
End P.
