(** Triangulation of a polygon: an example. *)
From Coq Require Import ZArith Reals List Bool Arith Lia Lra.
From Verif Require Import Prelude UtilModel TreeModel MeshModel VecModel VecProofs VoxModel GeomModel GeomSpec GeomProofs1 GeomProofs2 GeomProofs3 GeomProofs5 TriModel PolyModel PolySpec PolyProofs2 SliceProofs4 CrossSpec CrossProofs1 AdjSpec AdjProofs1 MshProofs6 StatModel TriaModel TriaSpec TriaProofs TriaProofs2 TriaProofs3 TriaProofs4.
Import ListNotations.
Local Open Scope R_scope.

Definition equal_points (p q : vec) : bool := Reqb (vx p) (vx q) && Reqb (vy p) (vy q) && Reqb (vz p) (vz q).
Lemma equal_points_spec p q : equal_points p q = true <-> p = q.
Proof.
  unfold equal_points. rewrite !andb_true_iff, !Reqb_true. destruct p as [a b c], q as [a' b' c']. cbn [vx vy vz]. split; [intros ((-> & ->) & ->); auto|intros E; injection E; auto].
Qed.
Definition all_in (e l : list vec) : bool := forallb (fun p => existsb (equal_points p) l) e.
Definition no_edge_points (l : list vec) (d : R) (fx : list vec) : result (list vec) := Ok [].
Definition three_around (n : nat) (l : list (R * R)) : result (list itri) := Ok [(0, 3, 1); (0, 2, 3); (2, 1, 3)]%nat.
Definition no_jog (n i j : nat) : R * R := (1 / 2, 1 / 2).
(** A triangle seen from below, with a fixed point inside. *)
Definition below : list (Z * Z * Z) := [(0, 0, 0); (0, 18, 0); (18, 0, 0)]%Z.
Definition middle : Z * Z * Z := (6, 6, 0)%Z.
Lemma down1 : zdot (0, 0, -1)%Z (0, 0, -1)%Z = 1%Z.
Proof. reflexivity. Qed.
Lemma below_made : exists p, make_polygon (map at3 below) None None = Ok p /\ p_pts p = map at3 below /\ p_vn p = V 0 0 (-1) /\ p_tri p = [(2, 0, 1)]%nat.
Proof.
  destruct (zmake_spec below below [(2, 0, 1)]%nat (0, 0, -1)%Z) as (_ & p & M & E1 & E2 & E3); [vm_compute; reflexivity|]. exists p. auto.
Qed.
Lemma arange_none a : arange (a + 18) (a + 18) 18 = [].
Proof. destruct (arange (a + 18) (a + 18) 18) as [|x l] eqn:E; auto. assert (N : nth_error (arange (a + 18) (a + 18) 18) 0 = Some x) by (rewrite E; auto). apply arange_nth in N; [|lra]. cbn [INR] in N. lra. Qed.
Lemma below_meshed poly : make_polygon (map at3 below) None None = Ok poly -> 
  delaunay_triangulation equal_points all_in no_edge_points three_around no_jog 1 poly 18 [at3 middle] =
    Ok (map at3 (below ++ [middle]), [(0, 1, 3); (0, 3, 2); (2, 3, 1)]%nat).
Proof.
  intros Mk. destruct below_made as (p & Mk' & Ep & En & Et). rewrite Mk in Mk'. injection Mk' as <-.
  assert (N : normal (at3 (18, 0, 0)%Z) (at3 (0, 0, 0)%Z) (at3 (0, 18, 0)%Z) = Some (V 0 0 (-1))).
  { apply (normal_parallel _ _ _ _ 324); [unfold unit, dot; cbn [vx vy vz]; ring|lra|]. unfold at3, cross, vsub, smul. cbn [vx vy vz]. f_equal; ring. }
  assert (Ro : rotate_points_to_plane (p_pts poly) vzero (V 0 0 1) 0 = Ok (map at3 below, cross (V 0 0 (-1)) (V 0 0 1), 0)).
  { rewrite Ep, (to_plane_parallel (map at3 below) vzero (V 0 0 1) 0 (at3 (18, 0, 0)%Z) (at3 (0, 0, 0)%Z) (at3 (0, 18, 0)%Z) (V 0 0 (-1))); [|reflexivity|exact N|].
    - f_equal. f_equal. f_equal. assert (Az : anchor_used vzero = vzero) by (unfold anchor_used; destruct (points_equal vzero vzero); auto). rewrite Az. rewrite map_map. apply map_ext. intros ((x, y), z). unfold at3, vsub, vzero. cbn [vx vy vz]. f_equal; ring.
    - unfold cross. cbn [vx vy vz]. repeat split; (match goal with |- Rabs ?x < _ => replace x with 0 by ring end); rewrite Rabs_R0; lra. }
  unfold delaunay_triangulation. rewrite Ro. cbn [rbind]. change (at_index (map at3 below) 0) with (Ok (at3 (0, 0, 0)%Z)). cbn [rbind].
  change (vz (at3 (0, 0, 0)%Z)) with 0. assert (Ec : map (flat 0) (map at3 below) = map at3 below) by reflexivity. rewrite Ec, Mk. cbn [rbind].
  rewrite (rotate_around_small [at3 middle]) by (left; rewrite Rabs_R0; lra). cbn [rbind fst].
  assert (P : mesh_pass equal_points all_in no_edge_points three_around no_jog 0 poly (map at3 below) [at3 middle] 18 0 (map at3 below) = Ok (map at3 (below ++ [middle]), [(0, 3, 1); (0, 2, 3); (2, 1, 3)]%nat, true)).
  { unfold mesh_pass, no_edge_points. cbn [rbind]. rewrite app_nil_r.
    assert (Sp : forall c, In c [vx; vy] -> lmin (map c (map at3 below)) = Ok 0 /\ lmax (map c (map at3 below)) = Ok 18).
    { intros c I. split; [apply lmin_spec|apply lmax_spec]; (destruct I as [<-|[<-|[]]]; cbn [below map at3 vx vy]; (split; [cbn; tauto|intros y [<-|[<-|[<-|[]]]]; lra])). }
    destruct (Sp vx ltac:(cbn; auto)) as (-> & ->), (Sp vy ltac:(cbn; auto)) as (-> & ->). cbn [rbind]. rewrite (proj2 (Reqb_false 18 0)) by lra.
    replace (arange (0 + 18) 18 18) with (@nil R) by (rewrite <- (arange_none 0) at 1; f_equal; ring). cbn [grid_points enumerate length seq combine mapM rbind concat app].
    unfold grid_points. cbn [enumerate length seq combine mapM rbind concat]. unfold three_around at 1. cbn [rbind]. change ([] ++ [at3 middle]) with [at3 middle]. 
    assert (Va : exists d, vertex_areas (map at3 below ++ [at3 middle]) [(0, 3, 1); (0, 2, 3); (2, 1, 3)]%nat = Ok d).
    { apply vertex_areas_ok. intros t [<-|[<-|[<-|[]]]]; cbn [tri_verts]; [exists (at3 (0, 0, 0)%Z, at3 middle, at3 (0, 18, 0)%Z)|exists (at3 (0, 0, 0)%Z, at3 (18, 0, 0)%Z, at3 middle)|exists (at3 (18, 0, 0)%Z, at3 (0, 18, 0)%Z, at3 middle)]; repeat split. }
    destruct Va as (d & Va). rewrite Va. cbn [rbind].
    assert (K : mapM (keep_vertex equal_points (minimum_triangle_area 18) d [(0, 3, 1); (0, 2, 3); (2, 1, 3)]%nat [at3 middle] [] (map at3 below)) (enumerate (map at3 below ++ [at3 middle])) =
      Ok [[at3 (0, 0, 0)%Z]; [at3 (0, 18, 0)%Z]; [at3 (18, 0, 0)%Z]; [at3 middle]]).
    { apply mapM_Forall2. assert (Kv : forall i q, In i [0; 1; 2; 3]%nat -> (pt_in equal_points q [at3 middle] = true \/ pt_in equal_points q (map at3 below) = true) ->
        keep_vertex equal_points (minimum_triangle_area 18) d [(0, 3, 1); (0, 2, 3); (2, 1, 3)]%nat [at3 middle] [] (map at3 below) (i, q) = Ok [q]).
      { intros i q I O. unfold keep_vertex. assert (U : used [(0, 3, 1); (0, 2, 3); (2, 1, 3)]%nat i).
        { destruct I as [<-|[<-|[<-|[<-|[]]]]]; [exists (0, 3, 1)%nat|exists (0, 3, 1)%nat|exists (0, 2, 3)%nat|exists (0, 3, 1)%nat]; cbn; tauto. }
        destruct (areas_used _ _ _ _ Va U) as (a & ->). apply in_indices, memb_true in U. rewrite U. destruct O as [-> | ->]; rewrite ?orb_true_r; auto. }
      assert (Pi : forall q l, In q l -> pt_in equal_points q l = true) by (intros q l I; apply existsb_exists; exists q; split; auto; apply equal_points_spec; auto).
      change (enumerate (map at3 below ++ [at3 middle])) with [(0%nat, at3 (0, 0, 0)%Z); (1%nat, at3 (0, 18, 0)%Z); (2%nat, at3 (18, 0, 0)%Z); (3%nat, at3 middle)].
      repeat constructor; apply Kv; try (cbn [In]; tauto); [right|right|right|left]; apply Pi; cbn [In map below]; tauto. }
    rewrite K. cbn [rbind concat app]. unfold three_around. cbn [rbind]. change (length (nodup Nat.eq_dec (indices [(0, 3, 1); (0, 2, 3); (2, 1, 3)]%nat)) =? length [at3 (0, 0, 0)%Z; at3 (0, 18, 0)%Z; at3 (18, 0, 0)%Z; at3 middle])%nat with true. cbn [rbind].
    change (map at3 (below ++ [middle])) with [at3 (0, 0, 0)%Z; at3 (0, 18, 0)%Z; at3 (18, 0, 0)%Z; at3 middle]. do 2 f_equal. cbn [forallb]. rewrite andb_true_r. apply andb_true_iff. split; [|reflexivity].
    apply existsb_exists. exists (at3 middle). split; [cbn; tauto|apply equal_points_spec; auto]. }
  cbn [mesh_loop]. rewrite P. cbn [rbind fst snd]. rewrite rotate_around_small by (left; rewrite Ropp_0, Rabs_R0; lra). cbn [rbind fst].
  set (vs := map at3 (below ++ [middle])). assert (Kf : mapM (keep_face poly vs) [(0, 3, 1); (0, 2, 3); (2, 1, 3)]%nat = Ok [[(0, 3, 1)]; [(0, 2, 3)]; [(2, 1, 3)]]%nat).
  { assert (Ka : forall t a b c x, tri_pts vs t = Ok (a, b, c) -> triangle_centroid a b c = at3 x -> zinside (0, 0, -1)%Z x below [(2, 0, 1)]%nat = Ok true -> keep_face poly vs t = Ok [t]).
    { intros t a b c x T C Z. unfold keep_face. rewrite T. cbn [rbind]. rewrite C, Ep, Et, (z_inside (0, 0, -1)%Z down1 x below _ true Z). reflexivity. }
    apply mapM_Forall2. constructor; [|constructor; [|constructor; [|constructor]]].
    - apply (Ka _ (at3 (0, 0, 0)%Z) (at3 middle) (at3 (0, 18, 0)%Z) (2, 8, 0)%Z); [reflexivity| |vm_compute; reflexivity]. unfold triangle_centroid, middle, at3, vdiv, vadd. cbn [vx vy vz]. f_equal; field.
    - apply (Ka _ (at3 (0, 0, 0)%Z) (at3 (18, 0, 0)%Z) (at3 middle) (8, 2, 0)%Z); [reflexivity| |vm_compute; reflexivity]. unfold triangle_centroid, middle, at3, vdiv, vadd. cbn [vx vy vz]. f_equal; field.
    - apply (Ka _ (at3 (18, 0, 0)%Z) (at3 (0, 18, 0)%Z) (at3 middle) (8, 8, 0)%Z); [reflexivity| |vm_compute; reflexivity]. unfold triangle_centroid, middle, at3, vdiv, vadd. cbn [vx vy vz]. f_equal; field. }
  rewrite Kf. cbn [rbind concat app].
  assert (Cl : forall at_, 0 <= at_ -> allclose (V 0 0 (-1)) (p_vn poly) RTOL at_ = true).
  { intros at_ P0. apply allclose_close. rewrite En. intros c _. replace (c (V 0 0 (-1)) - c (V 0 0 (-1))) with 0 by ring. rewrite Rabs_R0. pose proof (Rabs_pos (c (V 0 0 (-1)))). lra. }
  assert (Vo : vopp (V 0 0 1) = V 0 0 (-1)) by (unfold vopp, smul; cbn [vx vy vz]; f_equal; ring).
  assert (Tf : mapM (turn_face poly vs) [(0, 3, 1); (0, 2, 3); (2, 1, 3)]%nat = Ok [(0, 1, 3); (0, 3, 2); (2, 3, 1)]%nat).
  { assert (Ta : forall i j k a b c, tri_pts vs (i, j, k) = Ok (a, b, c) -> cross (vsub b a) (vsub c a) = smul 108 (V 0 0 1) -> turn_face poly vs (i, j, k) = Ok (i, k, j)).
    { intros i j k a b c T C. unfold turn_face. rewrite T. cbn [rbind]. rewrite (normal_parallel a b c (V 0 0 1) 108); [|unfold unit, dot; cbn [vx vy vz]; ring|lra|auto]. rewrite Vo, Cl by (unfold ATOL8; lra). reflexivity. }
    apply mapM_Forall2. constructor; [|constructor; [|constructor; [|constructor]]].
    - apply (Ta _ _ _ (at3 (0, 0, 0)%Z) (at3 middle) (at3 (0, 18, 0)%Z)); [reflexivity|]. unfold middle, at3, cross, vsub, smul. cbn [vx vy vz]. f_equal; ring.
    - apply (Ta _ _ _ (at3 (0, 0, 0)%Z) (at3 (18, 0, 0)%Z) (at3 middle)); [reflexivity|]. unfold middle, at3, cross, vsub, smul. cbn [vx vy vz]. f_equal; ring.
    - apply (Ta _ _ _ (at3 (18, 0, 0)%Z) (at3 (0, 18, 0)%Z) (at3 middle)); [reflexivity|]. unfold middle, at3, cross, vsub, smul. cbn [vx vy vz]. f_equal; ring. }
  rewrite Tf. cbn [rbind]. change (at_index [(0, 1, 3); (0, 3, 2); (2, 3, 1)]%nat 0) with (Ok (0, 1, 3)%nat). cbn [rbind].
  change (tri_pts vs (0, 1, 3)%nat) with (Ok (at3 (0, 0, 0)%Z, at3 (0, 18, 0)%Z, at3 middle)). cbn [rbind].
  rewrite (normal_parallel _ _ _ (V 0 0 (-1)) 108); [rewrite Cl by (unfold GEOM_ATOL; lra); reflexivity|unfold unit, dot; cbn [vx vy vz]; ring|lra|]. unfold middle, at3, cross, vsub, smul. cbn [vx vy vz]. f_equal; ring.
Qed.
