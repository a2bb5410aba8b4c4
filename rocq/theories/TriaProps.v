(** Theorems C114-C116: triangulation of a polygon. *)
From Coq Require Import ZArith Reals List Bool Arith Lia Lra.
From Verif Require Import Prelude UtilModel TreeModel MeshModel VecModel VecProofs VoxModel GeomModel GeomSpec GeomProofs1 TriModel PolyModel PolySpec AdjSpec StatModel TriaModel TriaSpec TriaProofs TriaProofs2 TriaProofs3 TriaProofs4 TriaProofs5.
Import ListNotations.
Local Open Scope R_scope.

Section Tria.
  Context (same : vec -> vec -> bool) (in_set : list vec -> list vec -> bool).
  Context (between : list vec -> R -> list vec -> result (list vec)).
  Context (delaunay : nat -> list (R * R) -> result (list itri)) (jog : nat -> nat -> nat -> R * R).
  Notation tria := (delaunay_triangulation same in_set between delaunay jog).

  (** C114: what is computed.  The polygon is rotated to the xy plane and given
      one height; rounds are repeated until one is good; its points are rotated
      back.  The faces are the triangles whose centre is in the polygon, in
      order, reversed if they face the other way. *)
Theorem C114_computes fuel poly delta fixed vs fs : 0 < delta -> tria fuel poly delta fixed = Ok (vs, fs) ->
    exists f g p0 p1 r n poly2 final ts k kept,
      p_pts poly = p0 :: p1 :: r /\ normal (last (p_pts poly) p0) p0 p1 = Some n /\
      is_rotation f /\ is_rotation g /\ inverses f g /\
      (f n = ez1 \/ ((forall v, f v = v) /\ Rabs (vx n) < 1 / 10000000000000 /\ Rabs (vy n) < 1 / 10000000000000)) /\
      let z := vz (f p0) in
      let corners := map (fun p => V (vx (f p)) (vy (f p)) z) (p_pts poly) in
      make_polygon corners None None = Ok poly2 /\ (k <= fuel)%nat /\
      rounds same in_set between delaunay jog poly2 corners (map f fixed) delta z 0 k corners final ts /\ vs = map g final /\
      selected (has_centroid_in poly vs) ts kept /\ Forall2 (turned vs (p_vn poly)) kept fs /\
      exists t0 fs' a b c n0, fs = t0 :: fs' /\ tri_verts vs t0 (a, b, c) /\ normal a b c = Some n0 /\ close_to (1 / 10000000000000) n0 (p_vn poly).
Proof. exact (tria_spec same in_set between delaunay jog fuel poly delta fixed vs fs). Qed.
  (** Every vertex is a corner, a fixed point, one of the points put on edges,
      or a point at least half a step from the fixed points and inside the
      polygon by half a step. *)
Theorem C114_vertices fuel poly delta fixed vs fs : 0 < delta -> tria fuel poly delta fixed = Ok (vs, fs) ->
    exists f g p0 r n p1 poly2, p_pts poly = p0 :: r /\ is_rotation f /\ is_rotation g /\ inverses f g /\ normal (last (p_pts poly) p0) p0 p1 = Some n /\
      let z := vz (f p0) in let corners := map (fun p => V (vx (f p)) (vy (f p)) z) (p_pts poly) in
      make_polygon corners None None = Ok poly2 /\ forall v, In v vs -> origin between poly2 corners (map f fixed) delta z (f v).
Proof. exact (vertices_from same in_set between delaunay jog fuel poly delta fixed vs fs). Qed.
  (** Every fixed point is a vertex, up to the tolerance of equality. *)
Theorem C114_fixed fuel poly delta fixed vs fs tol : 0 < delta -> (forall p q, same p q = true -> dist p q <= tol) ->
    tria fuel poly delta fixed = Ok (vs, fs) -> forall q, In q fixed -> exists v, In v vs /\ dist q v <= tol.
Proof. exact (fixed_kept same in_set between delaunay jog fuel poly delta fixed vs fs tol). Qed.
  (** Every vertex belongs to a triangle of the last triangulation, and every
      face is one of these triangles or its reversal. *)
Theorem C114_all_used fuel poly delta fixed vs fs : 0 < delta -> (forall n l ts i, delaunay n l = Ok ts -> used ts i -> (i < length l)%nat) -> tria fuel poly delta fixed = Ok (vs, fs) ->
    exists f k l ts, delaunay k l = Ok ts /\ (exists j, k = 2 * j + 1)%nat /\ length l = length vs /\ (forall i, used ts i <-> (i < length vs)%nat) /\ (forall t, In t fs -> In t ts \/ In (reversed t) ts) /\
      is_rotation f /\ l = coords (map f vs).
Proof. exact (all_used same in_set between delaunay jog fuel poly delta fixed vs fs). Qed.

  (** C115: if the fixed points lie in the plane of the first corner, so do all
      vertices, and all faces that have a normal have the same one, which is that
      of the plane up to its sign and close to that of the polygon. *)
Theorem C115_oriented fuel poly delta fixed vs fs : 0 < delta -> level between -> tria fuel poly delta fixed = Ok (vs, fs) ->
    exists p0 p1 r n m n0, p_pts poly = p0 :: p1 :: r /\ normal (last (p_pts poly) p0) p0 p1 = Some n /\ unit m /\
      (m = n \/ (m = ez1 /\ Rabs (vx n) < 1 / 10000000000000 /\ Rabs (vy n) < 1 / 10000000000000)) /\
      ((forall q, In q fixed -> dot m q = dot m p0) -> (forall v, In v vs -> dot m v = dot m p0) /\
        (n0 = m \/ n0 = vopp m) /\ close_to (1 / 10000000000000) n0 (p_vn poly) /\
        forall t a b c n', In t fs -> tri_verts vs t (a, b, c) -> normal a b c = Some n' -> n' = n0).
Proof. exact (oriented same in_set between delaunay jog fuel poly delta fixed vs fs). Qed.

  (** C116: more rounds allowed change nothing once it succeeds; one round is
      enough if scipy uses every point or one equal to it. *)
Theorem C116_fuel fuel k poly delta fixed r : tria fuel poly delta fixed = Ok r -> tria (fuel + k) poly delta fixed = Ok r.
Proof. exact (tria_more same in_set between delaunay jog fuel k poly delta fixed r). Qed.
Theorem C116_one_round n poly delta fixed : 0 < delta -> (forall l ts, delaunay 0 (coords l) = Ok ts -> uses_all same l ts) ->
    (forall e l, (forall p, In p e -> among same p l) -> in_set e l = true) -> tria (S n) poly delta fixed = tria 1 poly delta fixed.
Proof. exact (tria_one same in_set between delaunay jog n poly delta fixed). Qed.
  (** A round raises nothing if the two triangulations succeed and the second
      uses all points. *)
Theorem C116_round_runs pass poly2 corners fixed delta z pts edge : 0 < delta -> pts <> [] -> between pts delta fixed = Ok edge -> make_polygon corners None None = Ok poly2 ->
    (forall l, exists ts, delaunay (2 * pass) (coords l) = Ok ts /\ forall t, In t ts -> exists q, tri_verts l t q) ->
    (forall l, exists ts, delaunay (2 * pass + 1) (coords l) = Ok ts /\ forall i, used ts i <-> (i < length l)%nat) ->
    exists final ts ok, mesh_pass same in_set between delaunay jog pass poly2 corners fixed delta z pts = Ok (final, ts, ok).
Proof. exact (round_runs same in_set between delaunay jog pass poly2 corners fixed delta z pts edge). Qed.
  (** After the loop: IndexError if no face is left, MeshError if the first face
      has no normal or not that of the polygon, otherwise success. *)
Theorem C116_end fuel poly delta fixed pxy ax phi p0 poly2 fx final ts back :
    rotate_points_to_plane (p_pts poly) vzero (V 0 0 1) 0 = Ok (pxy, ax, phi) -> nth_error pxy 0 = Some p0 ->
    make_polygon (map (flat (vz p0)) pxy) None None = Ok poly2 -> proper poly ->
    rotate_points_around_vector fixed ax phi = Ok fx ->
    mesh_loop same in_set between delaunay jog fuel 0 poly2 (map (flat (vz p0)) pxy) (fst fx) delta (vz p0) (map (flat (vz p0)) pxy) = Ok (final, ts) ->
    rotate_points_around_vector final ax (- phi) = Ok back ->
    (forall t, In t ts -> exists q, tri_verts (fst back) t q) ->
    let vs := fst back in exists kept fs, selected (has_centroid_in poly vs) ts kept /\ Forall2 (turned vs (p_vn poly)) kept fs /\
      ((fs = [] /\ tria fuel poly delta fixed = Err IndexError) \/
       exists t0 r a b c, fs = t0 :: r /\ tri_verts vs t0 (a, b, c) /\
         ((exists n0, normal a b c = Some n0 /\ close_to (1 / 10000000000000) n0 (p_vn poly) /\ tria fuel poly delta fixed = Ok (vs, fs)) \/
          ((forall n0, normal a b c = Some n0 -> ~ close_to (1 / 10000000000000) n0 (p_vn poly)) /\ tria fuel poly delta fixed = Err MeshError))).
Proof. exact (tria_end same in_set between delaunay jog fuel poly delta fixed pxy ax phi p0 poly2 fx final ts back). Qed.
End Tria.
Print Assumptions C114_computes.
Print Assumptions C114_vertices.
Print Assumptions C114_fixed.
Print Assumptions C114_all_used.
Print Assumptions C115_oriented.
Print Assumptions C116_fuel.
Print Assumptions C116_one_round.
Print Assumptions C116_round_runs.
Print Assumptions C116_end.

(** A triangle seen from below with a fixed point: scipy's three triangles are
    reversed. *)
Example C114_example : exists poly, make_polygon (map at3 below) None None = Ok poly /\ p_vn poly = V 0 0 (-1) /\
  delaunay_triangulation equal_points all_in no_edge_points three_around no_jog 1 poly 18 [at3 middle] =
    Ok (map at3 (below ++ [middle]), [(0, 1, 3); (0, 3, 2); (2, 3, 1)]%nat).
Proof. destruct below_made as (p & M & _ & N & _). exists p. split; auto. split; auto. apply below_meshed. auto. Qed.
Example C115_example : level no_edge_points /\ (forall p q, equal_points p q = true -> dist p q <= 0) /\
  (forall e l, (forall p, In p e -> among equal_points p l) -> all_in e l = true) /\
  (forall q, In q [at3 middle] -> dot (V 0 0 (-1)) q = dot (V 0 0 (-1)) (at3 (0, 0, 0)%Z)).
Proof.
  split; [intros l d fx e z _ _ E; injection E as <-; intros p []|]. split.
  - intros p q E. apply equal_points_spec in E. subst. unfold dist, norm, dot, vsub. cbn [vx vy vz]. rewrite !Rminus_diag_eq by auto. replace (0 * 0 + 0 * 0 + 0 * 0) with 0 by ring. rewrite sqrt_0. lra.
  - split; [|intros q [<-|[]]; unfold dot, middle, at3; cbn [vx vy vz]; ring]. intros e l H. apply forallb_forall. intros p I. destruct (H p I) as (q & Iq & E). apply existsb_exists. eauto.
Qed.
