(** Vocabulary for closed surfaces made of triangles. *)
From Coq Require Import Reals List ZArith Bool Arith.
From Verif Require Import Prelude VecModel GeomModel GeomSpec PolySpec SolidSpec InsideSpec RoomSpec WindSpec LoopSpec.
Import ListNotations.
Local Open Scope R_scope.

(** No triangle is degenerate. *)
Definition proper_mesh (T : list (vec * vec * vec)) : Prop := forall a b c, In (a, b, c) T -> cross (vsub b a) (vsub c a) <> vzero.
(** Every directed edge of a triangle is matched by an opposite one. *)
Definition closed_mesh (T : list (vec * vec * vec)) : Prop := closed_edges (mesh_edges T).
(** 1 if r leads from behind the triangle to its front, -1 otherwise; the front
    is where its corners are seen in anticlockwise order. *)
Definition sense (r : vec) (t : vec * vec * vec) : Z := let '(a, b, c) := t in if Rlt_dec 0 (dot (cross (vsub b a) (vsub c a)) r) then 1%Z else (-1)%Z.
(** The ray from q in direction r passes through the interior of the triangle;
    it does not touch the triangle at all. *)
Definition pierces (q r : vec) (t : vec * vec * vec) : Prop :=
  let '(a, b, c) := t in dot (cross (vsub b a) (vsub c a)) r <> 0 /\ exists s, 0 < s /\ strictly_inside a b c (vadd q (smul s r)).
Definition misses (q r : vec) (t : vec * vec * vec) : Prop := let '(a, b, c) := t in forall s, 0 <= s -> ~ in_triangle a b c (vadd q (smul s r)).
(** Which triangles the ray passes through; it does not touch the others. *)
Definition sees (T : list (vec * vec * vec)) (q r : vec) (bs : list bool) : Prop :=
  r <> vzero /\ Forall2 (fun t (b : bool) => if b then pierces q r t else misses q r t) T bs.
(** How many it leaves through the front minus how many it enters there. *)
Definition net (T : list (vec * vec * vec)) (r : vec) (bs : list bool) : Z := zsum (map (fun x => if snd x : bool then sense r (fst x) else 0%Z) (combine T bs)).
(** The same for the segment between two points. *)
Definition crosses (q q' : vec) (t : vec * vec * vec) : Prop :=
  let '(a, b, c) := t in dot (cross (vsub b a) (vsub c a)) (vsub q' q) <> 0 /\ exists s, 0 < s < 1 /\ strictly_inside a b c (seg_point q q' s).
Definition avoids (q q' : vec) (t : vec * vec * vec) : Prop := let '(a, b, c) := t in forall m, on_segment q q' m -> ~ in_triangle a b c m.
(** A path of straight pieces from p that passes through n triangles, one at a
    time; z is how many of them it enters through the front minus how many it
    leaves there. *)
Inductive way (T : list (vec * vec * vec)) (p : vec) : vec -> nat -> Z -> Prop :=
| way_stay : way T p p 0 0
| way_free q q' n z : way T p q n z -> (forall t, In t T -> avoids q q' t) -> way T p q' n z
| way_cross q q' n z T1 t T2 : way T p q n z -> T = T1 ++ t :: T2 -> crosses q q' t -> (forall t', In t' (T1 ++ T2) -> avoids q q' t') -> way T p q' (S n) (z - sense (vsub q' q) t)%Z.
(** All triangles are on one side of a plane through p. *)
Definition outside (T : list (vec * vec * vec)) (p : vec) : Prop := exists m, forall a b c, In (a, b, c) T -> dot m a < dot m p /\ dot m b < dot m p /\ dot m c < dot m p.

(** Faces with outlines that do not meet themselves; T are their triangles. *)
Definition sides (fs : list (face * vec * R)) (T : list (vec * vec * vec)) : Prop :=
  (forall f n d, In (f, n, d) fs -> covers f n d /\ simple_outline (fst f)) /\
  exists Ts, Forall2 (fun f ts => Forall2 (tri_verts (fst f)) (snd f) ts) (solid_of fs) Ts /\ T = concat Ts.
(** Each edge of an outline is matched by an opposite edge of an outline. *)
Definition shell (fs : list (face * vec * R)) (T : list (vec * vec * vec)) : Prop := sides fs T /\ closed_surface (map fst (solid_of fs)).
(** The same once some of the outlines are turned round. *)
Definition loose_shell (fs : list (face * vec * R)) (T : list (vec * vec * vec)) : Prop :=
  sides fs T /\ exists ls, Forall2 (fun (f : face) l => l = fst f \/ l = rev (fst f)) (solid_of fs) ls /\ closed_surface ls.
(** The line of sight goes through a face well inside one of its triangles, or
    meets its plane only behind p or well outside the face. *)
Definition seen_well (p : vec) (fs : list (face * vec * R)) (bs : list bool) : Prop :=
  Forall2 (fun x (b : bool) => let '(f, n, d) := x in if b then exists t, 0 < t /\ within f (ray p t) else ray_passes p f n d) fs bs.
(** Every corner is on or behind the plane of every face, and no two faces have
    the same plane. *)
Definition convex_solid (fs : list (face * vec * R)) : Prop :=
  (forall f n d v, In (f, n, d) fs -> In v (concat (map fst (solid_of fs))) -> dot n v + d <= 0) /\ NoDup (map (fun x => (snd (fst x), snd x)) fs).
(** The faces of a box with their planes, in the order of [box_faces]. *)
Definition box_planes (x y z : R) (mv : vec) : list (vec * R) :=
  [(V 0 0 (-1), vz mv); (V 0 (-1) 0, vy mv); (V 1 0 0, - (x + vx mv)); (V 0 1 0, - (y + vy mv)); (V (-1) 0 0, vx mv); (V 0 0 1, - (z + vz mv))].
Definition box_sides (x y z : R) (mv : vec) : list (face * vec * R) := map (fun x => (fst x, [(3, 0, 1); (3, 1, 2)]%nat, fst (snd x), snd (snd x))) (combine (box_faces x y z mv) (box_planes x y z mv)).
