(** Vocabulary for solids. *)
From Coq Require Import Ascii String Reals List Bool Arith Permutation.
From Verif Require Import Prelude VecModel GeomModel GeomSpec TriModel PolyModel PolySpec SolidModel.
Import ListNotations.
Local Open Scope R_scope.

(** The surface made of these polygons is closed: every directed edge is met by
    one in the opposite direction. *)
Definition closed_surface (polys : list (list vec)) : Prop := closed_edges (concat (map cyc_pairs polys)).
(** Outlines and normals of the polygons of a solid. *)
Definition outlines (ws : list wall_t) : list (list vec) := map (fun w => p_pts (snd (snd w))) ws.
Definition normals (ws : list wall_t) : list vec := map (fun w => p_vn (snd (snd w))) ws.
(** Sizes for which the tolerances of the code work: all dimensions between m
    and 5000 m, offsets up to 8000 m. *)
Definition box_fits (x y z : R) (mv : vec) : Prop :=
  exists m, 1 / 1000 <= m /\ (m <= x <= 5000 * m) /\ (m <= y <= 5000 * m) /\ (m <= z <= 5000 * m) /\
  Rabs (vx mv) <= 8000 * m /\ Rabs (vy mv) <= 8000 * m /\ Rabs (vz mv) <= 8000 * m.

(** A polygon as the code builds it, lying exactly in the plane vn.p = c. *)
Definition flat_face (p : list vec * list tri * vec) (c : R) : Prop :=
  let '(pts, ts, vn) := p in unit vn /\ (forall q, In q pts -> dot vn q = c) /\
  exists pts0, (3 <= length pts0)%nat /\ triangulate_pts pts0 vn = Ok (pts, ts).
(** Three times the volume by the divergence theorem: the sum over the faces of
    the plane's offset times the area of the face. *)
Fixpoint flux (ps : list (list vec * list tri * vec)) (cs : list R) : R :=
  match ps, cs with
  | (pts, _, vn) :: ps', c :: cs' => c * polygon_area pts vn + flux ps' cs'
  | _, _ => 0
  end.
Definition triangle_count (ps : list (list vec * list tri * vec)) : nat := fold_right (fun p s => length (snd (fst p)) + s)%nat 0%nat ps.
Definition shifted (w : vec) (pts pts' : list vec) : Prop := pts' = map (fun p => vadd p w) pts.

(** The corners of a box and its faces, bottom, front, right, back, left, top. *)
Definition corner_of (x y z : R) (mv : vec) (i j k : R) : vec := V (i * x + vx mv) (j * y + vy mv) (k * z + vz mv).
Definition box_faces (x y z : R) (mv : vec) : list (list vec) :=
  let pt := corner_of x y z mv in
  [[pt 0 0 0; pt 0 1 0; pt 1 1 0; pt 1 0 0]; [pt 0 0 0; pt 1 0 0; pt 1 0 1; pt 0 0 1]; [pt 1 0 0; pt 1 1 0; pt 1 1 1; pt 1 0 1];
   [pt 0 1 0; pt 0 1 1; pt 1 1 1; pt 1 1 0]; [pt 0 0 0; pt 0 0 1; pt 0 1 1; pt 0 1 0]; [pt 0 0 1; pt 1 0 1; pt 1 1 1; pt 0 1 1]].
(** A normal pointing out of a convex solid with the given corners: no corner
    lies in front of the face. *)
Definition outward (corners : list vec) (face : list vec) (n : vec) : Prop := forall p q, In p face -> In q corners -> dot n (vsub q p) <= 0.
