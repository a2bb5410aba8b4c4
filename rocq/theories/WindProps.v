(** Properties of what a polygon contains and of how slicing divides it (C121, C122). *)
From Coq Require Import Reals List ZArith Bool Arith Lia Lra Permutation.
From Verif Require Import Prelude VecModel VecProofs GeomModel GeomSpec GeomProofs1 TriModel TriSpec TriProofs2 PolyModel PolySpec PolyProofs2 CrossSpec InsideSpec RoomSpec PlanSpec
  SliceModel SliceSpec SliceProofs8 SliceProofs10 WindSpec WindProofs1 WindProofs2 WindProofs3 WindProofs4 WindProofs5 WindProofs6.
Import ListNotations.
Local Open Scope R_scope.

(** C121: the triangles of every polygon the code makes of points in one plane
    cover its outline: they turn around its normal, and their edges are those of
    the outline and pairs of opposite ones. *)
Theorem C121_made : forall pts p n c, make_polygon pts None None = Ok p -> unit n -> in_plane n c pts -> exists m d, (m = n /\ d = - c \/ m = vopp n /\ d = c) /\ m = p_vn p /\
  covers (p_pts p, p_tri p) m d /\ good_mesh (p_pts p) (p_tri p) /\ p_pts p <> [] /\ (p_pts p = pts \/ p_pts p = rev pts).
Proof. exact made_covers. Qed.
Print Assumptions C121_made.
(** How often the outline winds around a point does not depend on where the list
    starts; in the other direction, or seen from the other side, it is the
    opposite. *)
Theorem C121_loop : forall n u q l, (forall l', rotation_of l l' -> winding n u q l' = winding n u q l) /\ winding n u q (rev l) = (- winding n u q l)%Z /\
  (forall d, unit n -> (forall p, In p l -> on_plane n d p) -> on_plane n d q -> ~ on_outline l q -> winding (vopp n) u q l = (- winding n u q l)%Z).
Proof. intros n u q l. split; [exact (winding_rot n u q l)|]. split; [exact (winding_rev n u q l)|]. intros d U P Q O. exact (winding_opp n d u q l U P Q O). Qed.
Print Assumptions C121_loop.
(** The outline winds around a point at least as often as there are triangles
    with the point strictly inside, at most as often as there are triangles
    containing it. *)
Theorem C121_count : forall f n d u q os cs, covers f n d -> on_plane n d q -> cross u n <> vzero -> told (fun a b c => strictly_inside a b c q) f os -> told (fun a b c => in_triangle a b c q) f cs ->
  (Z.of_nat (hits os) <= winding n u q (fst f) <= Z.of_nat (hits cs))%Z.
Proof. exact winding_count. Qed.
Print Assumptions C121_count.
(** So off the triangle edges it is the number of triangles containing the point. *)
Theorem C121_exact : forall f n d u q os, covers f n d -> on_plane n d q -> cross u n <> vzero -> told (fun a b c => strictly_inside a b c q) f os ->
  (forall t a b c, In t (snd f) -> tri_verts (fst f) t (a, b, c) -> in_triangle a b c q -> strictly_inside a b c q) -> winding n u q (fst f) = Z.of_nat (hits os).
Proof. exact winding_exact. Qed.
Print Assumptions C121_exact.
(** It is never negative, positive only at points of a triangle, and positive
    at every point strictly inside one. *)
Theorem C121_mesh : forall f n d u q, covers f n d -> on_plane n d q -> cross u n <> vzero -> (0 <= winding n u q (fst f))%Z /\ ((0 < winding n u q (fst f))%Z -> in_mesh f q) /\
  forall t a b c, In t (snd f) -> tri_verts (fst f) t (a, b, c) -> strictly_inside a b c q -> (0 < winding n u q (fst f))%Z.
Proof. exact winding_mesh. Qed.
Print Assumptions C121_mesh.
(** Where the outline winds once, no two triangles overlap. *)
Theorem C121_no_overlap : forall f n d u q i j t t' a b c a' b' c', covers f n d -> on_plane n d q -> cross u n <> vzero -> (winding n u q (fst f) <= 1)%Z ->
  nth_error (snd f) i = Some t -> tri_verts (fst f) t (a, b, c) -> strictly_inside a b c q -> nth_error (snd f) j = Some t' -> tri_verts (fst f) t' (a', b', c') -> strictly_inside a' b' c' q -> i = j.
Proof.
  intros f n d u q i j t t' a b c a' b' c' C Q N W Ei Vi Si Ej Vj Sj. destruct (Nat.eq_dec i j) as [E|E]; auto. pose proof (winding_overlap f n d u q i j t t' a b c a' b' c' C Q N E Ei Vi Si Ej Vj Sj). lia.
Qed.
Print Assumptions C121_no_overlap.
(** A strictly convex outline winds once around the points to the left of all
    its edges, not at all around those to the right of some edge, and around no
    point twice. *)
Theorem C121_convex : forall f n d u q, covers f n d -> snd f <> [] -> on_plane n d q -> cross u n <> vzero -> strictly_convex n (fst f) -> NoDup (fst f) ->
  (winding n u q (fst f) <= 1)%Z /\ ((forall a b, In (a, b) (cyc_pairs (fst f)) -> 0 < left_of n a b q) -> winding n u q (fst f) = 1%Z) /\
  (forall a b, In (a, b) (cyc_pairs (fst f)) -> left_of n a b q < 0 -> winding n u q (fst f) = 0%Z).
Proof.
  intros f n d u q C Ne Q N S Nd. split; [exact (convex_at_most f n d u q C N S Nd)|]. split; [exact (convex_inside f n d u q C Ne Q N S Nd)|]. intros a b. exact (convex_outside f n d u q a b C Q N S).
Qed.
Print Assumptions C121_convex.
(** What the code answers for a polygon made of any points in a plane: a point of
    the plane that is well off the triangle edges is inside exactly when the
    outline, as given by the user, winds around it. The triangulation, the
    order of the points and the normal do not matter. *)
Theorem C121_code : forall pts p n c u q atol, make_polygon pts None None = Ok p -> unit n -> in_plane n c pts -> dot n q = c -> cross u n <> vzero -> clear_edges (p_pts p, p_tri p) q -> 0 < atol ->
  is_point_inside q (p_pts p) (p_tri p) true atol = Ok (negb (winding n u q pts =? 0)%Z).
Proof. exact inside_made. Qed.
Print Assumptions C121_code.
(** The same for any triangles that cover an outline. *)
Theorem C121_inside : forall f n d u q atol, covers f n d -> good_mesh (fst f) (snd f) -> fst f <> [] -> on_plane n d q -> cross u n <> vzero -> clear_edges f q -> 0 < atol ->
  is_point_inside q (fst f) (snd f) true atol = Ok (negb (winding n u q (fst f) =? 0)%Z).
Proof. exact inside_winding. Qed.
Print Assumptions C121_inside.
(** Not every outline that is accepted winds at most once: a strip that bends
    around and crosses its own beginning is accepted, and two of its triangles
    overlap. *)
Theorem C121_overlap_refuted : exists pts p q i j t t' a b c a' b' c', make_polygon pts None None = Ok p /\ i <> j /\
  nth_error (p_tri p) i = Some t /\ tri_verts (p_pts p) t (a, b, c) /\ strictly_inside a b c q /\
  nth_error (p_tri p) j = Some t' /\ tri_verts (p_pts p) t' (a', b', c') /\ strictly_inside a' b' c' q /\ winding (V 0 0 1) (V 0 1 0) q pts = 2%Z.
Proof. exists (map at3 ribbon). exact ribbon_overlaps. Qed.
Print Assumptions C121_overlap_refuted.
Example C121_ex : exists p, make_polygon (map at3 notched) None None = Ok p /\ unit (V 0 0 1) /\ in_plane (V 0 0 1) 1 (map at3 notched) /\ cross (V 0 1 0) (V 0 0 1) <> vzero /\
  clear_edges (p_pts p, p_tri p) (V 5 6 1) /\ is_point_inside (V 5 6 1) (p_pts p) (p_tri p) true GEOM_ATOL = Ok false /\
  clear_edges (p_pts p, p_tri p) (V 1 6 1) /\ is_point_inside (V 1 6 1) (p_pts p) (p_tri p) true GEOM_ATOL = Ok true.
Proof.
  destruct notched_made as (p & M & U & P & N & C1 & W1 & C2 & W2). exists p. assert (A : 0 < GEOM_ATOL) by (unfold GEOM_ATOL; lra). assert (D1 : dot (V 0 0 1) (V 5 6 1) = 1) by (vunf; ring). assert (D2 : dot (V 0 0 1) (V 1 6 1) = 1) by (vunf; ring). repeat (split; [assumption|]). split.
  - rewrite (C121_code _ p (V 0 0 1) 1 (V 0 1 0) _ _ M U P D1 N C1 A), W1. reflexivity.
  - split; auto. rewrite (C121_code _ p (V 0 0 1) 1 (V 0 1 0) _ _ M U P D2 N C2 A), W2. reflexivity.
Qed.
Example C121_convex_ex : exists p, make_polygon (map at3 sq6) None None = Ok p /\ covers (p_pts p, p_tri p) (V 0 0 1) (-0) /\ p_tri p <> [] /\ NoDup (p_pts p) /\ strictly_convex (V 0 0 1) (p_pts p) /\
  on_plane (V 0 0 1) (-0) (V 2 1 0) /\ (forall a b, In (a, b) (cyc_pairs (p_pts p)) -> 0 < left_of (V 0 0 1) a b (V 2 1 0)) /\ winding (V 0 0 1) (V 0 1 0) (V 2 1 0) (p_pts p) = 1%Z.
Proof.
  destruct square_exists as (p & Q). destruct (square_covers p Q) as (C & Ne & Nd & S & N & O & L). exists p. split; [apply Q|]. repeat (split; [assumption|]).
  exact (proj1 (proj2 (C121_convex (p_pts p, p_tri p) _ _ _ _ C Ne O N S Nd)) L).
Qed.

(** C122: a cut outline: the two parts together wind around every point as often
    as the whole. *)
Theorem C122_cut : forall n u q outline chain p1 p2, cut outline chain p1 p2 -> (winding n u q p1 + winding n u q p2)%Z = winding n u q outline.
Proof. exact cut_winding. Qed.
Print Assumptions C122_cut.
(** The two arrays made for slicing: one of them runs in the other direction. *)
Theorem C122_parts : forall n u q pts chain x l0 y l1 q1 q2, l0 <> l1 -> exact_end pts l0 x -> exact_end pts l1 y -> parts_of pts chain x l0 y l1 q1 q2 ->
  match l0, l1 with AtVertex _, AtVertex _ => (winding n u q q1 - winding n u q q2)%Z | _, _ => (winding n u q q2 - winding n u q q1)%Z end = winding n u q pts.
Proof. intros n u q pts chain x l0 y l1 q1 q2 D E0 E1 P. rewrite <- (parts_winding n u q pts chain x l0 y l1 q1 q2 D E0 E1 P). destruct l0, l1; reflexivity. Qed.
Print Assumptions C122_parts.
(** The polygons a slice returns: if their areas add up to the whole, so does
    how often they wind around each point. If not, the whole is the
    difference of the two, for all points in the same order. *)
Theorem C122_slice : forall p chain pt1 n1 pt2 n2 r1 r2 a b, slice_polygon p chain pt1 n1 pt2 n2 r1 r2 = Ok (a, b) -> told_apart (p_pts p) -> NoDup (p_pts p) ->
  forall o x M y l0 L l1, add_intersection_points (p_pts p) chain = Ok o -> remove_redundant_points (snd o) (p_pts p) (p_tri p) = Ok (x :: M ++ [y]) ->
  locate_points (cyc_pairs (p_pts p)) (p_pts p) (p_tri p) (x :: M ++ [y]) = Ok (l0 :: L ++ [l1]) -> exact_end (p_pts p) l0 x -> exact_end (p_pts p) l1 y -> l0 <> l1 -> forallb (fun l => negb (boundary l)) L = true ->
  0 < signed_area2 (p_pts p) (p_vn p) ->
  let w u q r := winding (p_vn p) u q (p_pts r) in
  (p_area (snd a) + p_area (snd b) = polygon_area (p_pts p) (p_vn p) -> forall u q, w u q p = (w u q (snd a) + w u q (snd b))%Z) /\
  (p_area (snd a) + p_area (snd b) <> polygon_area (p_pts p) (p_vn p) ->
    (forall u q, w u q p = (w u q (snd a) - w u q (snd b))%Z) \/ (forall u q, w u q p = (w u q (snd b) - w u q (snd a))%Z)).
Proof. intros. eapply sliced_winding; eauto. Qed.
Print Assumptions C122_slice.
(** The triangles of each part cover it. *)
Theorem C122_covers : forall p chain pt1 n1 pt2 n2 r1 r2 a b, slice_polygon p chain pt1 n1 pt2 n2 r1 r2 = Ok (a, b) -> told_apart (p_pts p) -> NoDup (p_pts p) ->
  forall o x M y l0 L l1, add_intersection_points (p_pts p) chain = Ok o -> remove_redundant_points (snd o) (p_pts p) (p_tri p) = Ok (x :: M ++ [y]) ->
  locate_points (cyc_pairs (p_pts p)) (p_pts p) (p_tri p) (x :: M ++ [y]) = Ok (l0 :: L ++ [l1]) -> exact_end (p_pts p) l0 x -> exact_end (p_pts p) l1 y -> l0 <> l1 -> forallb (fun l => negb (boundary l)) L = true ->
  forall c, unit (p_vn p) -> in_plane (p_vn p) c (p_pts p) -> in_plane (p_vn p) c (x :: M ++ [y]) -> forall np, np = a \/ np = b ->
  covers (p_pts (snd np), p_tri (snd np)) (p_vn p) (- c) /\ good_mesh (p_pts (snd np)) (p_tri (snd np)) /\ p_pts (snd np) <> [].
Proof. intros. eapply sliced_covers; eauto. Qed.
Print Assumptions C122_covers.
(** So a point that is well off all triangle edges is inside the polygon, as the
    code tells it, exactly when it is inside one of the parts; and it is not
    inside both unless the outline winds around it twice. *)
Theorem C122_points : forall p chain pt1 n1 pt2 n2 r1 r2 a b, slice_polygon p chain pt1 n1 pt2 n2 r1 r2 = Ok (a, b) -> told_apart (p_pts p) -> NoDup (p_pts p) ->
  forall o x M y l0 L l1, add_intersection_points (p_pts p) chain = Ok o -> remove_redundant_points (snd o) (p_pts p) (p_tri p) = Ok (x :: M ++ [y]) ->
  locate_points (cyc_pairs (p_pts p)) (p_pts p) (p_tri p) (x :: M ++ [y]) = Ok (l0 :: L ++ [l1]) -> exact_end (p_pts p) l0 x -> exact_end (p_pts p) l1 y -> l0 <> l1 -> forallb (fun l => negb (boundary l)) L = true ->
  0 < signed_area2 (p_pts p) (p_vn p) -> forall c q atol u, unit (p_vn p) -> in_plane (p_vn p) c (p_pts p) -> in_plane (p_vn p) c (x :: M ++ [y]) ->
  covers (p_pts p, p_tri p) (p_vn p) (- c) -> good_mesh (p_pts p) (p_tri p) -> p_area (snd a) + p_area (snd b) = polygon_area (p_pts p) (p_vn p) ->
  dot (p_vn p) q = c -> cross u (p_vn p) <> vzero -> clear_edges (p_pts p, p_tri p) q -> clear_edges (p_pts (snd a), p_tri (snd a)) q -> clear_edges (p_pts (snd b), p_tri (snd b)) q -> 0 < atol ->
  exists ia ib, is_point_inside q (p_pts (snd a)) (p_tri (snd a)) true atol = Ok ia /\ is_point_inside q (p_pts (snd b)) (p_tri (snd b)) true atol = Ok ib /\
    is_point_inside q (p_pts p) (p_tri p) true atol = Ok (ia || ib) /\ ((winding (p_vn p) u q (p_pts p) <= 1)%Z -> ia && ib = false).
Proof. intros. eapply sliced_inside; eauto. Qed.
Print Assumptions C122_points.
Example C122_ex : exists p p1 p2, make_polygon (map at3 sq6) None None = Ok p /\ slice_polygon p (map at3 across) None None None None [] [] = Ok (([], p1), ([], p2)) /\ told_apart (p_pts p) /\ NoDup (p_pts p) /\
  (exists o x M y l0 L l1, add_intersection_points (p_pts p) (map at3 across) = Ok o /\ remove_redundant_points (snd o) (p_pts p) (p_tri p) = Ok (x :: M ++ [y]) /\
    locate_points (cyc_pairs (p_pts p)) (p_pts p) (p_tri p) (x :: M ++ [y]) = Ok (l0 :: L ++ [l1]) /\ exact_end (p_pts p) l0 x /\ exact_end (p_pts p) l1 y /\ l0 <> l1 /\ forallb (fun l => negb (boundary l)) L = true /\
    in_plane (p_vn p) 0 (x :: M ++ [y])) /\ 0 < signed_area2 (p_pts p) (p_vn p) /\ unit (p_vn p) /\ in_plane (p_vn p) 0 (p_pts p) /\ covers (p_pts p, p_tri p) (p_vn p) (-0) /\ good_mesh (p_pts p) (p_tri p) /\
  p_area p1 + p_area p2 = polygon_area (p_pts p) (p_vn p) /\ let q := V 2 1 0 in clear_edges (p_pts p, p_tri p) q /\ clear_edges (p_pts p1, p_tri p1) q /\ clear_edges (p_pts p2, p_tri p2) q /\
  winding (p_vn p) (V 0 1 0) q (p_pts p) = 1%Z /\ winding (p_vn p) (V 0 1 0) q (p_pts p1) = 1%Z /\ winding (p_vn p) (V 0 1 0) q (p_pts p2) = 0%Z.
Proof. destruct square_exists as (p & Q). destruct (across_whole p Q) as (p1 & p2 & H). exists p, p1, p2. split; [apply Q|exact H]. Qed.
