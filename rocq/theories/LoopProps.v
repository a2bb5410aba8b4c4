(** Properties of polygons whose outline does not meet itself, and of their slices (C123, C124). *)
From Coq Require Import Reals List ZArith Bool Arith Lia Lra Permutation.
From Verif Require Import Prelude VecModel VecProofs GeomModel GeomSpec GeomProofs1 TriModel TriSpec TriProofs2 PolyModel PolySpec PolyProofs2 CrossSpec InsideSpec RoomSpec PlanSpec
  SliceModel SliceSpec SliceProofs8 SliceProofs10 WindSpec WindProofs1 WindProofs2 WindProofs4 WindProofs6 LoopSpec LoopProofs5 LoopProofs6 LoopProofs7.
Import ListNotations.
Local Open Scope R_scope.

(** C123: an outline that does not meet itself winds around the points of its
    plane in at most two ways: not at all, and once, always in the same
    direction. This is so for all points not on the outline, whatever direction
    is up. *)
Theorem C123_simple : forall n d pts, unit n -> (forall p, In p pts -> on_plane n d p) -> simple_outline pts ->
  (forall q u, on_plane n d q -> ~ on_outline pts q -> cross u n <> vzero -> winding n u q pts = 0%Z \/ winding n u q pts = 1%Z) \/
  (forall q u, on_plane n d q -> ~ on_outline pts q -> cross u n <> vzero -> winding n u q pts = 0%Z \/ winding n u q pts = (-1)%Z).
Proof. intros n d pts U P S. destruct (simple_two n d pts U P S) as (v & [-> | ->] & _ & H); [left|right]; intros q u Q O N; destruct (H q u Q O N); auto. Qed.
Print Assumptions C123_simple.
(** It is the same for all points that can be joined without meeting the
    outline. *)
Theorem C123_move : forall n d pts q q' u u', unit n -> (forall p, In p pts -> on_plane n d p) -> on_plane n d q -> on_plane n d q' -> cross u n <> vzero -> cross u' n <> vzero ->
  (forall m, on_segment q q' m -> ~ on_outline pts m) -> winding n u q pts = winding n u' q' pts.
Proof. exact winding_move. Qed.
Print Assumptions C123_move.
(** Not meeting itself does not depend on where the list starts, nor on the
    direction. *)
Theorem C123_loop : forall pts pts', rotation_of pts pts' \/ reverse_loop pts pts' -> simple_outline pts -> simple_outline pts'.
Proof. intros pts pts' [R|R] S; [exact (simple_rotation pts pts' R S)|exact (simple_rotation (rev pts) pts' R (simple_rev pts S))]. Qed.
Print Assumptions C123_loop.
(** Triangles that cover such an outline: none reaches across the outline, and
    no two overlap. *)
Theorem C123_triangles : forall f n d, covers f n d -> simple_outline (fst f) ->
  (forall t a b c q, In t (snd f) -> tri_verts (fst f) t (a, b, c) -> strictly_inside a b c q -> ~ on_outline (fst f) q) /\
  (forall i j t t' a b c a' b' c' q, nth_error (snd f) i = Some t -> tri_verts (fst f) t (a, b, c) -> strictly_inside a b c q ->
     nth_error (snd f) j = Some t' -> tri_verts (fst f) t' (a', b', c') -> strictly_inside a' b' c' q -> i = j).
Proof. intros f n d C S. split; [exact (outline_not_inside f n d C S)|exact (no_overlap f n d C S)]. Qed.
Print Assumptions C123_triangles.
(** A point of the plane is in one of the triangles exactly when it is on the
    outline or the outline winds around it, once. *)
Theorem C123_region : forall f n d, covers f n d -> simple_outline (fst f) -> forall q u, on_plane n d q -> cross u n <> vzero -> (in_mesh f q <-> on_outline (fst f) q \/ winding n u q (fst f) = 1%Z).
Proof. exact region_all. Qed.
Print Assumptions C123_region.
(** Polygons the code makes of such points in a plane: the triangles, one of
    which contains the point, fill what the outline as given winds around. *)
Theorem C123_made : forall pts p n c, make_polygon pts None None = Ok p -> unit n -> in_plane n c pts -> simple_outline pts ->
  (forall q u, dot n q = c -> cross u n <> vzero -> (in_mesh (p_pts p, p_tri p) q <-> on_outline pts q \/ winding n u q pts <> 0%Z)) /\
  (forall i j t t' a b e a' b' e' q, nth_error (p_tri p) i = Some t -> tri_verts (p_pts p) t (a, b, e) -> strictly_inside a b e q ->
     nth_error (p_tri p) j = Some t' -> tri_verts (p_pts p) t' (a', b', e') -> strictly_inside a' b' e' q -> i = j).
Proof.
  intros pts p n c M U P S. split; [intros q u; exact (made_region pts p n c M U P S q u)|]. destruct (made_frame pts p n c M U P) as (m & d & C & _). exact (no_overlap (p_pts p, p_tri p) m d C (made_simple pts p n c M U P S)).
Qed.
Print Assumptions C123_made.
(** So polygons made of the same outline, from any starting point and in either
    direction, contain the same points. *)
Theorem C123_same : forall pts pts' p p' n c, make_polygon pts None None = Ok p -> make_polygon pts' None None = Ok p' -> unit n -> in_plane n c pts -> simple_outline pts -> rotation_of pts pts' \/ reverse_loop pts pts' ->
  forall q, in_mesh (p_pts p, p_tri p) q <-> in_mesh (p_pts p', p_tri p') q.
Proof. intros pts pts' p p' n c M M' U P S R q. exact (made_same_iff pts pts' p p' n c q M M' U P S R). Qed.
Print Assumptions C123_same.
(** What the code answers: well off the triangle edges a point is inside exactly
    when the outline winds around it once, in either direction. *)
Theorem C123_code : forall pts p n c u q atol, make_polygon pts None None = Ok p -> unit n -> in_plane n c pts -> simple_outline pts -> dot n q = c -> cross u n <> vzero -> clear_edges (p_pts p, p_tri p) q -> 0 < atol ->
  is_point_inside q (p_pts p) (p_tri p) true atol = Ok (Z.abs (winding n u q pts) =? 1)%Z.
Proof.
  intros pts p n c u q atol M U P S Q N Cl A. rewrite (inside_made pts p n c u q atol M U P Q N Cl A). f_equal. destruct (made_frame pts p n c M U P) as (m & d & C & Pl & _ & Ou & _). pose proof (clear_off_outline _ m d q C (proj2 (Pl q) Q) Cl) as O. cbn [fst] in O. rewrite Ou in O.
  pose proof (made_few pts p n c M U P S q u Q O N) as F. destruct (Z.eqb_spec (winding n u q pts) 0) as [E|E], (Z.eqb_spec (Z.abs (winding n u q pts)) 1) as [E'|E']; cbn [negb]; auto; lia.
Qed.
Print Assumptions C123_code.
(** The strip of C121_overlap_refuted is accepted because nothing is checked that
    would tell that its outline meets itself. *)
Theorem C123_accepts_refuted : exists pts p, make_polygon pts None None = Ok p /\ ~ simple_outline pts.
Proof. destruct ribbon_made as (p & M & _). exists (map at3 ribbon), p. split; [exact M|exact ribbon_not_simple]. Qed.
Print Assumptions C123_accepts_refuted.
Example C123_ex : exists p, make_polygon (map at3 notched) None None = Ok p /\ unit (V 0 0 1) /\ in_plane (V 0 0 1) 1 (map at3 notched) /\ simple_outline (map at3 notched) /\ cross (V 0 1 0) (V 0 0 1) <> vzero /\
  clear_edges (p_pts p, p_tri p) (V 5 6 1) /\ is_point_inside (V 5 6 1) (p_pts p) (p_tri p) true GEOM_ATOL = Ok false /\ ~ in_mesh (p_pts p, p_tri p) (V 5 6 1) /\
  clear_edges (p_pts p, p_tri p) (V 1 6 1) /\ is_point_inside (V 1 6 1) (p_pts p) (p_tri p) true GEOM_ATOL = Ok true /\ in_mesh (p_pts p, p_tri p) (V 1 6 1).
Proof.
  destruct notched_made as (p & M & U & P & N & C1 & W1 & C2 & W2). exists p. pose proof notched_simple as S. assert (A : 0 < GEOM_ATOL) by (unfold GEOM_ATOL; lra). assert (D1 : dot (V 0 0 1) (V 5 6 1) = 1) by (vunf; ring). assert (D2 : dot (V 0 0 1) (V 1 6 1) = 1) by (vunf; ring). do 6 (split; [assumption|]).
  destruct (made_frame _ p _ _ M U P) as (m & d & C & Pl & _ & Ou & _). pose proof (clear_off_outline _ m d _ C (proj2 (Pl _) D1) C1) as O1. cbn [fst] in O1. rewrite Ou in O1.
  rewrite (C123_code _ p (V 0 0 1) 1 (V 0 1 0) _ _ M U P S D1 N C1 A), W1, (C123_code _ p (V 0 0 1) 1 (V 0 1 0) _ _ M U P S D2 N C2 A), W2. split; [reflexivity|]. split; [|split; [assumption|split; [reflexivity|]]].
  - intros I. apply (proj1 (C123_made _ p _ _ M U P S) _ _ D1 N) in I. destruct I as [I|I]; [exact (O1 I)|]. apply I. exact W1.
  - apply (proj1 (C123_made _ p _ _ M U P S) _ _ D2 N). right. rewrite W2. discriminate.
Qed.
Example C123_cover_ex : exists p, make_polygon (map at3 sq6) None None = Ok p /\ covers (p_pts p, p_tri p) (V 0 0 1) (-0) /\ simple_outline (p_pts p).
Proof. destruct square_exists as (p & Q). destruct (square_covers p Q) as (C & _). exists p. split; [apply Q|]. split; auto. destruct Q as (_ & E & _). rewrite E. exact sq6_simple. Qed.
(** The same outline in the other direction: other triangles, same points. *)
Example C123_same_ex : exists p p', make_polygon (map at3 notched) None None = Ok p /\ make_polygon (map at3 (rev notched)) None None = Ok p' /\ reverse_loop (map at3 notched) (map at3 (rev notched)) /\
  p_pts p <> p_pts p' /\ p_vn p = V 0 0 (-1) /\ p_vn p' = V 0 0 1 /\ forall q, in_mesh (p_pts p, p_tri p) q <-> in_mesh (p_pts p', p_tri p') q.
Proof.
  destruct (zmake_spec notched (rev notched) [(0, 1, 2); (0, 2, 3); (0, 3, 4); (4, 5, 6); (4, 6, 7); (4, 7, 0)]%nat (0, 0, -1)%Z eq_refl) as (_ & p & M & E & _ & V).
  destruct (zmake_spec (rev notched) notched [(0, 1, 2); (0, 2, 3); (0, 3, 4); (4, 5, 6); (4, 6, 7); (4, 7, 0)]%nat (0, 0, 1)%Z eq_refl) as (_ & p' & M' & E' & _ & V').
  destruct notched_made as (_ & _ & U & P & _). exists p, p'. assert (R : reverse_loop (map at3 notched) (map at3 (rev notched))) by (exists [], (rev (map at3 notched)); split; [auto|rewrite app_nil_r, map_rev; auto]).
  split; auto. split; auto. split; auto. split; [rewrite E, E'; intros X; injection X as X _; lra|]. split; auto. split; auto. exact (C123_same _ _ p p' _ _ M M' U P notched_simple (or_intror R)).
Qed.

(** C124: a slice whose parts' areas add up divides the polygon: a point is in a
    triangle of the polygon exactly when it is in one of a part. This holds for
    all points, also on the edges, and for all outlines. *)
Theorem C124_union : forall p chain pt1 n1 pt2 n2 r1 r2 a b, slice_polygon p chain pt1 n1 pt2 n2 r1 r2 = Ok (a, b) -> told_apart (p_pts p) -> NoDup (p_pts p) ->
  forall o x M y l0 L l1, add_intersection_points (p_pts p) chain = Ok o -> remove_redundant_points (snd o) (p_pts p) (p_tri p) = Ok (x :: M ++ [y]) ->
  locate_points (cyc_pairs (p_pts p)) (p_pts p) (p_tri p) (x :: M ++ [y]) = Ok (l0 :: L ++ [l1]) -> exact_end (p_pts p) l0 x -> exact_end (p_pts p) l1 y -> l0 <> l1 -> forallb (fun l => negb (boundary l)) L = true ->
  0 < signed_area2 (p_pts p) (p_vn p) -> forall c, unit (p_vn p) -> in_plane (p_vn p) c (p_pts p) -> in_plane (p_vn p) c (x :: M ++ [y]) ->
  covers (p_pts p, p_tri p) (p_vn p) (- c) -> p_area (snd a) + p_area (snd b) = polygon_area (p_pts p) (p_vn p) ->
  forall q, in_mesh (p_pts p, p_tri p) q <-> in_mesh (p_pts (snd a), p_tri (snd a)) q \/ in_mesh (p_pts (snd b), p_tri (snd b)) q.
Proof.
  intros p chain pt1 n1 pt2 n2 r1 r2 a b H T N o x M y l0 L l1 Eo Er El X0 X1 Ne B S0 c U P1 P2 C Ar q.
  pose proof (sliced_covers p chain pt1 pt2 n1 n2 r1 r2 a b H T N o x M y l0 L l1 Eo Er El X0 X1 Ne B c U P1 P2) as Cs. destruct (Cs a (or_introl eq_refl)) as (Ca & _). destruct (Cs b (or_intror eq_refl)) as (Cb & _).
  pose proof (proj1 (sliced_winding p chain pt1 pt2 n1 n2 r1 r2 a b H T N o x M y l0 L l1 Eo Er El X0 X1 Ne B S0) Ar) as W.
  split; [exact (whole_in _ _ _ _ _ C Ca Cb W q)|exact (part_in _ _ _ _ _ C Ca Cb W q)].
Qed.
Print Assumptions C124_union.
(** If the outline does not meet itself, no two triangles of the parts overlap:
    neither one of each part nor two of the same. *)
Theorem C124_apart : forall p chain pt1 n1 pt2 n2 r1 r2 a b, slice_polygon p chain pt1 n1 pt2 n2 r1 r2 = Ok (a, b) -> told_apart (p_pts p) -> NoDup (p_pts p) ->
  forall o x M y l0 L l1, add_intersection_points (p_pts p) chain = Ok o -> remove_redundant_points (snd o) (p_pts p) (p_tri p) = Ok (x :: M ++ [y]) ->
  locate_points (cyc_pairs (p_pts p)) (p_pts p) (p_tri p) (x :: M ++ [y]) = Ok (l0 :: L ++ [l1]) -> exact_end (p_pts p) l0 x -> exact_end (p_pts p) l1 y -> l0 <> l1 -> forallb (fun l => negb (boundary l)) L = true ->
  0 < signed_area2 (p_pts p) (p_vn p) -> forall c, unit (p_vn p) -> in_plane (p_vn p) c (p_pts p) -> in_plane (p_vn p) c (x :: M ++ [y]) ->
  covers (p_pts p, p_tri p) (p_vn p) (- c) -> p_area (snd a) + p_area (snd b) = polygon_area (p_pts p) (p_vn p) -> simple_outline (p_pts p) ->
  (forall t t' v1 v2 v3 w1 w2 w3 q, In t (p_tri (snd a)) -> tri_verts (p_pts (snd a)) t (v1, v2, v3) -> strictly_inside v1 v2 v3 q -> In t' (p_tri (snd b)) -> tri_verts (p_pts (snd b)) t' (w1, w2, w3) -> ~ strictly_inside w1 w2 w3 q) /\
  (forall r i j t t' v1 v2 v3 w1 w2 w3 q, r = snd a \/ r = snd b -> nth_error (p_tri r) i = Some t -> tri_verts (p_pts r) t (v1, v2, v3) -> strictly_inside v1 v2 v3 q ->
     nth_error (p_tri r) j = Some t' -> tri_verts (p_pts r) t' (w1, w2, w3) -> strictly_inside w1 w2 w3 q -> i = j).
Proof.
  intros p chain pt1 n1 pt2 n2 r1 r2 a b H T N o x M y l0 L l1 Eo Er El X0 X1 Ne B S0 c U P1 P2 C Ar Sm.
  pose proof (sliced_covers p chain pt1 pt2 n1 n2 r1 r2 a b H T N o x M y l0 L l1 Eo Er El X0 X1 Ne B c U P1 P2) as Cs. destruct (Cs a (or_introl eq_refl)) as (Ca & _). destruct (Cs b (or_intror eq_refl)) as (Cb & _).
  pose proof (proj1 (sliced_winding p chain pt1 pt2 n1 n2 r1 r2 a b H T N o x M y l0 L l1 Eo Er El X0 X1 Ne B S0) Ar) as W. split.
  - intros t t' v1 v2 v3 w1 w2 w3 q It Vt S It' Vt' S'. exact (parts_apart _ _ _ _ _ C Ca Cb W Sm t v1 v2 v3 t' w1 w2 w3 q It Vt S It' Vt' S').
  - intros r i j t t' v1 v2 v3 w1 w2 w3 q R Ei Vt S Ej Vt' S'. refine (part_apart _ _ _ _ _ C Ca Cb W Sm (p_pts r, p_tri r) i j t t' v1 v2 v3 w1 w2 w3 q _ Ei Vt S Ej Vt' S'). destruct R as [-> | ->]; auto.
Qed.
Print Assumptions C124_apart.
(** And the code does not say of any point that it is well inside both. *)
Theorem C124_points : forall p chain pt1 n1 pt2 n2 r1 r2 a b, slice_polygon p chain pt1 n1 pt2 n2 r1 r2 = Ok (a, b) -> told_apart (p_pts p) -> NoDup (p_pts p) ->
  forall o x M y l0 L l1, add_intersection_points (p_pts p) chain = Ok o -> remove_redundant_points (snd o) (p_pts p) (p_tri p) = Ok (x :: M ++ [y]) ->
  locate_points (cyc_pairs (p_pts p)) (p_pts p) (p_tri p) (x :: M ++ [y]) = Ok (l0 :: L ++ [l1]) -> exact_end (p_pts p) l0 x -> exact_end (p_pts p) l1 y -> l0 <> l1 -> forallb (fun l => negb (boundary l)) L = true ->
  0 < signed_area2 (p_pts p) (p_vn p) -> forall c q atol, unit (p_vn p) -> in_plane (p_vn p) c (p_pts p) -> in_plane (p_vn p) c (x :: M ++ [y]) ->
  covers (p_pts p, p_tri p) (p_vn p) (- c) -> good_mesh (p_pts p) (p_tri p) -> p_area (snd a) + p_area (snd b) = polygon_area (p_pts p) (p_vn p) -> simple_outline (p_pts p) ->
  dot (p_vn p) q = c -> clear_edges (p_pts p, p_tri p) q -> clear_edges (p_pts (snd a), p_tri (snd a)) q -> clear_edges (p_pts (snd b), p_tri (snd b)) q -> 0 < atol ->
  exists ia ib, is_point_inside q (p_pts (snd a)) (p_tri (snd a)) true atol = Ok ia /\ is_point_inside q (p_pts (snd b)) (p_tri (snd b)) true atol = Ok ib /\
    is_point_inside q (p_pts p) (p_tri p) true atol = Ok (xorb ia ib) /\ ia && ib = false.
Proof.
  intros p chain pt1 n1 pt2 n2 r1 r2 a b H T N o x M y l0 L l1 Eo Er El X0 X1 Ne B S0 c q atol U P1 P2 C G Ar Sm Q Cl Ca Cb At. destruct (dir_exists (p_vn p) U) as (u & Nu).
  destruct (sliced_inside p chain pt1 pt2 n1 n2 r1 r2 a b H T N o x M y l0 L l1 Eo Er El X0 X1 Ne B S0 c q atol u U P1 P2 C G Ar Q Nu Cl Ca Cb At) as (ia & ib & Ia & Ib & Ip & W). exists ia, ib.
  assert (Qd : on_plane (p_vn p) (- c) q) by (unfold on_plane; lra). pose proof (cov_two _ _ _ C Sm q u Qd (clear_off_outline _ _ _ q C Qd Cl) Nu) as T2. cbn [fst] in T2. assert (Z : ia && ib = false) by (apply W; lia).
  split; auto. split; auto. split; auto. rewrite Ip. destruct ia, ib; auto; discriminate.
Qed.
Print Assumptions C124_points.
Example C124_ex : exists p p1 p2, make_polygon (map at3 sq6) None None = Ok p /\ simple_outline (p_pts p) /\ slice_polygon p (map at3 across) None None None None [] [] = Ok (([], p1), ([], p2)) /\ told_apart (p_pts p) /\ NoDup (p_pts p) /\
  (exists o x M y l0 L l1, add_intersection_points (p_pts p) (map at3 across) = Ok o /\ remove_redundant_points (snd o) (p_pts p) (p_tri p) = Ok (x :: M ++ [y]) /\
    locate_points (cyc_pairs (p_pts p)) (p_pts p) (p_tri p) (x :: M ++ [y]) = Ok (l0 :: L ++ [l1]) /\ exact_end (p_pts p) l0 x /\ exact_end (p_pts p) l1 y /\ l0 <> l1 /\ forallb (fun l => negb (boundary l)) L = true /\
    in_plane (p_vn p) 0 (x :: M ++ [y])) /\ 0 < signed_area2 (p_pts p) (p_vn p) /\ unit (p_vn p) /\ in_plane (p_vn p) 0 (p_pts p) /\ covers (p_pts p, p_tri p) (p_vn p) (-0) /\ good_mesh (p_pts p) (p_tri p) /\
  p_area p1 + p_area p2 = polygon_area (p_pts p) (p_vn p) /\ let q := V 2 1 0 in clear_edges (p_pts p, p_tri p) q /\ clear_edges (p_pts p1, p_tri p1) q /\ clear_edges (p_pts p2, p_tri p2) q.
Proof.
  destruct square_exists as (p & Q). destruct (across_whole p Q) as (p1 & p2 & H1 & H2 & H3 & H4 & H5 & H6 & H7 & H8 & H9 & H10 & H11 & H12 & H13 & _). exists p, p1, p2. split; [apply Q|]. split; [destruct Q as (_ & E & _); rewrite E; exact sq6_simple|]. repeat (split; [assumption|]). assumption.
Qed.
