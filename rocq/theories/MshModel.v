(** Volume and surface meshes (building3d/_to_be_ported/mesh/).

    These files import modules that are not in the repository any more
    (building3d.geom.point, ...), so they cannot be run as they are.  What is
    modelled is their own code; of the class Point only its equality is used,
    which is an argument here ([same]), and tetrahedron_volume and
    tetrahedron_centroid are those of geom/tetrahedrons.py.  Indices are
    natural numbers: negative ones do not come from scipy. *)
From Coq Require Import Ascii String Reals List Bool Arith.
From Verif Require Import Prelude TreeModel MeshModel VecModel GeomModel TriModel PolyModel.
Import ListNotations.
Local Open Scope R_scope.

(** An element: the numbers of its vertices. *)
Definition element : Type := list nat.

Section Lists.
  Context {A : Type}.

  (** np.array or np.unique of a list of tuples of different lengths raises
      ValueError. *)
  Definition rectangular (els : list element) : bool :=
    match els with [] => true | e :: r => forallb (fun x => (length x =? length e)%nat) r end.

  (** list.pop(i) for an index in range. *)
  Definition pop_at (i : nat) (l : list A) : list A := firstn i l ++ skipn (S i) l.
  (** One round of the loops in quality/purge_mesh.py:28-31 and
      quality/collapse_points.py:60-64: a vertex is removed and the numbers
      above it go down by one. *)
  Definition lower (p x : nat) : nat := if (p <? x)%nat then (x - 1)%nat else x.
  Definition remove_vertex (m : list A * list element) (p : nat) : list A * list element :=
    (pop_at p (fst m), map (map (lower p)) (snd m)).

  (** purge_mesh (quality/purge_mesh.py:11-33). *)
  Definition unused (vs : list A) (els : list element) : list nat :=
    filter (fun i => negb (memb i (concat els))) (seq 0 (length vs)).
  (** purge_mesh (_to_be_ported/mesh/quality/purge_mesh.py:11-33). *)
  Definition purge_mesh (vs : list A) (els : list element) : result (list A * list element) :=
    if rectangular els then Ok (fold_left remove_vertex (rev (unused vs els)) (vs, els)) else Err ValueError.

  Context (same : A -> A -> bool).

  (** collapse_points (quality/collapse_points.py:8-67).  Lines 35-40: the
      dictionary from points to lists of numbers. *)
  Fixpoint note_point (d : list (A * list nat)) (p : A) (i : nat) : list (A * list nat) :=
    match d with
    | [] => [(p, [i])]
    | (q, l) :: r => if same q p then (q, l ++ [i]) :: r else (q, l) :: note_point r p i
    end.
  (** With the above (quality/collapse_points.py:8-67). *)
  Definition note_points (vs : list A) : list (A * list nat) :=
    fold_left (fun d x => note_point d (snd x) (fst x)) (enumerate vs) [].
  (** With the above (quality/collapse_points.py:8-67). *)
  Fixpoint numbers_of (d : list (A * list nat)) (p : A) : result (list nat) :=
    match d with [] => Err KeyError | (q, l) :: r => if same q p then Ok l else numbers_of r p end.
  (** Lines 49-57: the inner loop; the state is for_deletion and elements. *)
  Definition replace_number (del keep : nat) (el : element) : element :=
    if memb del el then map (fun x => if negb (x =? del)%nat then x else keep) el else el.
  Definition merge_number (keep : nat) (st : list nat * list element) (del : nat) : list nat * list element :=
    (del :: fst st, map (replace_number del keep) (snd st)).
  (** Lines 45-57: the outer loop. *)
  Definition merge_point (d : list (A * list nat)) (st : list nat * list element) (p : A) : result (list nat * list element) :=
    do ns <- numbers_of d p;
    match ns with [] => Err IndexError | keep :: dels => Ok (fold_left (merge_number keep) dels st) end.
  (** Lines 60-64; the set of vertex numbers, sorted downwards. *)
  Definition collapse_points (vs : list A) (els : list element) : result (list A * list element) :=
    do st <- foldM (merge_point (note_points vs)) vs ([], els);
    Ok (fold_left remove_vertex (rev (filter (fun i => memb i (fst st)) (seq 0 (length vs)))) (vs, snd st)).

  (** find_neighbors (quality/tetra_graph.py:9-31). *)
  Definition four_points (vs : list A) (el : element) : result (list A) :=
    mapM (fun k => do i <- at_index el k; at_index vs i) (seq 0 4).
  (** A set of points, as a list. *)
  Fixpoint point_set (l : list A) : list A :=
    match l with [] => [] | p :: r => if existsb (same p) r then point_set r else p :: point_set r end.
  Definition num_shared (l1 l2 : list A) : nat :=
    length (filter (fun p => existsb (same p) (point_set l2)) (point_set l1)).
  (** Pairs i < j in the order of the two loops (lines 20-21, 63-64). *)
  Definition index_pairs (n : nat) : list (nat * nat) :=
    concat (map (fun i => map (pair i) (seq (i + 1) (n - (i + 1)))) (seq 0 (n - 1))).
  Definition set_at {B} (l : list B) (i : nat) (f : B -> B) : list B :=
    match nth_error l i with Some x => firstn i l ++ f x :: skipn (S i) l | None => l end.
  Definition neighbor_step (vs : list A) (els : list element) (nb : list (list nat)) (ij : nat * nat) : result (list (list nat)) :=
    do e1 <- at_index els (fst ij); do e2 <- at_index els (snd ij);
    do l1 <- four_points vs e1; do l2 <- four_points vs e2;
    if (num_shared l1 l2 =? 3)%nat
    then Ok (set_at (set_at nb (fst ij) (fun l => l ++ [snd ij])) (snd ij) (fun l => l ++ [fst ij]))
    else Ok nb.
  (** find_neighbors (_to_be_ported/mesh/quality/tetra_graph.py:9-31). *)
  Definition find_neighbors (vs : list A) (els : list element) : result (list (list nat)) :=
    foldM (neighbor_step vs els) (index_pairs (length els)) (repeat [] (length els)).
End Lists.

(** find_neighbors_numba (quality/tetra_graph.py:49-90); None stands for -1.
    The points of all pairs are compared. *)
Definition near (eps : R) (p q : vec) : bool :=
  Rltb (Rabs (vx p - vx q)) eps && Rltb (Rabs (vy p - vy q)) eps && Rltb (Rabs (vz p - vz q)) eps.
(** With the above (quality/tetra_graph.py:49-90). *)
Definition count_near (eps : R) (l1 l2 : list vec) : nat :=
  length (filter (fun pq => near eps (fst pq) (snd pq)) (list_prod l1 l2)).
(** With the above (quality/tetra_graph.py:49-90). *)
Fixpoint fill_slot (row : list (option nat)) (j : nat) : list (option nat) :=
  match row with [] => [] | None :: r => Some j :: r | Some i :: r => Some i :: fill_slot r j end.
(** With the above (quality/tetra_graph.py:49-90). *)
Definition neighbor_step_numba (eps : R) (vs : list vec) (els : list element) (nb : list (list (option nat))) (ij : nat * nat)
    : result (list (list (option nat))) :=
  do e1 <- at_index els (fst ij); do e2 <- at_index els (snd ij);
  do l1 <- four_points vs e1; do l2 <- four_points vs e2;
  if (count_near eps l1 l2 =? 3)%nat
  then Ok (set_at (set_at nb (fst ij) (fun r => fill_slot r (snd ij))) (snd ij) (fun r => fill_slot r (fst ij)))
  else Ok nb.
(** find_neighbors_numba (_to_be_ported/mesh/quality/tetra_graph.py:50-90). *)
Definition find_neighbors_numba (eps : R) (vs : list vec) (els : list element) : result (list (list (option nat))) :=
  foldM (neighbor_step_numba eps vs els) (index_pairs (length els)) (repeat (repeat None 4) (length els)).
(** find_neighbors_numba_wrap (34-46); an empty list of elements is an array of
    numbers without rows, for which the function does not compile. *)
Definition slots (row : list (option nat)) : list nat := concat (map (fun x => match x with Some j => [j] | None => [] end) row).
(** With the above (quality/tetra_graph.py:34-46). *)
Definition find_neighbors_wrap (vs : list vec) (els : list element) : result (list (list nat)) :=
  match els with
  | [] => Err TypeError
  | _ => if rectangular els then do nb <- find_neighbors_numba GEOM_ATOL vs els; Ok (map slots nb) else Err ValueError
  end.
(** count_tetra_neighbors (quality/count_tetra_neighbors.py:8-29). *)
Definition count_neighbors (vs : list vec) (els : list element) : result (list nat) :=
  do nb <- find_neighbors_wrap vs els; Ok (map (@length nat) nb).

(** Volume of one element (quality/total_volume.py:13-17 and elsewhere). *)
Definition element_volume (vs : list vec) (el : element) : result R :=
  do q <- four_points vs el;
  match q with [p0; p1; p2; p3] => Ok (tetrahedron_volume p0 p1 p2 p3) | _ => Err IndexError end.
(** total_volume (quality/total_volume.py:9-19). *)
Definition total_volume (vs : list vec) (els : list element) : result R :=
  do l <- mapM (element_volume vs) els; Ok (fold_left Rplus l 0).
(** minimum_tetra_volume (quality/min_tetra_volume.py:6-15). *)
Definition minimum_tetra_volume (delta : R) : R :=
  tetrahedron_volume (V 0 0 0) (V delta 0 0) (V 0 delta 0) (V 0 0 delta) / 50.

(** imbalance (tetrahedralization.py:25-27). *)
Definition imbalance (vols : list R) : result R :=
  match vols with
  | [] => Err AssertionError
  | _ => do hi <- lmax vols; do lo <- lmin vols; if Reqb lo 0 then Err ZeroDivisionError else Ok (hi / lo)
  end.
(** get_invalid_points (55-109).  The element numbers of each vertex (76-80): a
    vertex that occurs twice in an element has it twice. *)
Definition connected (els : list element) (i : nat) : list nat :=
  concat (map (fun x => map (fun _ => fst x) (filter (Nat.eqb i) (snd x))) (enumerate els)).
Definition is_invalid (vs : list vec) (els : list element) (min_volume : R) (i : nat) : result bool :=
  do vols <- mapM (element_volume vs) els;
  do cv <- mapM (at_index vols) (connected els i);
  do b <- imbalance cv;
  if Rltb 100 b then Ok true else do lo <- lmin cv; Ok (Rltb lo min_volume).
(** get_invalid_points (_to_be_ported/mesh/tetrahedralization.py:55-110). *)
Definition get_invalid_points (vs : list vec) (els : list element) (restricted : list nat) (min_volume : R) : result (list nat) :=
  do l <- mapM (fun i => if memb i restricted then Ok [] else do b <- is_invalid vs els min_volume i; Ok (if b then [i] else []))
            (seq 0 (length vs));
  Ok (concat l).

(** delaunay_tetrahedralization (112-375), from line 205 on: [vs] are the
    points to start with, [boundary] those of boundary_pts, [corners] the
    vertices of the solid.  scipy's Delaunay is an argument and may answer
    differently each time; so is Solid.is_point_inside. *)
Section Tetra.
  Context (same : vec -> vec -> bool) (delaunay : nat -> list vec -> result (list element)) (inside : vec -> result bool).

  Definition isin (p : vec) (l : list vec) : bool := existsb (same p) l.
  (** i for i, x in enumerate(l) if the test holds (232-240, 263, 309). *)
  Definition numbers_where {B} (f : B -> result bool) (l : list B) : result (list nat) :=
    do bs <- mapM f l; Ok (map fst (filter snd (enumerate bs))).
  Definition drop_numbers {B} (l : list B) (ns : list nat) : list B :=
    map snd (filter (fun x => negb (memb (fst x) ns)) (enumerate l)).
  Definition zero_volume (vs : list vec) (el : element) : result bool := do v <- element_volume vs el; Ok (isclose v 0 RTOL ATOL8).
  Definition where_in (vs : list vec) (ps : list vec) : list nat := map fst (filter (fun x => isin (snd x) ps) (enumerate vs)).

  (** The loop (209-296); [tries] is TETRA_MAX_TRIES minus the passes made. *)
  Fixpoint mesh_loop (tries pass : nat) (boundary : list vec) (min_volume : R) (vs : list vec) : result (list vec * list element) :=
    match tries with
    | O => Err MeshError
    | S tries' =>
        do tets <- delaunay pass vs;
        do zero <- numbers_where (zero_volume vs) tets;
        do m <- purge_mesh vs (drop_numbers tets zero);
        do invalid <- get_invalid_points (fst m) (snd m) (where_in (fst m) boundary) min_volume;
        match invalid, zero with
        | [], [] => Ok m
        | _, _ => mesh_loop tries' (S pass) boundary min_volume (drop_numbers (fst m) invalid)
        end
    end.
  (** Lines 298-319: elements outside the solid are removed. *)
  Definition outside (vs : list vec) (el : element) : result bool :=
    do q <- four_points vs el;
    match q with
    | [p0; p1; p2; p3] => do b <- inside (tetrahedron_centroid p0 p1 p2 p3); Ok (negb b)
    | _ => Err IndexError
    end.
  (** Lines 346-366: the counts of the elements that have less than three
      vertices on the boundary, 0 for the others. *)
  Definition interior_count (boundary : list vec) (vs : list vec) (x : element * nat) : nat :=
    if (3 <=? length (filter (fun k => memb k (where_in vs boundary)) (firstn 4 (fst x))))%nat then 0%nat else snd x.
  Definition count_check (counts : list nat) : bool :=
    (fold_right plus 0 counts =? 0)%nat ||
    (memb 0%nat counts && memb 4%nat counts && forallb (fun c => (c =? 0) || (c =? 4))%nat counts).
  Definition final_checks (boundary corners : list vec) (m : list vec * list element) : result (list vec * list element) :=
    let '(vs, els) := m in
    if negb (length (nodup eq_dec (concat els)) =? length vs)%nat then Err AssertionError
    else if negb (forallb (fun p => isin p vs) corners) then Err AssertionError
    else
      do counts <- count_neighbors vs els;
      if negb (forallb (fun c => 0 <? c)%nat counts) then Err AssertionError
      else if count_check (map (interior_count boundary vs) (combine els counts)) then Ok m else Err AssertionError.
  Definition tetrahedralize (max_tries : nat) (boundary corners : list vec) (delta : R) (vs : list vec) : result (list vec * list element) :=
    do m <- mesh_loop max_tries 1 boundary (minimum_tetra_volume delta) vs;
    do out <- numbers_where (outside (fst m)) (snd m);
    do m' <- purge_mesh (fst m) (drop_numbers (snd m) out);
    final_checks boundary corners m'.
End Tetra.
