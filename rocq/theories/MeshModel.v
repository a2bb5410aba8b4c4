(** Stacking of triangle meshes and the array format of a building. *)
From Coq Require Import List Arith Bool.
From Verif Require Import Prelude.
Import ListNotations.

(** A face: three row indices. *)
Definition face : Type := (nat * nat * nat)%type.

Definition shift_face (k : nat) (f : face) : face :=
  let '(a, b, c) := f in (a + k, b + k, c + k).

Section Mesh.
  Context {P : Type}.           (* a row of a point array *)
  Context (zero : P).           (* the row of zeros np.zeros allocates *)

  Definition mesh : Type := (list P * list face)%type.

  (** [arr[i] = x]; numpy raises IndexError outside the array. *)
  Definition store {A} (arr : list A) (i : nat) (x : A) : result (list A) :=
    if i <? length arr then Ok (set_nth arr i x) else Err IndexError.

  (** Inner loops of vstack_mesh (geom/mesh/__init__.py:39-42 and 43-47).
      [bump] is the size of object i-1 (0 when i = 0): the offset moves when
      j = 0 only, so not at all for an object without rows. *)
  Fixpoint fill {A} (j : nat) (rows : list A) (arr : list A) (off bump : nat)
      : result (list A * nat) :=
    match rows with
    | [] => Ok (arr, off)
    | r :: rows' =>
        let off := if j =? 0 then off + bump else off in
        do arr' <- store arr (j + off) r;
        fill (S j) rows' arr' off bump
    end.

  (** Outer loop (38-47).  State: vertex array, face array, num_pts_added,
      tri_offset, pts_offset; [prev] holds the sizes of object i-1. *)
  Fixpoint stack (objs : list mesh) (prev : nat * nat) (verts : list P) (faces : list face)
      (num_pts_added tri_offset pts_offset : nat) : result mesh :=
    match objs with
    | [] => Ok (verts, faces)
    | (pts, tri) :: rest =>
        do ft <- fill 0 (map (shift_face num_pts_added) tri) faces tri_offset (snd prev);
        do vp <- fill 0 pts verts pts_offset (fst prev);
        stack rest (length pts, length tri) (fst vp) (fst ft)
              (num_pts_added + length pts) (snd ft) (snd vp)
    end.

  Definition total {A B} (size : A -> list B) (l : list A) : nat :=
    fold_right (fun x n => length (size x) + n) 0 l.

  (** vstack_mesh (geom/mesh/__init__.py:11-52).  The two tuples are given as
      one list of pairs, so the length assertion cannot fail. *)
  Definition vstack_mesh (objs : list mesh) : result mesh :=
    stack objs (0, 0) (repeat zero (total fst objs)) (repeat (0, 0, 0) (total snd objs)) 0 0 0.

  (** Geometry-only view of the hierarchy: points and triangles of each polygon. *)
  Definition wall_m : Type := list mesh.
  Definition solid_m : Type := list wall_m.
  Definition zone_m : Type := list solid_m.
  Definition building_m : Type := list zone_m.

  (** get_mesh at each level (wall/get_mesh.py:7-20, solid/get_mesh.py:7-21,
      zone/get_mesh.py:7-21, building/get_mesh.py:7-21). *)
  Definition wall_mesh (w : wall_m) : result mesh := vstack_mesh w.
  (** With the above (wall/get_mesh.py:7-20, solid/get_mesh.py:7-21, zone/get_mesh.py:7-21, building/get_mesh.py:7-21). *)
  Definition solid_mesh (s : solid_m) : result mesh := do ms <- mapM wall_mesh s; vstack_mesh ms.
  (** With the above (wall/get_mesh.py:7-20, solid/get_mesh.py:7-21, zone/get_mesh.py:7-21, building/get_mesh.py:7-21). *)
  Definition zone_mesh (z : zone_m) : result mesh := do ms <- mapM solid_mesh z; vstack_mesh ms.
  (** With the above (wall/get_mesh.py:7-20, solid/get_mesh.py:7-21, zone/get_mesh.py:7-21, building/get_mesh.py:7-21). *)
  Definition building_mesh (b : building_m) : result mesh := do ms <- mapM zone_mesh b; vstack_mesh ms.

  (** ** Array format (io/arrayformat.py) *)

  Record arrays : Type := mkArrays {
    a_points : list P; a_faces : list face; a_polygons : list nat;
    a_walls : list nat; a_solids : list nat; a_zones : list nat }.

  (** Loop state of to_array_format (49-55). *)
  Record tstate : Type := mkT {
    t_arr : arrays; t_pn : nat; t_wn : nat; t_sn : nat; t_zn : nat;
    t_pt : nat; t_face : nat }.

  (** [arr[off : off+n] = rows] with n = len(rows): numpy clips the slice at the
      end of the array and then raises ValueError on a size mismatch. *)
  Fixpoint store_rows {A} (arr : list A) (off : nat) (rows : list A) : result (list A) :=
    match rows with
    | [] => Ok arr
    | r :: rows' =>
        if off <? length arr then store_rows (set_nth arr off r) (S off) rows' else Err ValueError
    end.

  (** [for fi in range(off, off+n): polygons[fi] = pn] (82-83). *)
  Fixpoint store_const (arr : list nat) (off n v : nat) : result (list nat) :=
    match n with
    | O => Ok arr
    | S n' => do arr' <- store arr off v; store_const arr' (S off) n' v
    end.

  Fixpoint foldM {A S} (f : S -> A -> result S) (l : list A) (s : S) : result S :=
    match l with [] => Ok s | x :: l' => do s' <- f s x; foldM f l' s' end.

  (** Body of the polygon loop (68-88). *)
  Definition put_polygon (st : tstate) (p : mesh) : result tstate :=
    let a := t_arr st in
    do walls <- store (a_walls a) (t_pn st) (t_wn st);
    do points <- store_rows (a_points a) (t_pt st) (fst p);
    do faces <- store_rows (a_faces a) (t_face st) (map (shift_face (t_pt st)) (snd p));
    do polygons <- store_const (a_polygons a) (t_face st) (length (snd p)) (t_pn st);
    Ok (mkT (mkArrays points faces polygons walls (a_solids a) (a_zones a))
            (S (t_pn st)) (t_wn st) (t_sn st) (t_zn st)
            (t_pt st + length (fst p)) (t_face st + length (snd p))).

  (** Wall loop (63-89). *)
  Definition put_wall (st : tstate) (w : wall_m) : result tstate :=
    let a := t_arr st in
    do solids <- store (a_solids a) (t_wn st) (t_sn st);
    do st <- foldM put_polygon w
      (mkT (mkArrays (a_points a) (a_faces a) (a_polygons a) (a_walls a) solids (a_zones a))
           (t_pn st) (t_wn st) (t_sn st) (t_zn st) (t_pt st) (t_face st));
    Ok (mkT (t_arr st) (t_pn st) (S (t_wn st)) (t_sn st) (t_zn st) (t_pt st) (t_face st)).

  (** Solid loop (58-90). *)
  Definition put_solid (st : tstate) (s : solid_m) : result tstate :=
    let a := t_arr st in
    do zones <- store (a_zones a) (t_sn st) (t_zn st);
    do st <- foldM put_wall s
      (mkT (mkArrays (a_points a) (a_faces a) (a_polygons a) (a_walls a) (a_solids a) zones)
           (t_pn st) (t_wn st) (t_sn st) (t_zn st) (t_pt st) (t_face st));
    Ok (mkT (t_arr st) (t_pn st) (t_wn st) (S (t_sn st)) (t_zn st) (t_pt st) (t_face st)).

  (** Zone loop (56-91). *)
  Definition put_zone (st : tstate) (z : zone_m) : result tstate :=
    do st <- foldM put_solid z st;
    Ok (mkT (t_arr st) (t_pn st) (t_wn st) (t_sn st) (S (t_zn st)) (t_pt st) (t_face st)).

  Definition sum (l : list nat) : nat := fold_right plus 0 l.

  (** count_objects (153-173): solids, walls, polygons, faces, points. *)
  Definition num_solids (b : building_m) : nat := sum (map (@length _) b).
  (** With the above (io/arrayformat.py:153-173). *)
  Definition num_walls (b : building_m) : nat := sum (map (fun z => sum (map (@length _) z)) b).
  (** With the above (io/arrayformat.py:153-173). *)
  Definition num_polys (b : building_m) : nat :=
    sum (map (fun z => sum (map (fun s => sum (map (@length _) s)) z)) b).
  (** With the above (io/arrayformat.py:153-173). *)
  Definition num_faces (b : building_m) : nat :=
    sum (map (fun z => sum (map (fun s => sum (map (fun w => sum (map (fun p => length (snd p)) w)) s)) z)) b).
  (** With the above (io/arrayformat.py:153-173). *)
  Definition num_pts (b : building_m) : nat :=
    sum (map (fun z => sum (map (fun s => sum (map (fun w => sum (map (fun p => length (fst p)) w)) s)) z)) b).

  (** to_array_format (15-93).  The [num] attributes assigned to the objects
      (57, 60, 65, 70) are the counters; they are not part of the result. *)
  Definition to_array_format (b : building_m) : result arrays :=
    do st <- foldM put_zone b
      (mkT (mkArrays (repeat zero (num_pts b)) (repeat (0, 0, 0) (num_faces b))
                     (repeat 0 (num_faces b)) (repeat 0 (num_polys b))
                     (repeat 0 (num_walls b)) (repeat 0 (num_solids b))) 0 0 0 0 0 0);
    Ok (t_arr st).

  (** [[x for i, x in enumerate(xs) if labels[i] == k]] (133, 140, 147);
      IndexError if labels is shorter than xs. *)
  Fixpoint pick {A} (xs : list A) (labels : list nat) (k : nat) : result (list A) :=
    match xs, labels with
    | [], _ => Ok []
    | _ :: _, [] => Err IndexError
    | x :: xs', l :: labels' =>
        do r <- pick xs' labels' k; Ok (if l =? k then x :: r else r)
    end.

  (** tri_index (195-198): positions i with labels[i] = k, ascending. *)
  Fixpoint positions (i : nat) (labels : list nat) (k : nat) : list nat :=
    match labels with
    | [] => []
    | l :: rest => if l =? k then i :: positions (S i) rest k else positions (S i) rest k
    end.

  (** sorted(list(set)) of natural numbers: insertion into a strictly
      increasing list. *)
  Fixpoint insert_sorted (x : nat) (l : list nat) : list nat :=
    match l with
    | [] => [x]
    | y :: l' => if x <? y then x :: l else if x =? y then l else y :: insert_sorted x l'
    end.

  Definition face_corners (f : face) : list nat := let '(a, b, c) := f in [a; b; c].

  Definition lookup_row {A} (arr : list A) (i : nat) : result A :=
    match nth_error arr i with Some x => Ok x | None => Err IndexError end.

  (** recount (219-223): position in pt_index; KeyError if absent. *)
  Fixpoint index_of (x : nat) (l : list nat) : result nat :=
    match l with
    | [] => Err KeyError
    | y :: l' => if x =? y then Ok 0 else do i <- index_of x l'; Ok (S i)
    end.

  (** get_polygon_points_and_faces (176-237). *)
  Definition get_polygon_points_and_faces (points : list P) (faces : list face)
      (polygons : list nat) (poly_num : nat) : result mesh :=
    let tri_index := positions 0 polygons poly_num in
    let chosen := map snd (filter (fun '(i, _) => existsb (Nat.eqb i) tri_index)
                                  (combine (seq 0 (length faces)) faces)) in
    let pt_index := fold_left (fun s x => insert_sorted x s) (flat_map face_corners chosen) [] in
    do poly_pts <- mapM (lookup_row points) pt_index;
    do poly_tri <- mapM (fun i =>
        do f <- lookup_row faces i;
        let '(a, b, c) := f in
        do a' <- index_of a pt_index; do b' <- index_of b pt_index; do c' <- index_of c pt_index;
        Ok (a', b', c')) tri_index;
    Ok (poly_pts, poly_tri).

  (** Polygon(pts, tri=tri) (geom/polygon/__init__.py:51-85): the assertions;
      [coplanar] stands for are_points_coplanar. *)
  Context (coplanar : list P -> bool).
  Definition new_polygon (p : mesh) : result mesh :=
    if negb (coplanar (fst p)) then Err AssertionError
    else if length (fst p) <? 3 then Err AssertionError
    else if length (snd p) =? 0 then Err AssertionError
    else Ok p.

  (** [np.max(zones) + 1]; ValueError for an empty array. *)
  Definition max_plus_one (zones : list nat) : result nat :=
    match zones with [] => Err ValueError | _ => Ok (S (list_max zones)) end.

  (** from_array_format (96-150).  Random names and uids are left out; clashes
      of random names are excluded. *)
  Definition from_array_format (a : arrays) : result building_m :=
    do num_zones <- max_plus_one (a_zones a);
    do poly_obj <- mapM (fun pi =>
        do m <- get_polygon_points_and_faces (a_points a) (a_faces a) (a_polygons a) pi;
        new_polygon m) (seq 0 (length (a_walls a)));
    do wall_obj <- mapM (fun wi => pick poly_obj (a_walls a) wi) (seq 0 (length (a_solids a)));
    do sld_obj <- mapM (fun si => pick wall_obj (a_solids a) si) (seq 0 (length (a_zones a)));
    mapM (fun zi => pick sld_obj (a_zones a) zi) (seq 0 num_zones).
End Mesh.
