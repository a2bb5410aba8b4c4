(** Mesh containers: PolyMesh, SolidMesh and Mesh
    (building3d/_to_be_ported/mesh/{polymesh,solidmesh,mesh}.py).

    Like the other files there they import modules that are gone.  Polygons and
    solids are of arbitrary types with the attributes that are used; methods
    that fail leave what they did before, so a method's result is the new state
    and perhaps an exception.  Lists are values: a list that two objects share
    (SolidMesh.copy without arguments, reinit with lists) is not tracked; the
    lists in the argument of PolyMesh.generate, which it extends, are. *)
From Coq Require Import Ascii String Reals List Bool Arith.
From Verif Require Import Prelude TreeModel MeshModel VecModel GeomModel TriModel PolyModel MshModel.
Import ListNotations.
Local Open Scope R_scope.

(** The attributes filled by generate (polymesh.py:27-32, solidmesh.py:30-36);
    [md_els] are the faces or elements, [md_sizes] the areas or volumes. *)
Record mesh_data := MD {
  md_vs : list vec;
  md_vown : dict str (list nat);
  md_els : list element;
  md_eown : dict str (list nat);
  md_sizes : list R
}.
(** PolyMesh.__init__ (polymesh.py:28-32), SolidMesh.__init__ (solidmesh.py:31-36). *)
Definition md_empty : mesh_data := MD [] [] [] [] [].
(** The second branch of reinit (polymesh.py:49-52, solidmesh.py:53-56): the
    areas or volumes stay. *)
Definition md_reset (d : mesh_data) : mesh_data := MD [] [] [] [] (md_sizes d).

(** _add_vertices (polymesh.py:116-132, solidmesh.py:137-153); rows of
    different lengths make no array of numbers. *)
Definition add_vertices (d : mesh_data) (owner : str) (vs : list vec) (els : list element) : result mesh_data :=
  if rectangular els then
    let n := length (md_vs d) in
    let k := length (md_els d) in
    Ok (MD (md_vs d ++ vs) (dset (md_vown d) owner (seq n (length vs)))
           (md_els d ++ map (map (fun x => (x + n)%nat)) els) (dset (md_eown d) owner (seq k (length els))) (md_sizes d))
  else Err ValueError.

(** for x in l: out.append(f(x)) where f may raise. *)
Fixpoint collect {A B} (f : A -> result B) (l : list A) : list B * option pyerr :=
  match l with
  | [] => ([], None)
  | x :: r => match f x with Ok y => (y :: fst (collect f r), snd (collect f r)) | Err e => ([], Some e) end
  end.
(** _recalc_areas (polymesh.py:134-140), _recalc_volumes (solidmesh.py:155-164). *)
Definition recalc (size : list vec -> element -> result R) (d : mesh_data) : mesh_data * option pyerr :=
  let '(l, e) := collect (size (md_vs d)) (md_els d) in (MD (md_vs d) (md_vown d) (md_els d) (md_eown d) l, e).
(** The area of one face (polymesh.py:137-140). *)
Definition face_area (vs : list vec) (f : element) : result R :=
  do p0 <- (do i <- at_index f 0; at_index vs i);
  do p1 <- (do i <- at_index f 1; at_index vs i);
  do p2 <- (do i <- at_index f 2; at_index vs i);
  Ok (triangle_area p0 p1 p2).

(** The first branch of reinit (polymesh.py:42-47, solidmesh.py:46-51); it is
    taken if none of the four arguments is empty.  None stands for a missing
    argument and is the same as an empty one. *)
Definition reinit (size : list vec -> element -> result R) (d : mesh_data)
    (vs : list vec) (vown : dict str (list nat)) (els : list element) (eown : dict str (list nat)) : mesh_data * option pyerr :=
  match vs, vown, els, eown with
  | _ :: _, _ :: _, _ :: _, _ :: _ => recalc size (MD vs vown els eown (md_sizes d))
  | _, _, _, _ => (md_reset d, None)
  end.

Section Poly.
  Context {P : Type} (uid : P -> str) (facing : P -> P -> bool).
  (** The calls of delaunay_triangulation in one generate, by their number:
      polygon and fixed points to vertices and faces. *)
  Context (triang : nat -> P -> list vec -> result (list vec * list element)).

  (** PolyMesh (polymesh.py:17-32); delta is part of [triang]. *)
  Record polymesh := PM { pm_polys : dict str P; pm_data : mesh_data }.
  (** With the above (polymesh.py:17-32). *)
  Definition pm_empty : polymesh := PM [] md_empty.
  (** add_polygon (54-58). *)
  Definition pm_add (m : polymesh) (p : P) : result polymesh :=
    if memb (uid p) (dkeys (pm_polys m)) then Err MeshError else Ok (PM (dset (pm_polys m) (uid p) p) (pm_data m)).
  (** get_vertices_per_polygon (60-68). *)
  Definition vertices_per_polygon (m : polymesh) : result (dict str (list vec)) :=
    foldM (fun d u => do own <- dlookup (md_vown (pm_data m)) u; do l <- mapM (at_index (md_vs (pm_data m))) own; Ok (dset d u l))
      (dkeys (pm_polys m)) [].
  (** matching_pairs (79-84). *)
  Definition matching_pairs (polys : dict str P) : dict str str :=
    fold_left (fun d xy => if negb (eqb (fst (fst xy)) (fst (snd xy))) && facing (snd (fst xy)) (snd (snd xy))
                           then dset d (fst (fst xy)) (fst (snd xy)) else d) (list_prod polys polys) [].
  (** What lines 92-103 add to the list of fixed points. *)
  Definition partner_points (pairs : dict str str) (done : dict str (list vec)) (u : str) : list vec :=
    match dget pairs u with Some v => match dget done v with Some l => l | None => [] end | None => [] end.
  (** The loop (89-111).  The state: the caller's fixed_points, poly_vertices
      and the mesh.  A list found in fixed_points is extended in place. *)
  Fixpoint pm_loop (pairs : dict str str) (k : nat) (polys : dict str P) (fixed done : dict str (list vec)) (d : mesh_data)
      : dict str (list vec) * mesh_data * option pyerr :=
    match polys with
    | [] => (fixed, d, None)
    | (u, p) :: r =>
        let more := partner_points pairs done u in
        let fixed' := match dget fixed u with Some l => dset fixed u (l ++ more) | None => fixed end in
        let pts := match dget fixed u with Some l => l ++ more | None => more end in
        match triang k p pts with
        | Err e => (fixed', d, Some e)
        | Ok (vs, fs) =>
            match add_vertices d u vs fs with
            | Err e => (fixed', d, Some e)
            | Ok d' => pm_loop pairs (S k) r fixed' (dset done u vs) d'
            end
        end
    end.
  (** generate (70-114). *)
  Definition pm_generate (m : polymesh) (fixed : dict str (list vec)) : polymesh * dict str (list vec) * option pyerr :=
    let '(fixed', d, e) := pm_loop (matching_pairs (pm_polys m)) 0 (pm_polys m) fixed [] (md_reset (pm_data m)) in
    match e with
    | Some x => (PM (pm_polys m) d, fixed', Some x)
    | None => let '(d', e') := recalc face_area d in (PM (pm_polys m) d', fixed', e')
    end.
End Poly.

Section Solid.
  Context {S' : Type} (suid sname : S' -> str) (svolume : S' -> R).
  (** The calls of delaunay_tetrahedralization for a solid, by their number. *)
  Context (tetra : S' -> nat -> dict str (list vec) -> result (list vec * list element)).

  (** SolidMesh (solidmesh.py:21-36); delta is part of [tetra]. *)
  Record solidmesh := SM { sm_solids : dict str S'; sm_data : mesh_data }.
  (** With the above (solidmesh.py:21-36). *)
  Definition sm_empty : solidmesh := SM [] md_empty.
  (** add_solid (58-65). *)
  Definition sm_add (m : solidmesh) (s : S') : result solidmesh :=
    if memb (suid s) (dkeys (sm_solids m)) then Err MeshError else Ok (SM (dset (sm_solids m) (suid s) s) (sm_data m)).
  (** SOLID_MESH_MAX_TRIES (config.py:32). *)
  Definition SOLID_MESH_MAX_TRIES : nat := 10.
  (** The while loop (71-98); [fuel] tries are left, [k] were made, [cur] is
      mesh_volume, vertices and elements.  The division in line 94 is numpy's
      and its result is only printed. *)
  Fixpoint try_mesh (fuel k : nat) (s : S') (bv : dict str (list vec)) (cur : R * list vec * list element)
      : result (list vec * list element) :=
    let '(mv, vs, els) := cur in
    if isclose mv (svolume s) GEOM_RTOL ATOL8 then Ok (vs, els)
    else match fuel with
         | O => Err MeshError
         | S fuel' =>
             do m <- tetra s k bv;
             do v <- total_volume (fst m) (snd m);
             try_mesh fuel' (S k) s bv (v, fst m, snd m)
         end.
  (** The loop over the solids (70-101); owners are names, not uids. *)
  Fixpoint sm_loop (bv : dict str (list vec)) (solids : list S') (d : mesh_data) : mesh_data * option pyerr :=
    match solids with
    | [] => (d, None)
    | s :: r =>
        match try_mesh SOLID_MESH_MAX_TRIES 0 s bv (-1, [], []) with
        | Err e => (d, Some e)
        | Ok (vs, els) =>
            match add_vertices d (sname s) vs els with Err e => (d, Some e) | Ok d' => sm_loop bv r d' end
        end
    end.
  (** generate (67-104). *)
  Definition sm_generate (m : solidmesh) (bv : dict str (list vec)) : solidmesh * option pyerr :=
    let '(d, e) := sm_loop bv (dvals (sm_solids m)) (sm_data m) in
    match e with
    | Some x => (SM (sm_solids m) d, Some x)
    | None => let '(d', e') := recalc element_volume d in (SM (sm_solids m) d', e')
    end.
  (** copy (106-135).  Owners stay empty.  In line 120 a number is looked for
      in a list of elements, which are tuples or lists, so none is found. *)
  Definition sm_copy (m : solidmesh) (elements : option (list element)) (max_vol : option R) : result solidmesh :=
    match elements, max_vol with
    | Some els, _ => do q <- purge_mesh (md_vs (sm_data m)) els; Ok (SM (sm_solids m) (MD (fst q) [] (snd q) [] []))
    | None, Some v =>
        do q <- purge_mesh (md_vs (sm_data m)) (map fst (filter (fun x => Rltb (snd x) v) (combine (md_els (sm_data m)) (md_sizes (sm_data m)))));
        Ok (SM (sm_solids m) (MD (fst q) [] (snd q) [] (filter (fun x => Rltb x v) (md_sizes (sm_data m)))))
    | None, None => Ok (SM (sm_solids m) (MD (md_vs (sm_data m)) [] (md_els (sm_data m)) [] (md_sizes (sm_data m))))
    end.
End Solid.

(** Mesh (mesh.py:17-86).  A zone is the list of its solids and a building that
    of its zones, in the order of the dictionaries. *)
Section Whole.
  Context {P S' : Type} (uid : P -> str) (suid sname : S' -> str) (svolume : S' -> R) (walls : S' -> list P).
  Context (facing : P -> P -> bool) (triang : nat -> P -> list vec -> result (list vec * list element)).
  Context (tetra : S' -> nat -> dict str (list vec) -> result (list vec * list element)).

  (** Mesh.__init__ (mesh.py:19-25). *)
  Record wmesh := WM { wm_poly : @polymesh P; wm_solid : @solidmesh S' }.
  (** With the above (mesh.py:19-25). *)
  Definition wm_empty : wmesh := WM pm_empty sm_empty.
  (** Run a method for each item until one raises. *)
  Fixpoint each {A M} (f : M -> A -> M * option pyerr) (m : M) (l : list A) : M * option pyerr :=
    match l with
    | [] => (m, None)
    | x :: r => match f m x with (m', None) => each f m' r | (m', Some e) => (m', Some e) end
    end.
  (** add_polygon (27-32). *)
  Definition wm_add_polygon (m : wmesh) (p : P) : wmesh * option pyerr :=
    match pm_add uid (wm_poly m) p with Ok q => (WM q (wm_solid m), None) | Err e => (m, Some e) end.
  (** add_solid (34-42); [walls] are the top polygons of its walls. *)
  Definition wm_add_solid (m : wmesh) (s : S') : wmesh * option pyerr :=
    match sm_add suid (wm_solid m) s with
    | Ok q => each wm_add_polygon (WM (wm_poly m) q) (walls s)
    | Err e => (m, Some e)
    end.
  (** add_zone (44-47), add_building (49-63). *)
  Definition wm_add_zone (m : wmesh) (z : list S') : wmesh * option pyerr := each wm_add_solid m z.
  (** With the above (mesh.py:49-63). *)
  Definition wm_add_building (m : wmesh) (b : list (list S')) : wmesh * option pyerr := each wm_add_zone m b.
  (** generate (65-80). *)
  Definition wm_generate (m : wmesh) (solid : bool) : wmesh * option pyerr :=
    match pm_generate facing triang (wm_poly m) [] with
    | (pm, _, Some e) => (WM pm (wm_solid m), Some e)
    | (pm, _, None) =>
        match vertices_per_polygon pm with
        | Err e => (WM pm (wm_solid m), Some e)
        | Ok bv => if solid then let '(sm, e) := sm_generate sname svolume tetra (wm_solid m) bv in (WM pm sm, e)
                   else (WM pm (wm_solid m), None)
        end
    end.
End Whole.
