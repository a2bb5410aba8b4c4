(** The object hierarchy Building > Zone > Solid > Wall > Polygon as a heap of
    mutable objects, with names, parents and ordered children dictionaries. *)
From Coq Require Import Ascii String List Arith Bool ZArith.
From Verif Require Import Prelude.
Import ListNotations.

(** building3d/geom/paths/__init__.py:1 *)
Definition PATH_SEP : ascii := "/"%char.

(** Python [s.split(c)] for a one-character separator: never returns an empty
    list. *)
Fixpoint split_on (c : ascii) (s : str) : list str :=
  match s with
  | [] => [[]]
  | x :: xs =>
      if Ascii.eqb x c then [] :: split_on c xs
      else match split_on c xs with
           | w :: ws => (x :: w) :: ws
           | [] => [[x]]
           end
  end.

(** Python [c.join(l)]. *)
Fixpoint join_with (c : ascii) (l : list str) : str :=
  match l with
  | [] => []
  | [w] => w
  | w :: ws => w ++ c :: join_with c ws
  end.

(** building3d/geom/paths/split_path.py:4-8 *)
Definition split_path (p : str) : result (list str) :=
  let object_names := split_on PATH_SEP p in
  match object_names with [] => Err ValueError | _ => Ok object_names end.

(** building3d/geom/paths/validate_name.py:4-7 *)
Definition validate_name (name : str) : result str :=
  if existsb (Ascii.eqb PATH_SEP) name then Err ValueError else Ok name.

Inductive kind : Type := KBuilding | KZone | KSolid | KWall | KPolygon.

(** The class of the children of a container. *)
Definition child_kind (k : kind) : option kind :=
  match k with
  | KBuilding => Some KZone
  | KZone => Some KSolid
  | KSolid => Some KWall
  | KWall => Some KPolygon
  | KPolygon => None
  end.

Definition kind_eqb (a b : kind) : bool :=
  match a, b with
  | KBuilding, KBuilding | KZone, KZone | KSolid, KSolid
  | KWall, KWall | KPolygon, KPolygon => true
  | _, _ => false
  end.

(** Objects are identified by their position in the heap (Python identity).
    [o_npts] is the number of points of a polygon (used by the six-component
    form of [get] only). *)
Definition oid : Type := nat.
Record obj : Type := mkObj {
  o_kind : kind;
  o_name : str;
  o_parent : option oid;
  o_children : dict str oid;
  o_npts : nat
}.
Definition heap : Type := list obj.

Definition set_parent (o : obj) (p : oid) : obj :=
  mkObj (o_kind o) (o_name o) (Some p) (o_children o) (o_npts o).
Definition set_children (o : obj) (d : dict str oid) : obj :=
  mkObj (o_kind o) (o_name o) (o_parent o) d (o_npts o).

(** Dereferencing an object; a dangling id never occurs in reachable heaps. *)
Definition deref (h : heap) (i : oid) : result obj :=
  match nth_error h i with Some o => Ok o | None => Err AttributeError end.

(** Result of a mutating call: the heap after the call (also when it raised)
    and the outcome. *)
Definition outcome : Type := heap * result unit.

(** Building.add_zone (building/__init__.py:74-81), Zone.add_solid
    (zone/__init__.py:74-86), Solid.add_wall (solid/__init__.py:75-81),
    Wall.add_polygon (wall/__init__.py:71-81): the four methods have the same
    body.  Simplification: Python does not check the class of the argument;
    here adding an object of the wrong class is rejected with TypeError. *)
Definition add_child (h : heap) (p c : oid) : outcome :=
  match deref h p, deref h c with
  | Ok po, Ok co =>
      match child_kind (o_kind po) with
      | Some k =>
          if kind_eqb k (o_kind co) then
            if memb (o_name co) (dkeys (o_children po)) then (h, Err GeometryError)
            else
              let h := set_nth h c (set_parent co p) in
              let h := set_nth h p (set_children po (dset (o_children po) (o_name co) c)) in
              (h, Ok tt)
          else (h, Err TypeError)
      | None => (h, Err TypeError)
      end
  | _, _ => (h, Err AttributeError)
  end.

(** The loop [for x in xs: self.add_...(x)] of the constructors
    (building:52-53, zone:49-50, solid:52-53, wall:48-49) and of
    replace_polygon (wall:85-86): stops at the first exception. *)
Fixpoint add_children (h : heap) (p : oid) (cs : list oid) : outcome :=
  match cs with
  | [] => (h, Ok tt)
  | c :: cs' =>
      match add_child h p c with
      | (h', Ok _) => add_children h' p cs'
      | (h', Err e) => (h', Err e)
      end
  end.

(** Constructors (building:30-60, zone:23-52, solid:27-53, wall:20-49,
    polygon:42-90).  [validate_name] comes first; then the (still unreachable)
    object receives its children one by one.  Simplifications: the name is
    always given (random names are arbitrary names); the [parent] argument,
    which no caller in the package passes, keeps its default None; a polygon's
    geometry is not part of this file. *)
Definition new_object (h : heap) (k : kind) (name : str) (npts : nat)
    (cs : list oid) : outcome :=
  match validate_name name with
  | Err e => (h, Err e)
  | Ok name =>
      let h' := h ++ [mkObj k name None [] npts] in
      match k with
      | KPolygon => (h', match cs with [] => Ok tt | _ => Err TypeError end)
      | _ => add_children h' (length h) cs
      end
  end.

(** Wall.replace_polygon (wall/__init__.py:83-86): [del] then additions. *)
Definition replace_polygon (h : heap) (w : oid) (old_name : str) (news : list oid)
    : outcome :=
  match deref h w with
  | Ok wo =>
      match o_kind wo with
      | KWall =>
          match dget (o_children wo) old_name with
          | None => (h, Err KeyError)
          | Some _ =>
              let h := set_nth h w (set_children wo (ddel (o_children wo) old_name)) in
              add_children h w news
          end
      | _ => (h, Err AttributeError)
      end
  | Err e => (h, Err e)
  end.

(** Solid.replace_wall (solid/__init__.py:83-85). *)
Definition replace_wall (h : heap) (s : oid) (old_name : str) (new_wall : oid)
    : outcome :=
  match deref h s with
  | Ok so =>
      match o_kind so with
      | KSolid =>
          match dget (o_children so) old_name with
          | None => (h, Err KeyError)
          | Some _ =>
              let h := set_nth h s (set_children so (ddel (o_children so) old_name)) in
              add_child h s new_wall
          end
      | _ => (h, Err AttributeError)
      end
  | Err e => (h, Err e)
  end.

(** The public mutating operations. *)
Inductive op : Type :=
| OpNew (k : kind) (name : str) (npts : nat) (children : list oid)
| OpAdd (parent child : oid)
| OpReplaceWall (solid : oid) (old_name : str) (new_wall : oid)
| OpReplacePolygon (wall : oid) (old_name : str) (new_polys : list oid).

Definition step (h : heap) (o : op) : outcome :=
  match o with
  | OpNew k n m cs => new_object h k n m cs
  | OpAdd p c => add_child h p c
  | OpReplaceWall s n w => replace_wall h s n w
  | OpReplacePolygon w n ps => replace_polygon h w n ps
  end.

(** A program run: exceptions are caught by the caller and the run goes on. *)
Fixpoint run (h : heap) (ops : list op) : heap :=
  match ops with
  | [] => h
  | o :: os => run (fst (step h o)) os
  end.

(** The [path] properties: building:70-72, zone:66-72, solid:67-73,
    wall:63-69, polygon:104-110.  Walks the parents; [fuel] bounds the number
    of parents visited. *)
Fixpoint path_fuel (fuel : nat) (h : heap) (i : oid) : result str :=
  match fuel with
  | O => Err OutOfFuel
  | S fuel' =>
      do o <- deref h i;
      match o_kind o, o_parent o with
      | KBuilding, _ => Ok (o_name o)
      | _, None => Ok (o_name o)
      | _, Some p => do pp <- path_fuel fuel' h p; Ok (join_with PATH_SEP [pp; o_name o])
      end
  end.

(** At most five levels exist, so five objects are visited. *)
Definition path (h : heap) (i : oid) : result str := path_fuel 5 h i.

(** [self[key]]: Building/Zone/Solid/Wall.__getitem__ (building:241-242,
    zone:141-142, solid:263-264, wall:133-134). *)
Definition getitem (h : heap) (i : oid) (key : str) : result oid :=
  do o <- deref h i; dlookup (o_children o) key.

Inductive got : Type :=
| GotObj (i : oid)              (* an object *)
| GotPoint (i : oid) (k : nat). (* row k of the points of polygon i *)

(** Index a polygon's point array with Python index semantics
    (polygon/__init__.py:191-192; negative indices count from the end). *)
Definition point_at (h : heap) (i : oid) (ix : Z) : result got :=
  do o <- deref h i;
  let n := Z.of_nat (o_npts o) in
  if (0 <=? ix)%Z && (ix <? n)%Z then Ok (GotPoint i (Z.to_nat ix))
  else if (- n <=? ix)%Z && (ix <? 0)%Z then Ok (GotPoint i (Z.to_nat (ix + n)))
  else Err IndexError.

Section Get.
  (** Python [int(str)]; None stands for ValueError. *)
  Variable int_of : str -> option Z.

  (** Building.get (building/__init__.py:83-128). *)
  Definition building_get (h : heap) (b : oid) (abspath : str) : result got :=
    do bo <- deref h b;
    match split_on PATH_SEP abspath with
    | [] => Err AssertionError
    | bn :: rest =>
        if negb (eqb bn (o_name bo)) then Err AssertionError else
        match rest with
        | [] => Ok (GotObj b)
        | [zn] => do z <- getitem h b zn; Ok (GotObj z)
        | [zn; sn] => do z <- getitem h b zn; do s <- getitem h z sn; Ok (GotObj s)
        | [zn; sn; wn] =>
            do z <- getitem h b zn; do s <- getitem h z sn; do w <- getitem h s wn;
            Ok (GotObj w)
        | [zn; sn; wn; pn] =>
            do z <- getitem h b zn; do s <- getitem h z sn; do w <- getitem h s wn;
            do p <- getitem h w pn; Ok (GotObj p)
        | [zn; sn; wn; pn; ix] =>
            match int_of ix with
            | None => Err ValueError
            | Some k =>
                do z <- getitem h b zn; do s <- getitem h z sn; do w <- getitem h s wn;
                do p <- getitem h w pn; point_at h p k
            end
        | _ => Err ValueError
        end
    end.

  (** [while obj.parent is not None: obj = obj.parent] in Zone.get (zone:88-94),
      Solid.get (solid:87-93), Wall.get (wall:88-94), Polygon.get
      (polygon:115-121); Building.parent is None (building:66-68). *)
  Fixpoint root_fuel (fuel : nat) (h : heap) (i : oid) : result oid :=
    match fuel with
    | O => Err OutOfFuel
    | S fuel' =>
        do o <- deref h i;
        match o_kind o, o_parent o with
        | KBuilding, _ | _, None => Ok i
        | _, Some p => root_fuel fuel' h p
        end
    end.

  (** [obj.get(abspath)] for an object of any class.  If the root is not a
      building, [root.get] calls itself for ever (RecursionError). *)
  Definition obj_get (h : heap) (i : oid) (abspath : str) : result got :=
    do r <- root_fuel 5 h i;
    do ro <- deref h r;
    match o_kind ro with
    | KBuilding => building_get h r abspath
    | _ => Err RecursionError
    end.
End Get.

Fixpoint concatM {A B} (f : A -> result (list B)) (l : list A) : result (list B) :=
  match l with
  | [] => Ok []
  | x :: xs => do y <- f x; do ys <- concatM f xs; Ok (y ++ ys)
  end.

Definition kids (h : heap) (i : oid) : result (dict str oid) :=
  do o <- deref h i; Ok (o_children o).

(** Building.get_polygon_paths (building/__init__.py:130-141). *)
Definition building_polygon_paths (h : heap) (b : oid) : result (list str) :=
  do bo <- deref h b;
  let bn := o_name bo in
  concatM (fun '(zn, z) =>
    do ss <- kids h z;
    concatM (fun '(sn, s) =>
      do ws <- kids h s;
      concatM (fun '(wn, w) =>
        do ps <- kids h w;
        Ok (map (fun '(pn, _) => join_with PATH_SEP [bn; zn; sn; wn; pn]) ps)) ws) ss)
    (o_children bo).

(** The attribute chain [x.parent] with [assert x.parent is not None]. *)
Definition parent_asserted (h : heap) (i : oid) : result oid :=
  do o <- deref h i;
  match o_parent o with Some p => Ok p | None => Err AssertionError end.

(** Zone.get_polygon_paths (zone/__init__.py:96-109). *)
Definition zone_polygon_paths (h : heap) (z : oid) : result (list str) :=
  do b <- parent_asserted h z;
  do bo <- deref h b;
  do zo <- deref h z;
  let bn := o_name bo in
  let zn := o_name zo in
  concatM (fun '(sn, s) =>
    do ws <- kids h s;
    concatM (fun '(wn, w) =>
      do ps <- kids h w;
      Ok (map (fun '(pn, _) => join_with PATH_SEP [bn; zn; sn; wn; pn]) ps)) ws)
    (o_children zo).

(** Solid.get_polygon_paths (solid/__init__.py:95-109). *)
Definition solid_polygon_paths (h : heap) (s : oid) : result (list str) :=
  do z <- parent_asserted h s;
  do b <- parent_asserted h z;
  do bo <- deref h b;
  do zo <- deref h z;
  do so <- deref h s;
  let bn := o_name bo in
  let zn := o_name zo in
  let sn := o_name so in
  concatM (fun '(wn, w) =>
    do ps <- kids h w;
    Ok (map (fun '(pn, _) => join_with PATH_SEP [bn; zn; sn; wn; pn]) ps))
    (o_children so).

(** Wall.get_polygon_paths (wall/__init__.py:96-111). *)
Definition wall_polygon_paths (h : heap) (w : oid) : result (list str) :=
  do s <- parent_asserted h w;
  do z <- parent_asserted h s;
  do b <- parent_asserted h z;
  do bo <- deref h b;
  do zo <- deref h z;
  do so <- deref h s;
  do wo <- deref h w;
  Ok (map (fun '(pn, _) =>
    join_with PATH_SEP [o_name bo; o_name zo; o_name so; o_name wo; pn]) (o_children wo)).

(** stitch.get_walls_and_polygons (geom/solid/stitch.py:150-158). *)
Definition walls_and_polygons (h : heap) (s : oid) : result (list (oid * oid)) :=
  do ws <- kids h s;
  concatM (fun '(_, w) => do ps <- kids h w; Ok (map (fun '(_, p) => (w, p)) ps)) ws.

(** stitch.replace_polygon (geom/solid/stitch.py:142-147).  The list of pairs
    is built before the loop starts. *)
Fixpoint replace_named (h : heap) (wpl : list (oid * oid)) (old_name : str)
    (news : list oid) : outcome :=
  match wpl with
  | [] => (h, Ok tt)
  | (w, p) :: rest =>
      match deref h p with
      | Err e => (h, Err e)
      | Ok po =>
          if eqb (o_name po) old_name then
            match replace_polygon h w (o_name po) news with
            | (h', Ok _) => replace_named h' rest old_name news
            | (h', Err e) => (h', Err e)
            end
          else replace_named h rest old_name news
      end
  end.

Definition solid_replace_polygon (h : heap) (s old : oid) (news : list oid) : outcome :=
  match walls_and_polygons h s, deref h old with
  | Ok wpl, Ok oo => replace_named h wpl (o_name oo) news
  | Err e, _ => (h, Err e)
  | _, Err e => (h, Err e)
  end.
