(** Stitching two solids (geom/solid/stitch.py).  A solid is the dictionary of
    its walls and a wall the dictionary of its polygons; only their contents
    matter here, so they are values that are passed on (the two solids are
    different objects and share no wall).  A function that changes a solid
    returns it also when it raises. *)
From Coq Require Import Ascii String Reals List Bool Arith.
From Verif Require Import Prelude TreeModel VecModel GeomModel TriModel PolyModel SolidModel VisModel SliceModel.
Import ListNotations.
Local Open Scope R_scope.

(** A polygon with its name; Wall.polygons and Solid.walls. *)
Definition npoly : Type := str * polygon.
Definition wall : Type := dict str polygon.
Definition solid : Type := dict str wall.

(** get_walls_and_polygons (150-158). *)
Definition walls_and_polys (s : solid) : list (str * npoly) := concat (map (fun w => map (pair (fst w)) (snd w)) s).

(** Polygon.contains_polygon (polygon/__init__.py:158-163) with any margin. *)
Definition contains_margin (margin : R) (p q : polygon) : result bool :=
  allM (fun pt => is_point_inside_margin pt margin (p_pts p) (p_tri p)) (p_pts q).
(** The margin of lines 48-49. *)
Definition with_boundary : R := -1000000.

(** next_adjacent_polygons (31-41); the condition of lines 35-37. *)
Definition adjacent (p q : polygon) : result bool :=
  do overlapping <- are_polygons_crossing (p_pts p) (p_tri p) (p_pts q) (p_tri q);
  do c <- contains_margin GEOM_ATOL p q;
  do within <- (if c then Ok true else contains_margin GEOM_ATOL q p);
  Ok (overlapping || within).
Fixpoint first_adjacent (pairs : list (npoly * npoly)) : result (option (npoly * npoly)) :=
  match pairs with
  | [] => Ok None
  | (p, q) :: r => do b <- adjacent (snd p) (snd q); if b then Ok (Some (p, q)) else first_adjacent r
  end.
Definition polys (s : solid) : list npoly := map snd (walls_and_polys s).
Definition next_adjacent (s1 s2 : solid) : result (option (npoly * npoly)) :=
  first_adjacent (concat (map (fun p => map (pair p) (polys s2)) (polys s1))).

(** Wall.add_polygon and Wall.replace_polygon (wall/__init__.py:70-85). *)
Fixpoint add_polys (w : wall) (news : list npoly) : wall * result unit :=
  match news with
  | [] => (w, Ok tt)
  | n :: r => if memb (fst n) (dkeys w) then (w, Err GeometryError) else add_polys (w ++ [n]) r
  end.
Definition wall_replace (w : wall) (old : str) (news : list npoly) : wall * result unit :=
  if memb old (dkeys w) then add_polys (ddel w old) news else (w, Err KeyError).
(** replace_polygon (142-147): the list is made before the loop. *)
Fixpoint replace_loop (s : solid) (wpl : list (str * npoly)) (old : str) (news : list npoly) : solid * result unit :=
  match wpl with
  | [] => (s, Ok tt)
  | (wn, p) :: r =>
      if eqb (fst p) old then
        match dget s wn with
        | None => (s, Err KeyError)
        | Some w =>
            let '(w', res) := wall_replace w (fst p) news in
            let s' := dset s wn w' in
            match res with Ok _ => replace_loop s' r old news | Err e => (s', Err e) end
        end
      else replace_loop s r old news
  end.
Definition replace_polygon (s : solid) (old : str) (news : list npoly) : solid * result unit :=
  replace_loop s (walls_and_polys s) old news.

(** remove_outside_points (161-170). *)
Definition remove_outside (p : polygon) (pts : list vec) : result (list vec) :=
  do ins <- mapM (fun pt => do b <- is_point_inside pt (p_pts p) (p_tri p) true GEOM_ATOL; Ok (if b then [pt] else [])) pts;
  Ok (concat ins).

(** Lines 131-134: np.allclose with its default tolerances; the flipped polygon
    gets a random name, here [rid]. *)
Definition face_like (vn : vec) (rid : str) (np : npoly) : result npoly :=
  if allclose (p_vn (snd np)) vn RTOL ATOL8 then Ok np else flip_named rid (snd np).
(** Lines 119-134 of slice_one_and_replace. *)
Definition slice_one (rid : str) (p : npoly) (pts : list vec) : result (option (npoly * npoly)) :=
  do o <- add_intersection_points (p_pts (snd p)) pts;
  do ch <- remove_outside (snd p) (snd o);
  if (length ch <? 2)%nat then Ok None
  else
    match slice_polygon (snd p) ch None (Some (fst p ++ str_of "-main")) None (Some (fst p ++ str_of "-sup")) rid rid with
    | Err GeometryError => Ok None
    | Err e => Err e
    | Ok (a, b) =>
        do a' <- face_like (p_vn (snd p)) rid a;
        do b' <- face_like (p_vn (snd p)) rid b;
        Ok (Some (a', b'))
    end.
(** slice_one_and_replace (105-139). *)
Definition slice_one_and_replace (rid : str) (s : solid) (p : npoly) (pts : list vec) : solid * result (option (npoly * npoly)) :=
  match slice_one rid p pts with
  | Err e => (s, Err e)
  | Ok None => (s, Ok None)
  | Ok (Some (a, b)) =>
      match replace_polygon s (fst p) [a; b] with
      | (s', Ok _) => (s', Ok (Some (a, b)))
      | (s', Err e) => (s', Err e)
      end
  end.

(** get_sup_cut (95-102) for the two pairs found by find_close_pairs; it needs
    two points at least. *)
Definition get_sup_cut (pairs : list (vec * vec)) : result (list vec) :=
  match concat (map (fun pq => [fst pq; snd pq]) pairs) with
  | a :: b :: r => Ok (b :: a :: r)
  | _ => Err IndexError
  end.
(** Lines 68-79: the larger polygon is cut twice. *)
Definition slice_twice (rid : str) (s : solid) (p : npoly) (cut pts : list vec) : solid * result unit :=
  match slice_one_and_replace rid s p cut with
  | (s', Err e) => (s', Err e)
  | (s', Ok None) => (s', Err AssertionError)
  | (s', Ok (Some (main, _))) =>
      match slice_one_and_replace rid s' main pts with
      | (s'', Ok _) => (s'', Ok tt)
      | (s'', Err e) => (s'', Err e)
      end
  end.
(** Dropping the returned polygons. *)
Definition ignore {A} (r : solid * result A) : solid * result unit := (fst r, match snd r with Ok _ => Ok tt | Err e => Err e end).

(** slice_both_and_replace (44-92). *)
Definition slice_both (rid : str) (s1 : solid) (p1 : npoly) (s2 : solid) (p2 : npoly) : (solid * solid) * result unit :=
  let on1 := fun r : solid * result unit => ((fst r, s2), snd r) in
  let on2 := fun r : solid * result unit => ((s1, fst r), snd r) in
  let tests :=
    do a <- contains_margin GEOM_ATOL (snd p1) (snd p2);
    do b <- contains_margin GEOM_ATOL (snd p2) (snd p1);
    do c <- contains_margin with_boundary (snd p1) (snd p2);
    do d <- contains_margin with_boundary (snd p2) (snd p1);
    Ok (a, b, c, d) in
  match tests with
  | Err e => ((s1, s2), Err e)
  | Ok (p2_in_p1, p1_in_p2, p2_in_p1_bnd, p1_in_p2_bnd) =>
      if p2_in_p1 || p1_in_p2 then
        match (do pairs <- find_close_pairs (p_pts (snd p1)) (p_pts (snd p2)) 2 true; get_sup_cut pairs) with
        | Err e => ((s1, s2), Err e)
        | Ok cut =>
            if p2_in_p1 then on1 (slice_twice rid s1 p1 cut (p_pts (snd p2)))
            else on2 (slice_twice rid s2 p2 cut (p_pts (snd p1)))
        end
      else if p1_in_p2_bnd then on2 (ignore (slice_one_and_replace rid s2 p2 (p_pts (snd p1))))
      else if p2_in_p1_bnd then on1 (ignore (slice_one_and_replace rid s1 p1 (p_pts (snd p2))))
      else
        match slice_one_and_replace rid s1 p1 (p_pts (snd p2)) with
        | (s1', Err e) => ((s1', s2), Err e)
        | (s1', Ok _) =>
            let r := slice_one_and_replace rid s2 p2 (p_pts (snd p1)) in
            ((s1', fst r), match snd r with Ok _ => Ok tt | Err e => Err e end)
        end
  end.

(** stitch_solids (16-28).  The fuel is the number of calls; Python's own limit
    on nested calls is about a thousand. *)
Fixpoint stitch (rid : str) (fuel : nat) (s1 s2 : solid) : (solid * solid) * result unit :=
  match fuel with
  | O => ((s1, s2), Err OutOfFuel)
  | S n =>
      match next_adjacent s1 s2 with
      | Err e => ((s1, s2), Err e)
      | Ok None => ((s1, s2), Ok tt)
      | Ok (Some (p1, p2)) =>
          match slice_both rid s1 p1 s2 p2 with
          | ((s1', s2'), Err e) => ((s1', s2'), Err e)
          | ((s1', s2'), Ok _) => stitch rid n s1' s2'
          end
      end
  end.
