(** Imprinting a polygon in another one (building3d/_to_be_ported/operations/).

    These files import modules that are not in the repository any more.  What is
    modelled is their own code: the class Polygon, its slicing and the search for
    the closest points are arguments, which may raise anything. *)
From Coq Require Import Ascii String List Bool Arith.
From Verif Require Import Prelude UtilModel.
Import ListNotations.

(** A loop that tries again with the points rolled back, at most [more] times
    (operations/imprint_polygon.py:31-51, 73-91): only GeometryError is
    caught. *)
Fixpoint tries {pt B : Type} (f : list pt -> result B) (more : nat) (chain : list pt) : result B :=
  match f chain with
  | Err GeometryError =>
      do chain' <- roll_back chain;
      match more with O => Err GeometryError | S more' => tries f more' chain' end
  | r => r
  end.

Section Cut.
  (** [new] is Polygon(points), [interior] some_interior_point, [slice] the
      method slice with name1, pt1 and name2, [closest]
      find_n_closest_points_between_2_polygons, [same] the equality of points. *)
  Context {P pt : Type} (points : P -> list pt) (name : P -> str) (same : pt -> pt -> bool)
    (new : list pt -> result P) (interior : P -> result pt)
    (slice : P -> list pt -> str -> pt -> str -> result (P * P)) (closest : P -> P -> nat -> result (list (pt * pt))).

  (** Line 17. *)
  Definition free_points (ext int : P) : list pt := filter (fun p => negb (existsb (same p) (points ext))) (points int).
  (** Lines 35-42. *)
  Definition cut_once (ext : P) (chain : list pt) : result (list P) :=
    do ref <- new chain; do x <- interior ref;
    do ab <- slice ext chain (name ext ++ str_of "-1") x (name ext ++ str_of "-2");
    Ok [fst ab; snd ab].
  (** Lines 77-84. *)
  Definition cut_main (ext int main sup ref : P) (chain : list pt) : result (list P) :=
    do x <- interior ref;
    do ab <- slice main chain (name ext ++ str_of "-" ++ name int) x (name ext);
    Ok [fst ab; sup; snd ab].
  (** Lines 53-91. *)
  Definition cut_twice (ext int : P) (chain : list pt) : result (list P) :=
    do pairs <- closest ext int 2;
    match pairs with
    | (e0, i0) :: (e1, i1) :: _ =>
        let sup_chain := [e0; i0; i1; e1] in
        do ref <- new sup_chain; do x <- interior ref;
        do sm <- slice ext sup_chain (name ext ++ str_of "-sup") x (name ext ++ str_of "-main");
        do ref' <- new chain;
        tries (cut_main ext int (snd sm) (fst sm) ref') (length chain) chain
    | _ => Err IndexError
    end.
  (** imprint_polygon (8-92): without free points the first loop does nothing.
      After the last failure of the first loop the points have been rolled back
      as often as there are points, so they are in their first order again;
      the model passes them on as they were. *)
  Definition imprint (ext int : P) : result (list P) :=
    let chain := free_points ext int in
    match chain with
    | [] => Ok []
    | _ => match tries (cut_once ext) (length chain - 1) chain with
           | Err GeometryError => cut_twice ext int chain
           | r => r
           end
    end.
  (** hole_polygon (operations/hole_polygon.py:6-14). *)
  Definition hole (ext int : P) : result (list P) := do ps <- imprint ext int; Ok (tl ps).
End Cut.
