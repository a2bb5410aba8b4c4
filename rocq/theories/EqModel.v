(** Comparing polygons and rounding points
    (geom/polygon/__init__.py, geom/points/__init__.py). *)
From Coq Require Import Reals ZArith List Bool Arith.
From Verif Require Import Prelude VecModel GeomModel.
Import ListNotations.
Local Open Scope R_scope.

(** Polygon.__eq__ (polygon/__init__.py:177-181) on the points of the two
    polygons: np.allclose with its default tolerances, which broadcasts an array
    of one point and raises ValueError for other different numbers of points.
    The other operand is a polygon. *)
Definition polygon_eq (a b : list vec) : result bool :=
  if (length a =? length b)%nat then Ok (forallb (fun pq => allclose (fst pq) (snd pq) RTOL ATOL8) (combine a b))
  else match a, b with
    | [p], _ => Ok (forallb (fun q => allclose p q RTOL ATOL8) b)
    | _, [q] => Ok (forallb (fun p => allclose p q RTOL ATOL8) a)
    | _, _ => Err ValueError
    end.

(** point_to_tuple (points/__init__.py:85-90) with the default number of
    decimals, POINT_NUM_DEC = 8 (config.py:19). *)
Definition point_to_tuple (p : vec) : R * R * R := (round8 (vx p), round8 (vy p), round8 (vz p)).
(** point_to_hash (points/__init__.py:94-96); [hash] is Python's for tuples. *)
Definition point_to_hash (hash : R * R * R -> Z) (p : vec) : Z := hash (point_to_tuple p).
(** is_valid_pt (points/__init__.py:18-23); NaN is None. *)
Definition is_valid_pt (p : option R * option R * option R) : bool :=
  let '(x, y, z) := p in
  negb (existsb (fun c => match c with None => true | Some _ => false end) [x; y; z]).
