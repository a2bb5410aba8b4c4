(** Numbers and vectors.  float64 is modelled by the real numbers: no
    rounding, no overflow.  NaN is represented where it can occur (option). *)
From Coq Require Import Reals List Bool Lra.
Import ListNotations.
Local Open Scope R_scope.

(** Comparisons as booleans (numpy <, <=, ==). *)
Definition Rltb (x y : R) : bool := if Rlt_dec x y then true else false.
Definition Rleb (x y : R) : bool := if Rle_dec x y then true else false.
Definition Reqb (x y : R) : bool := if Req_EM_T x y then true else false.

(** Points and vectors: arrays of shape (3,) (geom/points/__init__.py:13-15,
    geom/vectors.py:10-12). *)
Record vec := V { vx : R; vy : R; vz : R }.

(** Elementwise array arithmetic, np.dot, np.cross, np.linalg.norm for shape (3,). *)
Definition vzero : vec := V 0 0 0.
Definition vadd (a b : vec) : vec := V (vx a + vx b) (vy a + vy b) (vz a + vz b).
Definition vsub (a b : vec) : vec := V (vx a - vx b) (vy a - vy b) (vz a - vz b).
Definition smul (k : R) (a : vec) : vec := V (k * vx a) (k * vy a) (k * vz a).
Definition dot (a b : vec) : R := vx a * vx b + vy a * vy b + vz a * vz b.
Definition cross (a b : vec) : vec :=
  V (vy a * vz b - vz a * vy b) (vz a * vx b - vx a * vz b) (vx a * vy b - vy a * vx b).
Definition norm (a : vec) : R := sqrt (dot a a).

Definition Rsum (l : list R) : R := fold_right Rplus 0 l.
