(** Specification vocabulary for meshes. *)
From Coq Require Import Ascii String Reals List Bool Arith Sorted.
From Verif Require Import Prelude VecModel GeomModel MshModel.
Import ListNotations.
Local Open Scope R_scope.

(** The points an element stands for. *)
Definition points_of {A} (vs : list A) (el : list nat) : list (option A) := map (nth_error vs) el.

(** A vertex number that some element uses. *)
Definition used (els : list (list nat)) (i : nat) : Prop := exists el, In el els /\ In i el.

(** The elements of a list at the numbers with a property, in order. *)
Definition selected {A} (P : nat -> Prop) (l l' : list A) : Prop :=
  exists ix, StronglySorted lt ix /\ (forall i, In i ix <-> (i < length l)%nat /\ P i) /\ map Some l' = map (nth_error l) ix.

(** An equality of points. *)
Definition equivalence {A} (same : A -> A -> bool) : Prop :=
  (forall p, same p p = true) /\ (forall p q, same p q = true -> same q p = true) /\
  (forall p q r, same p q = true -> same q r = true -> same p r = true).

(** A point that is the same as an earlier one. *)
Definition repeated {A} (same : A -> A -> bool) (vs : list A) (i : nat) : Prop :=
  exists j p q, (j < i)%nat /\ nth_error vs j = Some p /\ nth_error vs i = Some q /\ same p q = true.

(** Two numbers standing for the same point, or for none, in two lists. *)
Definition same_point {A} (same : A -> A -> bool) (vs vs' : list A) (x y : nat) : Prop :=
  match nth_error vs x, nth_error vs' y with
  | Some p, Some q => same p q = true
  | None, None => True
  | _, _ => False
  end.

(** Three points, no two the same, that are all the common ones of two lists. *)
Definition share_three {A} (same : A -> A -> bool) (l1 l2 : list A) : Prop :=
  exists a b c, same a b = false /\ same b c = false /\ same a c = false /\
    forall p, (existsb (same p) l1 = true /\ existsb (same p) l2 = true) <-> existsb (same p) [a; b; c] = true.

(** The four corners of an element. *)
Definition corners4 {A} (vs : list A) (el : list nat) (l : list A) : Prop :=
  exists a b c d r p q s t, el = a :: b :: c :: d :: r /\ l = [p; q; s; t] /\
    nth_error vs a = Some p /\ nth_error vs b = Some q /\ nth_error vs c = Some s /\ nth_error vs d = Some t.
(** Every element has four corners. *)
Definition all_corners {A} (vs : list A) (els : list element) : Prop := forall el, In el els -> exists l, corners4 vs el l.

(** The elements facing a given one, by increasing number. *)
Definition facing_elements {A} (same : A -> A -> bool) (vs : list A) (els : list element) (i : nat) (row : list nat) : Prop :=
  StronglySorted lt row /\
  forall j, In j row <-> i <> j /\ exists e1 e2 l1 l2, nth_error els i = Some e1 /\ nth_error els j = Some e2 /\
    corners4 vs e1 l1 /\ corners4 vs e2 l2 /\ share_three same l1 l2.

(** Every coordinate differs by less than eps; some coordinate differs by at
    least eps. *)
Definition close_points (eps : R) (p q : vec) : Prop :=
  Rabs (vx p - vx q) < eps /\ Rabs (vy p - vy q) < eps /\ Rabs (vz p - vz q) < eps.
Definition far_points (eps : R) (p q : vec) : Prop :=
  eps <= Rabs (vx p - vx q) \/ eps <= Rabs (vy p - vy q) \/ eps <= Rabs (vz p - vz q).
(** The same points are close and other points are far from each other. *)
Definition separated (same : vec -> vec -> bool) (eps : R) (vs : list vec) : Prop :=
  forall p q, In p vs -> In q vs -> (same p q = true -> close_points eps p q) /\ (same p q = false -> far_points eps p q).
(** The corners of every element are different points. *)
Definition proper_elements {A} (same : A -> A -> bool) (vs : list A) (els : list element) : Prop :=
  forall el l, In el els -> corners4 vs el l -> ForallOrdPairs (fun p q => same p q = false) l.

(** The volume and the centroid of an element. *)
Definition has_volume (vs : list vec) (el : element) (v : R) : Prop :=
  exists p q s t, corners4 vs el [p; q; s; t] /\ v = tetrahedron_volume p q s t.
Definition has_centroid (vs : list vec) (el : element) (c : vec) : Prop :=
  exists p q s t, corners4 vs el [p; q; s; t] /\ c = tetrahedron_centroid p q s t.
(** A vertex is bad if two elements at it differ in volume by a factor of more
    than 100, or one is smaller than the least volume. *)
Definition bad_vertex (vs : list vec) (els : list element) (min_volume : R) (i : nat) : Prop :=
  (exists e1 e2 v1 v2, In e1 els /\ In e2 els /\ In i e1 /\ In i e2 /\ has_volume vs e1 v1 /\ has_volume vs e2 v2 /\ v1 > 100 * v2) \/
  (exists e v, In e els /\ In i e /\ has_volume vs e v /\ v < min_volume).
(** Less than three corners of an element are among some points. *)
Definition interior_element (same : vec -> vec -> bool) (boundary : list vec) (vs : list vec) (el : element) : Prop :=
  exists l, corners4 vs el l /\ (length (filter (fun p => existsb (same p) boundary) l) < 3)%nat.
