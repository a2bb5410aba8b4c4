(** Specification vocabulary for mesh containers. *)
From Coq Require Import Ascii String Reals List Bool Arith.
From Verif Require Import Prelude VecModel GeomModel MshModel MshSpec ContModel.
Import ListNotations.
Local Open Scope R_scope.

(** An element of a mesh stands for the same points as an element of a part of
    it, as far as that has points. *)
Definition stands (vs' : list vec) (e' : list nat) (vs : list vec) (e : list nat) : Prop :=
  Forall2 (fun x' x => forall p, nth_error vs x = Some p -> nth_error vs' x' = Some p) e' e.

(** In a mesh, an owner owns copies of some vertices and elements, in order. *)
Definition owns (d : mesh_data) (u : str) (vs : list vec) (els : list element) : Prop :=
  exists vn en, dget (md_vown d) u = Some vn /\ dget (md_eown d) u = Some en /\
    map (nth_error (md_vs d)) vn = map Some vs /\
    Forall2 (fun j e => exists e', nth_error (md_els d) j = Some e' /\ stands (md_vs d) e' vs e) en els.

(** Every vertex and every element has exactly one owner. *)
Definition owned_once (d : mesh_data) : Prop :=
  concat (dvals (md_vown d)) = seq 0 (length (md_vs d)) /\ concat (dvals (md_eown d)) = seq 0 (length (md_els d)).

(** The area of a face. *)
Definition has_area (vs : list vec) (f : element) (a : R) : Prop :=
  exists i j k r p q s, f = i :: j :: k :: r /\ nth_error vs i = Some p /\ nth_error vs j = Some q /\ nth_error vs k = Some s /\
    a = triangle_area p q s.

(** The polygon whose points are shared: of all that a polygon faces, the last
    one. *)
Definition partner {P} (facing : P -> P -> bool) (polys : dict str P) (u v : str) : Prop :=
  exists p l1 q l2, In (u, p) polys /\ polys = l1 ++ (v, q) :: l2 /\ v <> u /\ facing p q = true /\
    forall w r, In (w, r) l2 -> w <> u -> facing p r = false.

(** The points given for a polygon. *)
Definition given (fixed : dict str (list vec)) (u : str) : list vec := match dget fixed u with Some l => l | None => [] end.

(** What happened for one polygon: the fixed points that were handed over, the
    vertices and the faces that were returned. *)
Definition part : Type := (list vec * list vec * list element)%type.

(** The fixed points for polygon number k: the given ones and those of its
    partner if that came earlier. *)
Definition handed {P} (facing : P -> P -> bool) (polys : dict str P) (fixed : dict str (list vec)) (parts : list part)
    (k : nat) (u : str) (pts : list vec) : Prop :=
  exists more, pts = given fixed u ++ more /\
    ((exists v j q pts' fs', partner facing polys u v /\ (j < k)%nat /\ nth_error polys j = Some (v, q) /\ nth_error parts j = Some (pts', more, fs')) \/
     ((forall v j q, partner facing polys u v -> nth_error polys j = Some (v, q) -> (k < j)%nat) /\ more = [])).
(** Polygon number k was meshed. *)
Definition meshed {P} (facing : P -> P -> bool) (triang : nat -> P -> list vec -> result (list vec * list element))
    (polys : dict str P) (fixed : dict str (list vec)) (parts : list part) (k : nat) (x : part) : Prop :=
  exists u p pts vs fs, x = (pts, vs, fs) /\ nth_error polys k = Some (u, p) /\ handed facing polys fixed parts k u pts /\ triang k p pts = Ok (vs, fs).

(** Close enough for the volume of a mesh and that of its solid. *)
Definition close_volume (a b : R) : Prop := Rabs (a - b) <= 1 / 100000000 + 1 / 1000000 * Rabs b.
(** Attempt k at meshing a solid gave these vertices and elements, of this volume. *)
Definition attempt {T} (tetra : T -> nat -> dict str (list vec) -> result (list vec * list element))
    (bv : dict str (list vec)) (s : T) (k : nat) (vs : list vec) (els : list element) (v : R) : Prop :=
  tetra s k bv = Ok (vs, els) /\ exists l, Forall2 (has_volume vs) els l /\ v = fold_right Rplus 0 l.
(** The first attempts had a wrong volume. *)
Definition missed {T} (svolume : T -> R) (tetra : T -> nat -> dict str (list vec) -> result (list vec * list element))
    (bv : dict str (list vec)) (s : T) (k : nat) : Prop :=
  forall j, (j < k)%nat -> exists vs els v, attempt tetra bv s j vs els v /\ ~ close_volume v (svolume s).
(** The first attempt of ten that has the right volume. *)
Definition accepted {T} (svolume : T -> R) (tetra : T -> nat -> dict str (list vec) -> result (list vec * list element))
    (bv : dict str (list vec)) (s : T) (p : list vec * list element) : Prop :=
  exists k v, (k < 10)%nat /\ attempt tetra bv s k (fst p) (snd p) v /\ close_volume v (svolume s) /\ missed svolume tetra bv s k.

Definition sum (l : list R) : R := fold_right Rplus 0 l.
