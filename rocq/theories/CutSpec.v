(** Vocabulary for imprinted polygons. *)
From Coq Require Import Ascii String Reals List Bool Arith.
From Verif Require Import Prelude CutModel.
Import ListNotations.

(** A list started at its k-th element. *)
Definition turned {A} (k : nat) (l : list A) : list A := skipn k l ++ firstn k l.

(** The first of the n turned lists for which f does not raise GeometryError,
    with what it gives; None if there is none. *)
Definition first_of {A B} (f : list A -> result B) (l : list A) (n : nat) (r : option (result B)) : Prop :=
  match r with
  | Some y => exists k, (k < n)%nat /\ f (turned k l) = y /\ y <> Err GeometryError /\ (forall j, (j < k)%nat -> f (turned j l) = Err GeometryError)
  | None => forall j, (j < n)%nat -> f (turned j l) = Err GeometryError
  end.

Definition total {A} (m : A -> R) (l : list A) : R := fold_right (fun x t => (m x + t)%R) 0%R l.

(** Ways to get the result: ext is cut once along the free points from the k-th
    on; or it is cut along a strip to the inner polygon, and then along them. *)
Section Ways.
  Context {P pt : Type} (points : P -> list pt) (name : P -> str) (same : pt -> pt -> bool)
    (new : list pt -> result P) (interior : P -> result pt)
    (slice : P -> list pt -> str -> pt -> str -> result (P * P)) (closest : P -> P -> nat -> result (list (pt * pt))).
  Definition once (ext int : P) (ps : list P) : Prop :=
    let chain := free_points points same ext int in
    exists k ref x a b, (k < length chain)%nat /\ new (turned k chain) = Ok ref /\ interior ref = Ok x /\
      slice ext (turned k chain) (name ext ++ str_of "-1") x (name ext ++ str_of "-2") = Ok (a, b) /\ ps = [a; b].
  Definition twice (ext int : P) (ps : list P) : Prop :=
    let chain := free_points points same ext int in
    exists e0 i0 e1 i1 rest ref x sup main k ref' x' a b,
      closest ext int 2 = Ok ((e0, i0) :: (e1, i1) :: rest) /\ new [e0; i0; i1; e1] = Ok ref /\ interior ref = Ok x /\
      slice ext [e0; i0; i1; e1] (name ext ++ str_of "-sup") x (name ext ++ str_of "-main") = Ok (sup, main) /\
      (k < length chain)%nat /\ new chain = Ok ref' /\ interior ref' = Ok x' /\
      slice main (turned k chain) (name ext ++ str_of "-" ++ name int) x' (name ext) = Ok (a, b) /\ ps = [a; sup; b].
End Ways.
