(** Theorem C110: imprinting a polygon and making a hole. *)
From Coq Require Import Ascii String Reals List Bool Arith Lia.
From Verif Require Import Prelude UtilModel CutModel CutSpec CutProofs.
Import ListNotations.

Section Cut3.
  Context {P pt : Type} (points : P -> list pt) (name : P -> str) (same : pt -> pt -> bool)
    (new : list pt -> result P) (interior : P -> result pt)
    (slice : P -> list pt -> str -> pt -> str -> result (P * P)) (closest : P -> P -> nat -> result (list (pt * pt))).
  Notation imprint := (imprint points name same new interior slice closest).
  Notation hole := (hole points name same new interior slice closest).
  Notation free_points := (free_points points same).

(** The points used are those of the inner polygon that the outer one lacks. *)
Theorem C110_free ext int p : In p (free_points ext int) <-> In p (points int) /\ forall q, In q (points ext) -> same p q = false.
Proof. exact (free_in points same ext int p). Qed.

(** The first order of these points that does not raise GeometryError decides. *)
Theorem C110_first_cut ext int r : free_points ext int <> [] ->
  first_of (cut_once name new interior slice ext) (free_points ext int) (length (free_points ext int)) (Some r) -> imprint ext int = r.
Proof. exact (imprint_step points name same new interior slice closest ext int (Some r)). Qed.
(** If all do, the polygon is cut twice; then again the first order decides, and
    if all fail the result is a GeometryError. *)
Theorem C110_second_cut ext int e0 i0 e1 i1 rest ref x sup main ref' r : free_points ext int <> [] ->
  first_of (cut_once name new interior slice ext) (free_points ext int) (length (free_points ext int)) None ->
  closest ext int 2 = Ok ((e0, i0) :: (e1, i1) :: rest) -> new [e0; i0; i1; e1] = Ok ref -> interior ref = Ok x ->
  slice ext [e0; i0; i1; e1] (name ext ++ str_of "-sup") x (name ext ++ str_of "-main") = Ok (sup, main) -> new (free_points ext int) = Ok ref' ->
  first_of (cut_main name interior slice ext int main sup ref') (free_points ext int) (length (free_points ext int)) r ->
  imprint ext int = match r with Some y => y | None => Err GeometryError end.
Proof.
  intros N F C N1 I1 S1 N2 H. rewrite (imprint_step points name same new interior slice closest ext int None N F).
  exact (twice_step name new interior slice closest ext int _ e0 i0 e1 i1 rest ref x sup main ref' r N C N1 I1 S1 N2 H).
Qed.
(** Two or three polygons, from one or two cuts. *)
Theorem C110_result ext int ps : imprint ext int = Ok ps ->
  (free_points ext int = [] /\ ps = []) \/ once points name same new interior slice ext int ps \/ twice points name same new interior slice closest ext int ps.
Proof. exact (imprint_result points name same new interior slice closest ext int ps). Qed.

(** If cutting keeps the area, so does imprinting; a hole takes away the area of
    the first polygon. *)
Theorem C110_area (m : P -> R) ext int ps : (forall p c n1 x n2 a b, slice p c n1 x n2 = Ok (a, b) -> (m a + m b = m p)%R) ->
  imprint ext int = Ok ps -> ps <> [] ->
  total m ps = m ext /\ exists h, hole ext int = Ok h /\ (total m h = m ext - m (hd ext ps))%R.
Proof. exact (imprint_area points name same new interior slice closest m ext int ps). Qed.
(** The first polygon is the inner one: if cutting gives as first part the one
    with the reference point, it contains an interior point of the outline of
    the free points. *)
Theorem C110_first (holds : P -> pt -> Prop) ext int ps : (forall p c n1 x n2 a b, slice p c n1 x n2 = Ok (a, b) -> holds a x) ->
  imprint ext int = Ok ps -> ps <> [] -> exists a t k ref x, ps = a :: t /\ (k < length (free_points ext int))%nat /\
    new (turned k (free_points ext int)) = Ok ref /\ interior ref = Ok x /\ holds a x.
Proof. exact (imprint_first points name same new interior slice closest holds ext int ps). Qed.
Theorem C110_names ext int ps : (forall p c n1 x n2 a b, slice p c n1 x n2 = Ok (a, b) -> name a = n1 /\ name b = n2) ->
  imprint ext int = Ok ps -> map name ps = [] \/ map name ps = [name ext ++ str_of "-1"; name ext ++ str_of "-2"] \/
    map name ps = [name ext ++ str_of "-" ++ name int; name ext ++ str_of "-sup"; name ext].
Proof. exact (imprint_names points name same new interior slice closest ext int ps). Qed.

(** An inner polygon with all its vertices at those of the outer one makes the
    polygon vanish. *)
Theorem C110_vanishes ext int : (forall p, In p (points int) -> exists q, In q (points ext) /\ same p q = true) -> imprint ext int = Ok [] /\ hole ext int = Ok [].
Proof. exact (imprint_none points name same new interior slice closest ext int). Qed.
(** An inner polygon with one or two other vertices is never imprinted, since a
    polygon has three points at least. *)
Theorem C110_few ext int : (forall c, (length c < 3)%nat -> exists e, new c = Err e) -> (0 < length (free_points ext int) < 3)%nat ->
  exists e, imprint ext int = Err e /\ hole ext int = Err e.
Proof. exact (imprint_few points name same new interior slice closest ext int). Qed.
End Cut3.
Print Assumptions C110_free.
Print Assumptions C110_first_cut.
Print Assumptions C110_second_cut.
Print Assumptions C110_result.
Print Assumptions C110_area.
Print Assumptions C110_first.
Print Assumptions C110_names.
Print Assumptions C110_vanishes.
Print Assumptions C110_few.

(** Toy polygons with numbers as points: a chain cuts a polygon if it starts at
    or next to one of its points. *)
Definition toy : Type := str * (list nat * nat).
Definition toy_points (p : toy) : list nat := fst (snd p).
Definition toy_size (p : toy) : R := INR (snd (snd p)).
Definition toy_new (c : list nat) : result toy := if length c <? 3 then Err GeometryError else Ok ([], (c, length c)).
Definition toy_interior (p : toy) : result nat := match toy_points p with x :: _ => Ok x | [] => Err IndexError end.
Definition toy_slice (p : toy) (c : list nat) (n1 : str) (x : nat) (n2 : str) : result (toy * toy) :=
  if existsb (fun q => (hd 0 c <=? q + 1) && (q <=? hd 0 c + 1)) (toy_points p) && (length c <=? snd (snd p))
  then Ok ((n1, (c, length c)), (n2, (toy_points p ++ c, snd (snd p) - length c))) else Err GeometryError.
Definition toy_closest (p q : toy) (n : nat) : result (list (nat * nat)) := Ok [(10, 31); (20, 32)].
Definition toy_imprint := imprint toy_points fst Nat.eqb toy_new toy_interior toy_slice toy_closest.
Definition toy_hole := hole toy_points fst Nat.eqb toy_new toy_interior toy_slice toy_closest.
Definition big : toy := (str_of "big", ([10; 20; 50], 100)).
Lemma toy_sizes : forall p c n1 x n2 a b, toy_slice p c n1 x n2 = Ok (a, b) -> (toy_size a + toy_size b = toy_size p)%R.
Proof.
  intros [n [l s]] c n1 x n2 a b. unfold toy_slice. cbn [fst snd].
  destruct (_ && _) eqn:E; [|discriminate]. intros H. inversion H. subst. apply andb_true_iff in E. destruct E as (_ & L). apply Nat.leb_le in L.
  unfold toy_size. cbn [fst snd]. rewrite <- plus_INR. f_equal. lia.
Qed.
(** The second order of 30, 21, 40 cuts once; 31, 32, 33 need two cuts, and then
    the second order does; two free points are too few, none gives nothing. *)
Example C110_example :
  toy_imprint big (str_of "a", ([30; 21; 10; 40], 5)) =
    Ok [(str_of "big-1", ([21; 40; 30], 3)); (str_of "big-2", ([10; 20; 50; 21; 40; 30], 97))] /\
  toy_imprint big (str_of "b", ([35; 31; 33], 5)) =
    Ok [(str_of "big-b", ([31; 33; 35], 3)); (str_of "big-sup", ([10; 31; 32; 20], 4)); (str_of "big", ([10; 20; 50; 10; 31; 32; 20; 31; 33; 35], 93))] /\
  toy_hole big (str_of "b", ([35; 31; 33], 5)) =
    Ok [(str_of "big-sup", ([10; 31; 32; 20], 4)); (str_of "big", ([10; 20; 50; 10; 31; 32; 20; 31; 33; 35], 93))] /\
  toy_imprint big (str_of "c", ([60; 70; 80], 5)) = Err GeometryError /\
  toy_imprint big (str_of "d", ([10; 21; 22; 50], 5)) = Err GeometryError /\
  toy_imprint big (str_of "e", ([10; 20; 50], 5)) = Ok [].
Proof. repeat split; reflexivity. Qed.
