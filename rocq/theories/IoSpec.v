(** Specification vocabulary for the file formats. *)
From Coq Require Import Ascii String List Arith Bool.
From Verif Require Import Prelude TreeModel MeshModel MeshSpec IoModel.
Import ListNotations.

Section Spec.
  Context {P : Type} (coplanar : list P -> bool).

  (** Sibling names are distinct and contain no path separator. *)
  Definition names_ok {A} (name : A -> str) (xs : list A) : Prop :=
    NoDup (map name xs) /\ Forall (fun x => ~ In PATH_SEP (name x)) xs.

  Definition wf_wall {U} (w : wall_n P U) : Prop :=
    names_ok p_name (n_kids w) /\ Forall (fun p => accepted coplanar (p_mesh p)) (n_kids w).
  Definition wf_solid {U} (s : solid_n P U) : Prop :=
    names_ok n_name (n_kids s) /\ Forall wf_wall (n_kids s).
  Definition wf_zone {U} (z : zone_n P U) : Prop :=
    names_ok n_name (n_kids z) /\ Forall wf_solid (n_kids z).
  Definition wf_building {U} (b : building_n P U) : Prop :=
    ~ In PATH_SEP (n_name b) /\ names_ok n_name (n_kids b) /\ Forall wf_zone (n_kids b).

  (** Containers holding at least one polygon. *)
  Definition full_wall {U} (w : wall_n P U) : bool := negb (length (n_kids w) =? 0).
  Definition full_solid {U} (s : solid_n P U) : bool := existsb full_wall (n_kids s).
  Definition full_zone {U} (z : zone_n P U) : bool := existsb full_solid (n_kids z).
  Definition full_building {U} (b : building_n P U) : bool := existsb full_zone (n_kids b).

  (** The same model without the containers that hold no polygon; [g] acts on
      the uids of containers. *)
  Definition prune_wall {U U'} (g : U -> U') (w : wall_n P U) : wall_n P U' :=
    mkNode (n_name w) (g (n_uid w)) (n_kids w).
  Definition prune_solid {U U'} (g : U -> U') (s : solid_n P U) : solid_n P U' :=
    mkNode (n_name s) (g (n_uid s)) (map (prune_wall g) (filter full_wall (n_kids s))).
  Definition prune_zone {U U'} (g : U -> U') (z : zone_n P U) : zone_n P U' :=
    mkNode (n_name z) (g (n_uid z)) (map (prune_solid g) (filter full_solid (n_kids z))).
  Definition prune {U U'} (g : U -> U') (b : building_n P U) : building_n P U' :=
    mkNode (n_name b) (g (n_uid b)) (map (prune_zone g) (filter full_zone (n_kids b))).

  (** The same model with other container uids. *)
  Definition reuid {U U'} (g : U -> U') (b : building_n P U) : building_n P U' :=
    mkNode (n_name b) (g (n_uid b)) (map (fun z =>
      mkNode (n_name z) (g (n_uid z)) (map (fun s =>
        mkNode (n_name s) (g (n_uid s)) (map (fun w =>
          mkNode (n_name w) (g (n_uid w)) (n_kids w)) (n_kids s))) (n_kids z))) (n_kids b)).

  (** No zone, solid or wall is without polygons. *)
  Definition no_empty {U} (b : building_n P U) : Prop :=
    forall z, In z (n_kids b) -> full_zone z = true /\
    forall s, In s (n_kids z) -> full_solid s = true /\
    forall w, In w (n_kids s) -> full_wall w = true.
End Spec.

(** Plain lookup along a path. *)
Fixpoint find {K V} `{EqDec K} (ks : list K) (d : jv K V) : option (jv K V) :=
  match ks with
  | [] => Some d
  | k :: ks' =>
      match d with
      | JLeaf _ => None
      | JNode m => match dget m k with Some c => find ks' c | None => None end
      end
  end.

(** Operations on a nested default dictionary; a failed one leaves it as it is. *)
Inductive jop {K V : Type} : Type := JGet (ks : list K) | JSet (ks : list K) (v : V).
Arguments jop K V : clear implicits.
Definition japply {K V} `{EqDec K} (d : jv K V) (o : jop K V) : jv K V :=
  match (match o with JGet ks => touch ks d | JSet ks v => set_path ks v d end) with
  | Ok d' => d'
  | Err _ => d
  end.
Definition jrun {K V} `{EqDec K} (ops : list (jop K V)) (d : jv K V) : jv K V := fold_left japply ops d.

Definition prefix {A} (p l : list A) : Prop := exists r, l = p ++ r.
