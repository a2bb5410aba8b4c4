(** Surface parameters of the simulation configuration and the directories a
    simulation prepares. *)
From Coq Require Import Ascii String List Arith Bool ZArith.
From Verif Require Import Prelude TreeModel MeshModel.
Import ListNotations.

Definition DEFAULT : str := str_of "default".

Section Cfg.
  (** Parameter values (floats in the code). *)
  Context {V : Type}.

  (** SimulationConfig.surfaces (sim/rays/simulation_config.py:47-52): a
      dictionary from parameter names to dictionaries from paths to values. *)
  Definition surfaces : Type := dict str (dict str V).

  (** [self.surfaces[param][key] = v]: KeyError if there is no such parameter. *)
  Definition set_value (sf : surfaces) (param key : str) (v : V) : result surfaces :=
    do d <- dlookup sf param;
    Ok (dset sf param (dset d key v)).

  (** set_default_surface_paths (sim/rays/simulation_config.py:77-82). *)
  Definition set_default_surface_paths (h : heap) (b : oid) (sf : surfaces) : result surfaces :=
    do poly_paths <- building_polygon_paths h b;
    foldM (fun sf key =>
      foldM (fun sf path =>
        do d <- dlookup sf key;
        do v <- dlookup d DEFAULT;
        set_value sf key path v) poly_paths sf) (dkeys sf) sf.

  (** Lines 47-53 of the constructor. *)
  Definition new_surfaces (h : heap) (b : oid) (dflt : V) : result surfaces :=
    set_default_surface_paths h b [(str_of "absorption", [(DEFAULT, dflt)])].

  Section Get.
    Context (int_of : str -> option Z).

    (** [obj.get_polygon_paths()] by class. *)
    Definition polygon_paths_of (h : heap) (i : oid) : result (list str) :=
      do o <- deref h i;
      match o_kind o with
      | KBuilding => building_polygon_paths h i
      | KZone => zone_polygon_paths h i
      | KSolid => solid_polygon_paths h i
      | KWall => wall_polygon_paths h i
      | KPolygon => Err AttributeError
      end.

    (** set_surface_param (sim/rays/simulation_config.py:84-129).  The caught
        exceptions are raised again, so all of them propagate. *)
    Definition set_surface_param (h : heap) (b : oid) (sf : surfaces) (param surface_path : str) (value : V)
        : result surfaces :=
      do g <- building_get int_of h b surface_path;
      match g with
      | GotPoint _ _ => Err TypeError
      | GotObj i =>
          do o <- deref h i;
          match o_kind o with
          | KPolygon => set_value sf param surface_path value
          | _ =>
              do polygon_paths <- polygon_paths_of h i;
              foldM (fun sf path => set_value sf param path value) polygon_paths sf
          end
      end.

    (** surface_params_to_array (sim/rays/simulation_config.py:131-169);
        [num] is the attribute [num] of the polygons, [zero] is 0.0. *)
    Definition surface_params_to_array (zero : V) (num : oid -> option Z) (h : heap) (b : oid)
        (sf : surfaces) (param : str) : result (list V) :=
      do poly_paths <- building_polygon_paths h b;
      let n := length poly_paths in
      foldM (fun values pp =>
        do g <- building_get int_of h b pp;
        match g with
        | GotPoint _ _ => Err AssertionError
        | GotObj i =>
            do o <- deref h i;
            match o_kind o with
            | KPolygon =>
                match num i with
                | None => Err RuntimeError
                | Some k =>
                    if (0 <=? k)%Z && (k <? Z.of_nat n)%Z then
                      do d <- dlookup sf param;
                      do v <- (match dget d pp with Some v => Ok v | None => dlookup d DEFAULT end);
                      Ok (set_nth values (Z.to_nat k) v)
                    else Err AssertionError
                end
            | _ => Err AssertionError
            end
        end) poly_paths (repeat zero n).

    (** A sequence of calls of set_surface_param; a call that raises leaves
        the configuration as it is (see [set_surface_param_atomic]). *)
    Fixpoint apply_settings (h : heap) (b : oid) (sf : surfaces) (l : list (str * str * V)) : surfaces :=
      match l with
      | [] => sf
      | (param, sp, v) :: l' =>
          match set_surface_param h b sf param sp v with
          | Ok sf' => apply_settings h b sf' l'
          | Err _ => apply_settings h b sf l'
          end
      end.
  End Get.

  (** Simulation.__init__ (sim/rays/simulation.py:62-63):
      [np.full(len(self.polygons), sim_cfg.surfaces["absorption"]["default"])];
      [npolygons] is the number of polygons in the array format. *)
  Definition simulation_absorption (sf : surfaces) (npolygons : nat) : result (list V) :=
    do d <- dlookup sf (str_of "absorption");
    do v <- dlookup d DEFAULT;
    Ok (repeat v npolygons).
End Cfg.

(** ** Directories

    A file system as the list of existing paths below the root; a path is its
    list of components; the value tells directories (true) from files. *)
Notation fpath := (list str).
Notation fsys := (dict (list str) bool).

(** os.path.exists; the root always exists. *)
Definition exists_at (fs : fsys) (p : fpath) : bool :=
  match p with [] => true | _ => match dget fs p with Some _ => true | None => false end end.

Definition is_dir (fs : fsys) (p : fpath) : bool :=
  match p with [] => true | _ => match dget fs p with Some d => d | None => false end end.

(** [q] is directly inside [p]. *)
Definition child_of (p q : fpath) : bool :=
  (length q =? S (length p)) && eqb (firstn (length p) q) p.

(** os.listdir: the entries of a directory; an OSError (here FileNotFoundError)
    for a file. *)
Definition listdir (fs : fsys) (p : fpath) : result (list fpath) :=
  if is_dir fs p then Ok (filter (child_of p) (dkeys fs)) else Err FileNotFoundError.

(** The proper prefixes of [p] and [p] itself, shortest first, without the
    root. *)
Definition prefixes (p : fpath) : list fpath := map (fun n => firstn (S n) p) (seq 0 (length p)).

(** os.makedirs without exist_ok: creates missing parents, refuses an existing
    path; an existing file among the parents is an OSError. *)
Definition makedirs (fs : fsys) (p : fpath) : fsys * result unit :=
  if exists_at fs p then (fs, Err FileExistsError)
  else
    fold_left (fun st q =>
      match st with
      | (fs, Err e) => (fs, Err e)
      | (fs, Ok _) =>
          if exists_at fs q then (if is_dir fs q then (fs, Ok tt) else (fs, Err FileNotFoundError))
          else (dset fs q true, Ok tt)
      end) (prefixes p) (fs, Ok tt).

(** Simulation.make_dirs (sim/rays/simulation.py:88-97). *)
Definition make_dirs (fs : fsys) (project_dir buffer_dir : fpath) : fsys * result unit :=
  match (if exists_at fs project_dir then (fs, Ok tt) else makedirs fs project_dir) with
  | (fs, Err e) => (fs, Err e)
  | (fs, Ok _) =>
      if exists_at fs buffer_dir then
        match listdir fs buffer_dir with
        | Err e => (fs, Err e)
        | Ok l => if 0 <? length l then (fs, Err RuntimeError) else makedirs fs buffer_dir
        end
      else makedirs fs buffer_dir
  end.
