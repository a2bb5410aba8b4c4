(** Nested default dictionaries, the B3D and .bim formats and the STL text
    format.  JSON itself (json.dump/json.load, dotbimpy.File.save) is trusted
    to give back the dictionaries, lists, strings and numbers it was given. *)
From Coq Require Import Ascii String List Arith Bool DecimalString.
From Verif Require Import Prelude TreeModel MeshModel.
Import ListNotations.

(** ** Nested dictionaries *)

Inductive jv (K V : Type) : Type :=
| JLeaf (v : V)
| JNode (d : list (K * jv K V)).
Arguments JLeaf {K V} v.
Arguments JNode {K V} d.

Section Jv.
  Context {K V : Type} `{EqDec K}.

  (** types/recursive_default_dict.py:5-19.  [d[k1]...[kn]] reaches a place,
      creating empty dictionaries on the way; [f] then acts on the value found
      there.  Indexing a value that is no dictionary raises TypeError. *)
  Fixpoint upd (ks : list K) (f : jv K V -> result (jv K V)) (d : jv K V) : result (jv K V) :=
    match ks with
    | [] => f d
    | k :: ks' =>
        match d with
        | JLeaf _ => Err TypeError
        | JNode m =>
            do c <- upd ks' f (match dget m k with Some c => c | None => JNode [] end);
            Ok (JNode (dset m k c))
        end
    end.

  (** [d[k1]...[kn] = v]. *)
  Definition set_path (ks : list K) (v : V) (d : jv K V) : result (jv K V) :=
    upd ks (fun _ => Ok (JLeaf v)) d.

  (** Evaluating [d[k1]...[kn]]: the dictionary afterwards. *)
  Definition touch (ks : list K) (d : jv K V) : result (jv K V) := upd ks (fun c => Ok c) d.

  (** Its items, in insertion order (iteration, [.keys()]). *)
  Definition entries (d : jv K V) : result (list (K * jv K V)) :=
    match d with JNode m => Ok m | JLeaf _ => Err TypeError end.

  (** [d[k]] on a plain dictionary. *)
  Definition item (d : jv K V) (k : K) : result (jv K V) :=
    match d with JNode m => dlookup m k | JLeaf _ => Err TypeError end.

  Definition leaf (d : jv K V) : result V :=
    match d with JLeaf v => Ok v | JNode _ => Err TypeError end.
End Jv.

(** Keys that json.dumps accepts: strings stay, integers are printed. *)
Inductive jkey : Type := KStr (s : str) | KInt (n : nat).
#[global] Instance EqDec_jkey : EqDec jkey.
Proof.
  intros [a|a] [b|b]; try (right; discriminate); destruct (eq_dec a b); subst; auto; right; congruence.
Defined.

Definition decimal (n : nat) : str := str_of (NilEmpty.string_of_uint (Nat.to_uint n)).

Definition print_key (k : jkey) : str := match k with KStr s => s | KInt n => decimal n end.

(** types/recursive_default_dict.py:22-38: dumps prints the keys; loads builds
    each dictionary from the pairs in order, a repeated key overwriting the
    earlier value.  Values are trusted to survive. *)
Fixpoint to_plain {V} (d : jv jkey V) : jv str V :=
  match d with
  | JLeaf v => JLeaf v
  | JNode m =>
      JNode (fold_left (fun acc kc => dset acc (fst kc) (snd kc))
               ((fix go (l : list (jkey * jv jkey V)) : list (str * jv str V) :=
                   match l with [] => [] | (k, c) :: l' => (print_key k, to_plain c) :: go l' end) m) [])
  end.

(** ** Models as seen by the writers

    Name, uid and children of every object.  [U] is the type of the uids of
    containers: [str], or [unit] where a fresh random uid is drawn. *)
Record poly {P : Type} := mkPoly { p_name : str; p_uid : str; p_mesh : mesh (P := P) }.
Record node (U C : Type) := mkNode { n_name : str; n_uid : U; n_kids : list C }.
Arguments mkNode {U C}. Arguments n_name {U C}. Arguments n_uid {U C}. Arguments n_kids {U C}.
Arguments poly P : clear implicits.

Definition wall_n (P U : Type) := node U (poly P).
Definition solid_n (P U : Type) := node U (wall_n P U).
Definition zone_n (P U : Type) := node U (solid_n P U).
Definition building_n (P U : Type) := node U (zone_n P U).

(** add_polygon / add_wall / add_solid / add_zone (wall:71-81, solid:75-81,
    zone:74-86, building:74-81): children in insertion order, a repeated name
    raises GeometryError. *)
Definition add_named {A} (name : A -> str) (xs : list A) (x : A) : result (list A) :=
  if memb (name x) (map name xs) then Err GeometryError else Ok (xs ++ [x]).

(** Container constructors: validate_name, then the children one by one. *)
Definition new_node {U C} (name_of : C -> str) (name : str) (uid : U) (kids : list C) : result (node U C) :=
  do name <- validate_name name;
  do kids <- foldM (add_named name_of) kids [];
  Ok (mkNode name uid kids).

Section Polygons.
  Context {P : Type} (coplanar : list P -> bool).

  (** Polygon(pts, name, uid, tri) (geom/polygon/__init__.py:42-90) with
      assertions in order; [coplanar] stands for are_points_coplanar and for the
      derived attributes being computed without an exception. *)
  Definition make_polygon (name uid : str) (pts : list P) (tri : list face) : result (poly P) :=
    if negb (coplanar pts) then Err AssertionError
    else if length pts <? 3 then Err AssertionError
    else
      do name <- validate_name name;
      if length tri =? 0 then Err AssertionError
      else Ok (mkPoly P name uid (pts, tri)).

  (** *** B3D *)

  Inductive bval : Type := BStr (s : str) | BPts (l : list P) | BTri (l : list face).

  Definition as_str (v : bval) := match v with BStr s => Ok s | _ => Err TypeError end.
  Definition as_pts (v : bval) := match v with BPts s => Ok s | _ => Err TypeError end.
  Definition as_tri (v : bval) := match v with BTri s => Ok s | _ => Err TypeError end.

  (** io/b3d.py:59-78, the dictionary that is dumped. *)
  Definition put_b3d_poly (z s w : str) (d : jv str bval) (p : poly P) : result (jv str bval) :=
    do d <- set_path [str_of "zones"; z; s; w; p_name p; str_of "pts"] (BPts (fst (p_mesh p))) d;
    do d <- set_path [str_of "zones"; z; s; w; p_name p; str_of "tri"] (BTri (snd (p_mesh p))) d;
    set_path [str_of "zones"; z; s; w; p_name p; str_of "uid"] (BStr (p_uid p)) d.

  (** write_b3d (io/b3d.py:46-78). *)
  Definition write_b3d {U} (b : building_n P U) : result (jv str bval) :=
    do d <- set_path [str_of "name"] (BStr (n_name b)) (JNode []);
    foldM (fun d z =>
      foldM (fun d s =>
        foldM (fun d w =>
          foldM (put_b3d_poly (n_name z) (n_name s) (n_name w)) (n_kids w) d)
        (n_kids s) d)
      (n_kids z) d)
    (n_kids b) d.

  (** io/b3d.py:81-111.  Iterating a value that is no dictionary, or finding one
      where text or numbers are expected, is TypeError (not all such malformed
      files fail with this very exception in Python). *)
  Definition read_b3d_poly (pname : str) (v : jv str bval) : result (poly P) :=
    do pts <- item v (str_of "pts"); do pts <- leaf pts; do pts <- as_pts pts;
    do tri <- item v (str_of "tri"); do tri <- leaf tri; do tri <- as_tri tri;
    do uid <- item v (str_of "uid"); do uid <- leaf uid; do uid <- as_str uid;
    make_polygon pname uid pts tri.

  (** With the above (io/b3d.py:81-111). *)
  Definition read_b3d_wall (wname : str) (v : jv str bval) : result (wall_n P unit) :=
    do wname <- validate_name wname;
    do ps <- entries v;
    do kids <- foldM (fun acc kv => do p <- read_b3d_poly (fst kv) (snd kv); add_named p_name acc p) ps [];
    Ok (mkNode wname tt kids).

  (** With the above (io/b3d.py:81-111). *)
  Definition read_b3d_solid (sname : str) (v : jv str bval) : result (solid_n P unit) :=
    do ws <- entries v;
    do walls <- mapM (fun kv => read_b3d_wall (fst kv) (snd kv)) ws;
    new_node n_name sname tt walls.

  (** With the above (io/b3d.py:81-111). *)
  Definition read_b3d_zone (zname : str) (v : jv str bval) : result (zone_n P unit) :=
    do zname <- validate_name zname;
    do ss <- entries v;
    do kids <- foldM (fun acc kv => do s <- read_b3d_solid (fst kv) (snd kv); add_named n_name acc s) ss [];
    Ok (mkNode zname tt kids).

  (** read_b3d (io/b3d.py:81-111). *)
  Definition read_b3d (d : jv str bval) : result (building_n P unit) :=
    do name <- item d (str_of "name"); do name <- leaf name; do name <- as_str name;
    do name <- validate_name name;
    do zones <- item d (str_of "zones");
    do zs <- entries zones;
    do kids <- foldM (fun acc kv => do z <- read_b3d_zone (fst kv) (snd kv); add_named n_name acc z) zs [];
    Ok (mkNode name tt kids).
End Polygons.

(** *** .bim *)
Section Bim.
  Context {X : Type}.
  Notation P := (X * X * X)%type.
  Context (coplanar : list P -> bool).

  (** The element's info dictionary (io/dotbim.py:56-65). *)
  Record einfo := mkInfo {
    e_zname : str; e_zuid : str; e_sname : str; e_suid : str;
    e_wname : str; e_wuid : str; e_pname : str; e_puid : str }.

  (** The file: meshes (id, coordinates, indices), elements (mesh id, info),
      info.  Colour, rotation, vector, guid and type are written and never read. *)
  Record bim := mkBim {
    f_meshes : list (nat * list X * list nat);
    f_elements : list (nat * einfo);
    f_info : dict str str }.

  Definition TOOL_NAME : str := str_of "Building3D".

  Definition flat3 {A} (l : list (A * A * A)) : list A :=
    flat_map (fun p => let '(a, b, c) := p in [a; b; c]) l.

  (** io/dotbim.py:35-85 *)
  Definition bim_state := (nat * list (nat * list X * list nat) * list (nat * einfo))%type.

  Definition write_bim_poly (z : zone_n P str) (s : solid_n P str) (w : wall_n P str)
      (st : bim_state) (p : poly P) : result bim_state :=
    let '(mesh_id, meshes, elements) := st in
    Ok (S mesh_id,
        meshes ++ [(mesh_id, flat3 (fst (p_mesh p)), flat3 (snd (p_mesh p)))],
        elements ++ [(mesh_id, mkInfo (n_name z) (n_uid z) (n_name s) (n_uid s)
                                      (n_name w) (n_uid w) (p_name p) (p_uid p))]).

  (** io/dotbim.py:22-96 *)
  Definition write_dotbim (b : building_n P str) : result bim :=
    do st <- foldM (fun st z =>
        foldM (fun st s =>
          foldM (fun st w => foldM (write_bim_poly z s w) (n_kids w) st) (n_kids s) st)
        (n_kids z) st) (n_kids b) (0, [], []);
    let '(_, meshes, elements) := st in
    Ok (mkBim meshes elements
          [(str_of "building_name", n_name b); (str_of "building_uid", n_uid b);
           (str_of "generated_by", TOOL_NAME)]).

  (** [reshape((-1, 3))]: ValueError unless the length is a multiple of 3. *)
  Fixpoint unflat3 {A} (l : list A) : result (list (A * A * A)) :=
    match l with
    | [] => Ok []
    | a :: b :: c :: l' => do r <- unflat3 l'; Ok ((a, b, c) :: r)
    | _ => Err ValueError
    end.

  (** data[mid]: vertices, faces and, once an element was seen, its info. *)
  Definition entry := (list P * list face * option einfo)%type.

  Definition load_mesh (data : dict nat entry) (m : nat * list X * list nat) : result (dict nat entry) :=
    let '(mid, coords, indices) := m in
    do vertices <- unflat3 coords;
    do faces <- unflat3 indices;
    Ok (dset data mid (vertices, faces, None)).

  Definition load_element (data : dict nat entry) (e : nat * einfo) : result (dict nat entry) :=
    let '(mid, info) := e in
    do x <- dlookup data mid;
    let '(vertices, faces, _) := x in Ok (dset data mid (vertices, faces, Some info)).

  (** Keys of the model dictionary: text or a (uid, name) pair. *)
  Inductive mkey := MStr (s : str) | MPair (uid name : str).
  #[global] Instance EqDec_mkey : EqDec mkey.
  Proof.
    intros [a|a a'] [b|b b']; try (right; discriminate).
    - destruct (eq_dec a b); subst; auto; right; congruence.
    - destruct (eq_dec a b), (eq_dec a' b'); subst; auto; right; congruence.
  Defined.

  Inductive mval := MVerts (l : list P) | MFaces (l : list face).
  Definition as_verts (v : mval) := match v with MVerts l => Ok l | _ => Err TypeError end.
  Definition as_faces (v : mval) := match v with MFaces l => Ok l | _ => Err TypeError end.

  (** io/dotbim.py:143-160 *)
  Definition put_model (bname : str) (model : jv mkey mval) (kv : nat * entry) : result (jv mkey mval) :=
    let '(_, (vertices, faces, info)) := kv in
    match info with
    | None => Err KeyError
    | Some e =>
        let path := [MStr bname; MPair (e_zuid e) (e_zname e); MPair (e_suid e) (e_sname e);
                     MPair (e_wuid e) (e_wname e); MPair (e_puid e) (e_pname e)] in
        do model <- set_path (path ++ [MStr (str_of "vertices")]) (MVerts vertices) model;
        set_path (path ++ [MStr (str_of "faces")]) (MFaces faces) model
    end.

  (** [uid, name = key]: unpacking the tuple. *)
  Definition unpair (k : mkey) : result (str * str) :=
    match k with MPair u n => Ok (u, n) | MStr _ => Err ValueError end.

  (** io/dotbim.py:162-190 *)
  Definition read_bim_poly (kv : mkey * jv mkey mval) : result (poly P) :=
    do un <- unpair (fst kv);
    do v <- item (snd kv) (MStr (str_of "vertices")); do v <- leaf v; do v <- as_verts v;
    do f <- item (snd kv) (MStr (str_of "faces")); do f <- leaf f; do f <- as_faces f;
    make_polygon coplanar (snd un) (fst un) v f.

  (** With the above (io/dotbim.py:162-190). *)
  Definition read_bim_wall (kv : mkey * jv mkey mval) : result (wall_n P str) :=
    do un <- unpair (fst kv);
    do ps <- entries (snd kv);
    do polys <- mapM read_bim_poly ps;
    new_node p_name (snd un) (fst un) polys.

  (** With the above (io/dotbim.py:162-190). *)
  Definition read_bim_solid (kv : mkey * jv mkey mval) : result (solid_n P str) :=
    do un <- unpair (fst kv);
    do ws <- entries (snd kv);
    do walls <- mapM read_bim_wall ws;
    new_node n_name (snd un) (fst un) walls.

  (** With the above (io/dotbim.py:162-190). *)
  Definition read_bim_zone (kv : mkey * jv mkey mval) : result (zone_n P str) :=
    do un <- unpair (fst kv);
    do ss <- entries (snd kv);
    do solids <- mapM read_bim_solid ss;
    new_node n_name (snd un) (fst un) solids.

  (** io/dotbim.py:99-190 *)
  Definition read_dotbim (f : bim) : result (building_n P str) :=
    match dget (f_info f) (str_of "generated_by") with
    | None => Err KeyError
    | Some g =>
        if negb (eqb g TOOL_NAME) then Err ValueError
        else
          do data <- foldM load_mesh (f_meshes f) [];
          do bname <- dlookup (f_info f) (str_of "building_name");
          do buid <- dlookup (f_info f) (str_of "building_uid");
          do data <- foldM load_element (f_elements f) data;
          do model <- foldM (put_model bname) data (JNode []);
          do name <- validate_name bname;
          do model <- touch [MStr bname] model;
          do zs <- item model (MStr bname);
          do zs <- entries zs;
          do kids <- foldM (fun acc kv => do z <- read_bim_zone kv; add_named n_name acc z) zs [];
          Ok (mkNode name buid kids)
    end.
End Bim.
