# Formal model of building3d in Rocq/Coq 8.16.1

The target is the Python package `building3d` (source text in `/repo`, pinned
commit).  The code is read as text and never executed.  `properties.jsonl`
lists the properties, `MANIFEST.json` maps each property to its theorems.

## 1. Layout

Everything is in `rocq/theories`, one group of files per area:

* `*Model.v`  – Gallina functions mirroring the Python functions branch by
  branch.  Each definition has a comment with the file and lines it models and
  the simplifications made.  No proofs (except decidable equality instances).
* `*Spec.v`   – vocabulary used to state properties, independent of the model's
  helper functions (e.g. "shoelace area of an outline", "quotient of a graph",
  "the last k inserted elements").
* `*Proofs*.v` – lemmas.
* `*Props.v`  – the property theorems `Cnn_...` and nothing else except
  concrete instances: every theorem is closed by `exact lemma.` (or a one-line
  instantiation), followed by `Print Assumptions`, with `Example`s beside it
  that satisfy its hypotheses on non-trivial data.
* `Prelude.v` – exceptions as values, insertion-ordered dictionaries, strings.
* `VecModel.v` – real numbers, comparisons, vectors.

A theorem named `..._refuted` proves that a natural, stronger reading of the
property is FALSE of the model, with a witness.  Section 5 lists them.

Build: `coq_makefile -f _CoqProject -o Makefile && make -j4` in `rocq/`.

## 2. Trusted base

1. The Coq 8.16.1 kernel and the faithful reading of theorem statements.
2. The axioms listed by `Print Assumptions`; appendix A lists them for every
   theorem.  They all come from the standard library:
   * `ClassicalDedekindReals.sig_forall_dec`, `ClassicalDedekindReals.sig_not_dec`
     and `FunctionalExtensionality.functional_extensionality_dep` (the
     construction of `R`);
   * `Classical_Prop.classic` (only where the library's trigonometry needs it).
   No axiom, parameter, admitted proof, functor, module type or disabled check
   is introduced here.
3. The correspondence between the Gallina functions and the Python text, which
   was established by reading.  The points where the model is deliberately
   simpler are in section 3 and in the comments of the model files.
4. Calls to code outside the package, which are arguments of the model
   functions (closed `Section`s, so theorems quantify over all behaviours):
   * `uuid.uuid4`, random draws (`UtilModel`: the drawn value is an argument);
   * Python's `int(str)` (`TreeModel`: `int_of`), `namedtuple` field name
     check (`WildModel`: `name_ok`), float formatting and `float()` (`StlModel`:
     `fmt`, `parse`, related by a hypothesis in the round-trip theorem);
   * set iteration order (`GraphModel`: `list_of_set`; `VoxModel`: `order_of`);
   * the geometric predicates used by the polygon graph, by `find_location`, by
     the array/file formats (`coplanar`) and by the ray loop (`target`, `pdist`,
     `pnormal` of a `scene`): arbitrary functions there, modelled concretely in
     `PolyModel`/`GeomModel`;
   * `json`, `dotbimpy`, `np.save`/`np.load`, the file system and `glob` are
     assumed to store and return what they were given.
   * `np.arange` compiled by numba gives `ceil((stop - start) / step)` numbers,
     number i being `start + i * step` (`VoxModel`, `FvModel`).
   * `np.linalg.lstsq` (used by `line_intersection`) is the exact least-squares
     solution.

## 3. Modelling conventions and simplifications

* **Exceptions** are values: `result A := Ok a | Err e`, `e` naming the Python
  class.  Operations that change state and may raise return the state too, so
  that partial effects before the exception are visible.
* **Dictionaries** are association lists in insertion order (assignment to an
  existing key keeps its position).
* **float64** is replaced by exact real arithmetic.  Comparisons with tolerances
  (`EPSILON`, `GEOM_ATOL`, `GEOM_RTOL`, numpy's `rtol`/`atol`) are kept with
  their constants.  NaN is modelled by `None` where it can occur.  Rounding
  errors, overflow and infinities are NOT modelled (except the infinite distance
  of a ray without target).  The exceptions are `FlModel` and `FvModel`: there
  the energies of the ray loop, the random numbers and the voxel grid are rounded
  to float64 (53 digits, subnormal numbers, no overflow); in `FlModel` the motion
  of the rays is arbitrary.
* **int32/int64** are `nat`/`Z` without overflow.  numba does no bounds checks;
  out-of-range accesses are modelled as `IndexError`.  Scalar division by zero in
  compiled code is `ZeroDivisionError`; division of arrays by zero gives NaN.
* **Loops** over geometric predicates are modelled generically over the
  predicate where possible, so these theorems hold for what float64 computes.
* **Fuel**: recursion that is not structurally decreasing takes fuel.
  `OutOfFuel` is a separate error value; theorems prove it unreachable, quantify
  over sufficient fuel, or state non-termination as "runs out for every fuel".
* **Objects**: in `TreeModel` objects live in a heap with identities, names,
  parents and children; the geometric files use values (a polygon is a record).
* **Logging** and progress counters are left out everywhere.

## 4. What is modelled

| Python file | Model | Not modelled |
|---|---|---|
| `config.py` | constants in `GeomModel` | logging level |
| `types/cyclic_buffer.py` | `UtilModel` | dtype conversion |
| `types/recursive_default_dict.py` | `IoModel` | – |
| `util/roll_back.py`, `random/__init__.py` | `UtilModel`, `FlModel` (rounding) | – |
| `paths/wildcardpath.py` | `WildModel` (text, regex subset, matcher), `DirModel` (`mkdir`, listing, a small model of pathlib and the file system) | regexes outside the subset (an error in the model); links, permissions, `..` |
| `geom/paths/*` | `TreeModel` | – |
| `geom/building/__init__.py` | `TreeModel`, `GraphModel`, `JoinModel` (`stitch_solids` with cache, lookups and changes; the pairwise stitch is an argument) | `__str__` |
| `geom/building/graph.py`, `find_location.py` | `GraphModel` | – |
| `geom/{building,zone,solid,wall}/get_mesh.py`, `geom/mesh` | `MeshModel` | – |
| `geom/zone`, `geom/solid`, `geom/wall`, `geom/polygon` `__init__.py` | `TreeModel` (hierarchy), `PolyModel`, `SolidModel` (geometry), `EqModel` (`Polygon.__eq__`) | `__str__`, `__repr__` |
| `geom/points/__init__.py` | `GeomModel`, `UtilModel` (`roll_forward`), `EqModel` (keys) | see section 6 |
| `geom/points/{distance,intersections,visibility,find_close_pairs}.py` | `GeomModel`, `PolyModel`, `VisModel` | – |
| `geom/vectors.py`, `rotation.py`, `bboxes.py`, `triangles.py`, `tetrahedrons.py` | `GeomModel`, `TriModel`, `PolyModel` (cubes) | – |
| `geom/polygon/{area,centroid,edges,plane,facing,distance,ispointinside,crossing,touching}.py` | `GeomModel`, `PolyModel` | – |
| `geom/polygon/slice/*` | `SliceModel` | – |
| `geom/solid/{box,floor_plan,stitch}.py` | `SolidModel`, `StitchModel` | – |
| `io/arrayformat.py` | `MeshModel` | random names |
| `io/b3d.py`, `io/dotbim.py` | `IoModel`, `SaveModel` (files, parent directories) | JSON text, colours, guids |
| `Polygon(pts, tri=tri)` in `io/b3d.py:99-104`, `io/dotbim.py:176-181`, `io/arrayformat.py:128`; `Solid.volume` of such polygons | `LoadModel` | floats (exact reals, NaN as None) |
| `io/stl.py` | `StlModel` (text), `SaveModel` (file, name) | comparison of normals (log only) |
| `sim/rays/simulation_loop.py`, `simulation.py` | `SimModel`, `RunModel` (the checks, starting velocities, batches and dumps of `run`), `FlModel` (rounded energies), `CfgModel` (directories) | progress printing; velocities that are NaN |
| `sim/rays/simulation_config.py` | `CfgModel` | defaults of engine/voxel entries |
| `sim/rays/{voxel_grid,find_nearby_polygons,find_target}.py` | `VoxModel`, `FvModel` (rounded grid) | – |
| `sim/rays/find_transparent.py` | `GraphModel` | – |
| `sim/rays/simulation.py` (`__init__` lines 31 and 76-79, `get_transparent_polygon_numbers`), `io/arrayformat.py` (line 70) | `TransModel` | polygon graph made anew at each search (its cache is that of C13); the arrays themselves |
| `sim/rays/simulation.py` (line 31), `sim/rays/simulation_loop.py` (lines 89-105), `io/arrayformat.py` (loops 56-75) | `ArrModel` | the meshes of the building are collected before the arrays are filled |
| `display/plot_objects.py`, `display/colors.py` | `PlotModel` | what is handed to the plotter; drawing itself and the window are outside; random colours are any function of the position |
| `logger/__init__.py`, `config.py` (LOG_FILE) | `LogModel` | what is logged after the start is outside |
| `sim/rays/ray_buff_plotter.py` (plot, get_points) | `RayPlotModel` | the mesh of the building is an argument |
| `sim/rays/dump_buffers.py` | `BufModel` | – |
| `sim/rays/{impulse_response,movie_from_buffer,ray_buff_plotter}.py` | `OutModel` (data only) | rendering |

| `_to_be_ported/mesh/{tetrahedralization,quality/*}.py` | `MshModel`: from the first Delaunay call on; points compared by an argument, scipy's Delaunay and `Solid.is_point_inside` are arguments, volume and centroid those of `geom/tetrahedrons.py` | choosing the points inside, deep copies |
| `_to_be_ported/mesh/{polymesh,solidmesh,mesh}.py` | `ContModel`: polygons and solids of any type; `delaunay_triangulation`, `delaunay_tetrahedralization` and `is_facing_polygon` are arguments; methods that raise leave their state | lists shared between objects (`copy()` without arguments, `reinit` with lists), logging |
| `_to_be_ported/mesh/triangulation.py` | `TriaModel`: scipy's `Delaunay`, the random numbers, equality of points, `are_points_in_set` and `create_points_between_list_of_points` are arguments; the loop has fuel | logging |
| `_to_be_ported/operations/{imprint_polygon,hole_polygon}.py` | `CutModel`: polygons and points of any type; slicing, interior points and closest pairs are arguments | logging |
| `_to_be_ported/predefined/walls/{partition_plan,walls}.py` | `PartModel`: points as vectors; the wall with an aperture is a wall and a polygon | the earlier classes `Point` and `Wall` they import; the example under `__main__` |
| `_to_be_ported/mesh/quality/{mesh_stats,min_triangle_area}.py` | `StatModel`: the numbers, not the text; `np.histogram` as floor in exact arithmetic | float rounding in bins |

The files in `_to_be_ported/` import modules that are not in the repository, so
nothing there runs as it is; the model is of the text.

Out of scope: the rest of `display/`, the rest of `_to_be_ported/`, rendering of plots and movies,
`jit_print.py`, the examples, numba's compilation.

## 5. Findings

Behaviour of the code that contradicts what its documentation or names suggest.
Each is a theorem (named in brackets); many are `_refuted` theorems with a
concrete witness.

* Cyclic buffer of size N holds N-1 elements [C01_capacity_refuted].
* Adding an object to two parents breaks the path round trip
  [C06_shared_object_refuted]; `replace_polygon` is not atomic
  [C09_replace_is_atomic_refuted]; stitching replaces polygons of the same name
  in all walls [C10_replaces_only_the_given_polygon_refuted].
* `get` on an object outside a building recurses for ever
  [C07_get_without_building_recurses].
* The graph cache ignores the relation flags [C13_flags_respected_refuted];
  `stitch_solids` skips pairs whose solid names repeat in other zones
  [C14_all_adjacent_pairs_stitched_refuted].
* `vstack_mesh` leaves a gap after an object without rows [C17_gap_refuted].
* Array format: unused vertices are dropped, trailing empty zones vanish, a
  building without solids raises [C20_...].
* B3D drops empty containers and fails with KeyError on an empty building
  [C21_...]; a uid with a line break ruins an STL file [C23_unclean_uid_refuted];
  triangles between an endsolid line and the next solid line are put into the
  solid that was closed [C23_reads, C23_late].
* Wildcards: values containing brackets are filled again
  [C24_brackets_in_values_refuted]; adjacent wildcards and names ending in an
  index cannot be read back [C25_adjacent_wildcards_refuted,
  C25_index_clash_refuted].
* File patterns without `.npy` are saved and never read back
  [C27_other_extension_refuted].
* Surface parameters never reach the simulation, which uses the default
  absorption for all polygons [C29_settings_do_not_reach_the_simulation].
* A ray at exactly the reflection distance neither moves nor reflects [C33];
  with zero absorption the reflection loop may run for ever [C34]; a ray that
  stood still at the end of a batch has velocity zero in the next one [C36].
* Time axis of the impulse response is stretched by N/(N-1)
  [C41_time_axis_refuted]; energies and vertices of movie trails are in
  different orders and the last row is never shown [C42, C75_trail_energy_refuted].
* `rotate_points_around_vector` returns a matrix of ones for the identity
  [C46_matrix_refuted]; `rotate_points_to_plane` shifts parallel points by
  minus the anchor and ignores d [C47].
* `triangulate` counts failures over its whole run and may give up on simple
  outlines [C51_simple_refuted].
* A small tetrahedron is accepted as coplanar; a repeated first point hides
  collinearity [C57_sound_refuted].
* Near slanted edges the triangle test rejects interior and accepts exterior
  points [C58_interior_refuted, C58_exterior_refuted].
* Slicing: a notch at the closing edge and a reflex first corner raise
  TriangulationError [C60_closing_edge_refuted, C60_reflex_start_refuted]; equal
  names make the reference points irrelevant [C61_equal_names_refuted]; several
  crossings on an edge are inserted in the wrong order [C62_order_refuted]; when
  giving up, `remove_redundant_points` returns one point [C63].
* Facing is not symmetric [C65_symmetric_refuted]; boxes far from the origin
  fail [C66_everywhere_refuted].
* A floor plan with a reflex first or last corner gives a surface that is not
  closed, with a volume that changes under vertical translation
  [C67_always_closed_refuted].
* The polygon centroid is not divided by the area [C68_inside_refuted].
* Two bars that form a plus sign can be reported as not crossing
  [C78_crossing_missed_refuted]. `are_polygons_touching` is not symmetric
  [C79_symmetric_refuted] and accepts overlapping polygons [C79_overlap_refuted].
* `Solid.is_point_inside` counts a line of sight through the common edge of two
  faces twice: interior points of a box are reported outside, points outside a
  tetrahedron inside [C80_interior_refuted, C80_exterior_refuted].
* A box against the middle of a larger box's side is not adjacent to it
  [C81_nested_refuted], overlapping boxes are [C81_overlap_refuted], and
  `has_correct_interface` is not symmetric [C81_symmetric_refuted].
* Stitching: touching polygons recurse for ever [C69_touching_refuted],
  TriangulationError escapes [C69_uncaught_refuted], a name clash loses a polygon
  [C69_lost]. A polygon strictly within another one, not in its middle, can end
  in an AssertionError with the outer polygon left cut in two: the part that is
  cut again is the bridge between the two outlines [C69_nested_refuted].
* `distance_point_to_polygon` is wrong for a normal opposite to that of the
  points [C70_distance_refuted].
* Converting a default dictionary with keys 1 and "1" loses one
  [C72_conversion_of_mixed_keys_refuted].
* A simulation whose project directory is its buffer directory never starts;
  the project directory is created before the check [C74].
* Crossings at a small angle are missed [C76_all_crossings_refuted]; flipping a
  polygon may leave its normal unchanged [C77_flip_reverses_refuted].
* `distance_point_to_polygon` is 0 for a point 9 mm beside a polygon 10 km from
  the origin [C82_far_refuted]. A ray passes through an interior point of a wall
  close to the corner of a triangle [C83_interior_refuted]. A needle-shaped
  polygon does not contain its own interior point [C84_contained_refuted].

* A ray that starts on a wall stays there and has no energy after the first
  step, whatever its direction [C85_source_on_wall]; with no absorption the step
  does not end [C85_endless]. In a box shorter than a step it does not end either
  [C87_short_box_refuted].
* `is_line_segment_crossing_polygon` is False for every segment within the plane of
  the polygon, even one within the polygon [C88_within_plane].
* `find_target_surface` picks, among the walls the ray would meet, the one with
  the nearest point, not the one met first. A ray heading for a screen is
  reflected by a wall behind it [C90_first_met_refuted].
* `Polygon.__eq__` raises ValueError for polygons with different numbers of
  corners [C91_raises]; it is neither symmetric nor transitive, and a polygon
  differs from itself with another first corner [C91_symmetric_refuted,
  C91_transitive_refuted, C91_rolled_refuted].
* Points that count as equal can have different hashes [C92_equal_points_refuted].
* A `WildcardPath` ending with a slash, or with a doubled one, never finds the
  directories it makes [C94_ends_in_slash, C94_doubled_slash_refuted].
* `get_matching_paths*` also return paths that the template cannot make, such as
  `old/run_1` and `xrun_1` for `run_<n>` [C94_only_made_refuted]; keyed by
  numbers they can replace the right path [C94_looked_up_refuted]. A dot in the
  template stands for any character [C94_dot_refuted].
* With a repeated wildcard, one path with two different numbers makes reading
  raise for the whole directory [C94_repeated_refuted].
* In float64 a positive absorption does not make a step end: at energy 1 an
  absorption below 2^-54 has no effect [C95_loops,
  C95_positive_absorption_refuted]. Above it every step ends [C95_ends].
* `random_between` can return its upper end, contrary to its documentation
  [C96_below_refuted].
* With the default cell size 0.1 the voxel grid leaves out a cell if the
  building's lower end less 1e-4 is almost a multiple of 0.1; a building that
  begins with a wall at x = 0.1001 raises ValueError [C97_skipped_refuted].
  Otherwise nothing is overlooked [C97_default].
* With other cell sizes neighbouring voxels can leave a single float between
  them: for size 0.09 a wall at x = -0.45 raises ValueError [C98_gap_refuted].
* The checks of `Simulation.__init__` accept negative batch sizes
  [C101_negative_batch_refuted]; the random point at the centre of the unit
  cube gives a ray without direction (NaN) [C101_no_velocity].
* `delaunay_tetrahedralization` looks for elements of zero volume with
  `np.isclose(vol, 0)`, but `tetrahedron_volume` is never below 8.3e-8 because
  of the epsilon under its root: none is ever found, not even if all points lie
  in a plane [C106_no_zero].
* `find_neighbors_numba` has four places per element and drops further
  neighbours; then the relation is not symmetric [C105_compiled_symmetric_refuted].
* The last check of `delaunay_tetrahedralization` requires both 0 and 4 among
  the counts, so a mesh of interior elements only would be refused.
* `PolyMesh.generate` extends the caller's lists in `fixed_points`
  [C107_fixed_points_refuted]; a polygon that faces an earlier and a later one
  does not share the points of the earlier one [C107_shared_refuted];
  `reinit` leaves the old areas [C107_areas_refuted].
* `SolidMesh.generate` called twice doubles the mesh [C108_twice_refuted]; owners
  are keyed by name, so with equal names elements lose their owner
  [C108_names_refuted]; `copy(elements=...)` has no volumes, since it looks for
  numbers among elements [C108_copy_elements_refuted].
* `Mesh.add_solid` that raises has added the solid already [C109_add_fails].
* `imprint_polygon` returns no polygon at all if every vertex of the inner
  polygon is one of the outer polygon [C110_vanishes], and can never succeed
  with one or two other vertices [C110_few].
* `partition_plan` wants as many names as points although there is one wall
  less [C111_names].
* `vertical_wall_with_aperture` with its default aperture of size 0 always
  raises [C112_default_refuted]; an aperture beside the wall is accepted
  [C112_inside, C112_example].
* `mesh_stats` decides by the first element only: a mesh with triangles and
  tetrahedra is reported as one kind, with the first three or four corners of
  each [C113_surface, C113_volume, C113_example]; an empty mesh raises
  IndexError before the branch that would say so [C113_empty].
* `delaunay_triangulation`: a repeated round starts from all points of the one
  before, grid points included, and puts edge points between them too
  [C114_computes]; it checks that fixed and edge points survived but not the
  corners; a vertex can belong to no face that is kept [C114_all_used]; only the
  normal of the first face is checked, which is enough for fixed points in the
  plane [C115_oriented]; with no faces left it raises IndexError, not MeshError
  [C116_end].

- **The file readers pass the triangles but not the normal** to `Polygon`, which
  then takes the normal of the first stored corner. A polygon whose first corner
  is reflex is read back with the opposite normal [C117_normal_refuted], one with
  a straight first corner with a NaN normal and area [C117_missing_refuted]. In
  `Solid.volume` the first adds with the wrong sign and the second always
  subtracts: a cube of volume 8 is read back with volume 8/3
  [C118_volume_refuted].

- **`Building.stitch_solids` takes the adjacent solids from the graph cache**: it
  asks for facing and overlapping polygons, but after a plain `get_graph()` the
  cached graph has facing ones only, and solids that cross are not stitched
  [C119_crossing_refuted, C119_cached].
- **C121 A self-crossing outline is accepted.** `Polygon` does not check that
  the outline is simple. A strip that bends around and crosses its own beginning
  (10 points) is triangulated; two of its triangles overlap, so the area counts
  the crossing twice [C121_overlap_refuted].
- **C123 Nothing tells such an outline apart** [C123_accepts_refuted]. For
  outlines that do not meet themselves this does not happen: their triangles fill
  what they enclose, without overlap, whatever ears were clipped
  [C123_triangles, C123_region].

- **C126 Solids with gaps.** The count of faces on the line of sight says what is inside only if the outlines match edge to edge; nothing in `Solid` checks that. A tetrahedron without one side is said to contain a point that can be reached from outside without going through a face. [C126_open_refuted]

- **C128 Plans and the inside test.** Plans whose first or last corner is not convex give solids with inconsistently turned faces (C67), so their volume is wrong; the inside test only counts faces and is right for them too. [C128_outline, C128_instance]

- **C129 Locating points.** The solids to look at first only change how long find_location takes as long as no two rooms overlap at the point. The theorem links a solid of the object tree (TreeModel) to its walls by an arbitrary assignment; the geometry of a solid is not stored in the tree of the model. [C129_hints_free]

- **C130 Confinement.** C86 is about boxes only and has its own conditions on edges; C130 is about all closed solids and floor plans, also those whose faces floor_plan turns inconsistently, because reflections do not depend on the sense of a normal. The condition on how faces are met excludes the known leaks (C83_interior_refuted). [C130_unmet, C130_room, C130_located]

- **C131 Doors.** C130 needs all faces of a solid to be walls. C131 allows transparent faces, as find_transparent makes them between adjacent solids: the ray then changes rooms, and it can not get out of the building because each door is a face of two rooms. A way through a door must go through the inside of a triangle; a way along an edge of the triangulation is not covered. [C131_doors, C131_rooms, C131_stays]

- **C132 Transparent polygons are remembered by id(building).** find_transparent never forgets: after a wall between two rooms is replaced in a simulated building, or when a new building gets the id of a deleted one, the old paths are used. Then an unrelated polygon of that path is transparent, or Simulation fails because the path is gone. A polygon with two opposite partners raises a bare AssertionError. [C132_remembered, C132_remembered_example, C132_several]
- **C133 Rays of a building.** C131 with the doors found by the code: they come in pairs, since opposite is symmetric and each polygon has one partner. Facing polygons of different zones stay walls. The faces passed to the loop (to_array_format) are an assumption (laid_out), as are closed solids. [C133_rooms, C133_stays]

- **C134 From the building to the loop.** Removes the assumption laid_out of C133: the polygons, their numbers and the box are those made from the objects. It needs triangles that use all points of their polygon and no others. Polygon(tri=...) does not check this: a corner number past the end takes a point of the next polygon, and only the last polygon raises IndexError. [C134_geometry, C134_stays, C134_foreign_points_refuted]

- **C135 Plotting.** The colour given for a single object is ignored, although the docstring only asks for as many colours as objects. The last branch (RuntimeError) cannot be reached. [C135_one_colour_refuted, C135_errors]

- **C134 Absorption.** surf_absorption has one entry per triangle and is read by polygon number. It is long enough when every polygon has a triangle; if one has none, the last polygon is read past the end, unchecked under numba. Setting different values by triangle would give them to other polygons. [C134_absorption, C134_reads, C134_absorption_refuted]

- **C137 The log.** Without a name the log of the last run in the same directory is overwritten. The comment in config.py allows LOG_FILE = None to print to the screen; only the value in the repository is modelled. [C137_default]
## 6. Not covered

* float64 rounding (section 3): a theorem about exact arithmetic says nothing
  about inputs whose distance to a tolerance boundary is of rounding size.
* Small helpers without a property of their own: `point_to_str`, `new_vector`,
  `list_pts_to_array`, `__str__`/`__repr__`, and
  `create_points_between_list_of_points`, which only raises NotImplementedError.

## 7. Wrong programs

`seeded/LOG.jsonl` records the mutation tests.  For each attempt a model
definition was edited in a scratch copy the way a programmer could get it wrong,
the dependent files were rebuilt, every proof that no longer went through was
admitted *in the scratch copy*, and `Print Assumptions` showed which property
theorems depend on such a proof ("theorems_failed").  When the English claim was
false for the edited program and no theorem failed, the theorem was tightened in
`/verif` ("theorems_tightened").  Edits marked "equivalent" do not change the
behaviour that is claimed.

## Appendix A. Axioms per theorem

Abbreviations: R1 = `ClassicalDedekindReals.sig_forall_dec`, R2 =
`ClassicalDedekindReals.sig_not_dec`, FE =
`FunctionalExtensionality.functional_extensionality_dep`, CL =
`Classical_Prop.classic`.

* **none (closed under the global context)**: `C01_capacity_refuted`,
  `C01_cyclic_buffer_contents`, `C02_full_turn_is_identity`,
  `C02_roll_back_characterised`, `C02_rolls_are_inverse`, `C03_random_id`,
  `C04_every_text_splits`, `C04_names_have_no_separator`, `C04_paths_are_injective`,
  `C04_split_inverts_join`, `C05_add_refused_iff_name_taken`,
  `C05_failed_add_changes_nothing`, `C05_polygon_has_none`, `C05_sibling_names_unique`,
  `C06_path_roundtrip`, `C06_path_roundtrip_linked`, `C06_shared_object_refuted`,
  `C07_get_on_descendant`, `C07_get_returns_exactly_the_named_object`,
  `C07_get_without_building_recurses`, `C07_level_decides_class`,
  `C07_missing_component_is_KeyError`, `C07_point_index`,
  `C07_too_many_components_is_ValueError`, `C07_wrong_building_name_asserts`,
  `C08_building_concatenates_zones`, `C08_listed_paths_resolve`,
  `C08_listing_complete_and_distinct`, `C08_orphans`, `C08_solid_concatenates_walls`,
  `C08_wall_lists_its_polygons`, `C08_zone_concatenates_solids`,
  `C09_replace_is_atomic_refuted`, `C09_replace_polygon`, `C09_replace_wall`, `C100_b3d`,
  `C100_dotbim`, `C100_name`, `C100_name_plain`, `C100_stl`, `C101_checks`,
  `C101_checks_errors`, `C101_negative_batch_refuted`, `C101_shapes`, `C103_purge`,
  `C103_purge_again`, `C103_purge_ends`, `C103_purge_ragged`, `C103_purge_same`,
  `C104_collapse`, `C104_different`, `C104_same`, `C105_missing`, `C105_neighbors`,
  `C107_add`, `C107_reinit`, `C109_add`, `C109_add_fails`,
  `C10_replaces_only_the_given_polygon_refuted`, `C10_unique_name_replaces_one`,
  `C110_few`, `C110_first`, `C110_first_cut`, `C110_free`, `C110_names`, `C110_result`,
  `C110_second_cut`, `C110_vanishes`, `C113_empty`, `C119_cached`,
  `C119_crossing_refuted`, `C119_fresh`, `C119_unique_names`,
  `C11_polygon_graph_is_the_connection_relation`, `C11_symmetric_and_irreflexive`,
  `C120_errors`, `C120_hierarchy`, `C12_remove_last_takes_the_prefix`,
  `C12_strip_is_the_quotient`, `C12_strip_keeps_symmetry`, `C132_dummy`, `C132_numbers`,
  `C132_off`, `C132_remembered`, `C134_absorption`, `C134_absorption_refuted`,
  `C134_foreign_points_refuted`, `C135_cells`, `C135_drawn`, `C135_errors`, `C135_file`,
  `C135_one_colour_refuted`, `C135_refused`, `C136_drawn`, `C136_fails`, `C137_default`,
  `C137_named`, `C137_refused`, `C13_every_result_is_some_fresh_graph`,
  `C13_flags_respected_refuted`, `C13_new_graph_is_current`, `C13_stale_until_recomputed`,
  `C13_unknown_level_is_ValueError`, `C14_all_adjacent_pairs_stitched_refuted`,
  `C14_each_name_pair_at_most_once`, `C14_unique_names_each_pair_once`,
  `C15_first_containing_solid`, `C15_search_order_is_building_order`, `C16_first_call`,
  `C16_later_calls_repeat_the_answer`, `C16_two_facing_polygons_fail`, `C17_gap_refuted`,
  `C17_stacking_keeps_vertices_and_triangles`, `C18_mesh_contains_every_polygon_triangle`,
  `C19_array_format_is_faithful`, `C19_faces_index_own_points`, `C20_array_round_trip`,
  `C20_no_solids_raises`, `C20_only_accepted_polygons`, `C20_out_of_range`,
  `C20_unused_vertices_refuted`, `C21_b3d_drops_empty_containers`, `C21_b3d_no_polygons`,
  `C21_b3d_roundtrip`, `C21_reads_well_formed`, `C21_values_refused`,
  `C22_bim_drops_empty_containers`, `C22_bim_rejects_foreign_files`, `C22_bim_roundtrip`,
  `C22_reads_well_formed`, `C23_errors`, `C23_line_ends`, `C23_reads`,
  `C23_stl_roundtrip`, `C23_unclean_uid_refuted`, `C24_brackets_in_values_refuted`,
  `C24_fill`, `C25_adjacent_wildcards_refuted`, `C25_index_clash_refuted`,
  `C25_leading_wildcard_loses_digits`, `C25_match_inverts_fill`, `C26_filter`,
  `C26_keyed_by_values`, `C26_keyed_by_values_total`, `C26_others_skipped`,
  `C26_unknown_keyword`, `C27_chained_batches_lose_nothing`, `C27_dump_then_read`,
  `C27_lengths_differ`, `C27_missing_file`, `C27_no_files`, `C27_other_extension_refuted`,
  `C27_read_sound`, `C28_array`, `C28_last_setting_wins`, `C28_set_changes_exactly`,
  `C28_set_outcome`, `C28_unnumbered_polygon_raises`,
  `C29_settings_do_not_reach_the_simulation`, `C39_nearby_cells`, `C42_buffer_to_lines`,
  `C42_decoding_unique`, `C42_plotter_empty`, `C42_plotter_lines`, `C48_bbox_empty`,
  `C49_edges`, `C49_edges_empty`, `C51_terminates`, `C60_edges`, `C67_no_points`,
  `C69_replace`, `C69_replace_error`, `C72_conversion_keeps_string_paths`,
  `C72_conversion_of_mixed_keys_refuted`, `C72_reading_creates`,
  `C72_stored_values_are_read_back`, `C72_storing_below_a_value_fails`,
  `C72_storing_succeeds`, `C74_empty_directory_refused`, `C74_file_refused`,
  `C74_nonempty_directory_refused`, `C74_nothing_is_overwritten`,
  `C74_same_directory_never_works`, `C74_start_needs_new_directory`, `C75_frame_current`,
  `C75_frame_index`, `C75_trail_energy`, `C92_valid`, `C93_again`, `C93_keeps`,
  `C93_outcome`, `C93_raises`, `C93_text`, `C93_where`, `C94_dot_refuted`,
  `C94_doubled_slash_refuted`, `C94_ends_in_slash`, `C94_found`, `C94_found_iff`,
  `C94_looked_up_refuted`, `C94_never_raises`, `C94_only_made_refuted`,
  `C94_repeated_refuted`, `C99_b3d_no_parents`, `C99_dotbim_no_parents`,
  `C99_formats_load_fails`, `C99_load_fails`, `C99_no_parents`, `C99_others`,
  `C99_raises`, `C99_refused`, `C99_saved`, `C99_stl_no_parents`
* **R1**: `C75_trail_energy_single`
* **FE, R1**: `C03_random_between`, `C03_random_within`, `C105_compiled`,
  `C105_compiled_empty`, `C105_compiled_symmetric_refuted`, `C108_copy_elements`,
  `C108_copy_ends`, `C108_copy_whole`, `C110_area`, `C113_average`, `C121_convex`,
  `C121_count`, `C121_exact`, `C121_loop`, `C121_mesh`, `C121_no_overlap`, `C122_cut`,
  `C122_parts`, `C123_loop`, `C125_direction`, `C125_outside`, `C125_paths`, `C125_some`,
  `C125_way`, `C132_several`, `C132_transparent`, `C134_geometry`, `C134_no_points`,
  `C30_energy_monotone`, `C31_budget`, `C31_conservation`, `C31_hits`,
  `C32_dead_rays_stay`, `C32_left_rays_die`, `C33_step_outcome`,
  `C34_number_of_reflections`, `C34_terminates`, `C34_zero_absorption_loops`,
  `C35_schedule_complete`, `C35_schedule_independent`, `C35_schedule_sound`,
  `C36_batching`, `C36_positions_always`, `C36_stalled_velocity`, `C37_buffers_history`,
  `C38_grid_complete`, `C38_grid_exact`, `C38_outside_rejected`, `C39_nearby_complete`,
  `C40_target_nearest`, `C41_fails_without_hits`, `C41_normalised`, `C41_time_axis`,
  `C41_time_axis_refuted`, `C44_centroid`, `C48_bbox`, `C48_inside_bbox`, `C48_overlap`,
  `C50_area_formula`, `C50_area_invariant`, `C50_area_small`, `C53_mesh_moved`,
  `C53_total`, `C55_accepted`, `C55_in_array`, `C56_between`, `C56_one_between`,
  `C60_area`, `C60_same_edge_area`, `C60_vector_area`, `C65_complete`, `C65_sound`,
  `C65_symmetric`, `C66_edges`, `C66_outward`, `C70_boundary`, `C75_trail_energy_refuted`,
  `C81_facing_exact`, `C82_leaving_crosses_outline`, `C89_edges`, `C89_sides`,
  `C91_raises`, `C91_reflexive`, `C91_rolled_refuted`, `C91_same_length`,
  `C91_symmetric_refuted`, `C91_transitive_refuted`, `C92_equal_points_refuted`,
  `C92_hash`, `C92_round8`, `C92_same_key`, `C92_tuple`, `C95_due`, `C95_ends`,
  `C95_exact`, `C95_loops`, `C95_never_grow`, `C96_below_refuted`, `C96_tiny_refuted`,
  `C97_exact`, `C98_downwards`, `C98_exact`
* **FE, R1, R2**: `C101_completes`, `C101_no_velocity`, `C101_saved`, `C101_velocity`,
  `C102_box`, `C102_budget`, `C102_dead_rays`, `C102_energies`, `C102_reach`,
  `C103_total`, `C103_volume`, `C106_invalid`, `C106_least_volume`, `C106_mesh`,
  `C106_no_zero`, `C106_unused`, `C107_again`, `C107_areas_refuted`, `C107_fails`,
  `C107_fixed_points`, `C107_fixed_points_refuted`, `C107_generate`, `C107_shared`,
  `C107_shared_refuted`, `C108_copy_elements_refuted`, `C108_copy_small`, `C108_fails`,
  `C108_generate`, `C108_names_refuted`, `C108_twice`, `C108_twice_refuted`,
  `C108_volume`, `C109_generate`, `C109_surface`, `C111_bad_names`, `C111_built`,
  `C111_names`, `C111_walls`, `C112_aperture`, `C112_axis`, `C112_built`,
  `C112_default_refuted`, `C112_flat`, `C112_inside`, `C112_wall`, `C113_fails`,
  `C113_least_area`, `C113_numbers`, `C113_surface`, `C113_volume`, `C116_round_runs`,
  `C117_any`, `C117_loaded`, `C117_made`, `C117_missing_refuted`, `C117_normal_refuted`,
  `C118_turned`, `C118_volume`, `C118_volume_refuted`, `C118_without`, `C121_code`,
  `C121_inside`, `C121_made`, `C121_overlap_refuted`, `C122_covers`, `C122_points`,
  `C122_slice`, `C123_accepts_refuted`, `C123_code`, `C123_move`, `C123_simple`,
  `C123_triangles`, `C124_points`, `C126_open_refuted`, `C127_box_outside`, `C128_levels`,
  `C130_unmet`, `C134_reads`, `C33_constant_speed`, `C40_no_wall_missed`,
  `C43_area_bounds`, `C43_area_degenerate`, `C43_area_invariant`, `C43_area_squared`,
  `C44_volume_bounds`, `C44_volume_formula`, `C44_volume_invariant`, `C45_normal`,
  `C45_normal_invariant`, `C45_normal_undefined`, `C46_all_ones`, `C46_matrix_refuted`,
  `C46_rodrigues`, `C46_rotate_around`, `C46_rotation`, `C50_area_triangle`,
  `C50_area_vector`, `C51_bad_normal`, `C51_convex`, `C51_outcome`, `C51_result`,
  `C51_simple_refuted`, `C52_area`, `C52_area_plane`, `C52_boundary`, `C52_orientation`,
  `C52_positive`, `C52_vector_area`, `C53_divergence`, `C53_exists`, `C53_moved`,
  `C53_volume`, `C54_degenerate`, `C54_distance`, `C55_sound`, `C57_accepted`,
  `C57_collinear`, `C57_collinear_repeated`, `C57_sound`, `C57_sound_refuted`,
  `C57_total`, `C58_exterior`, `C58_exterior_refuted`, `C58_interior`,
  `C58_interior_refuted`, `C58_outside_box`, `C58_total`, `C58_vertices`, `C59_error`,
  `C59_in_plane`, `C59_sound`, `C59_then_inside`, `C60_closing_edge_refuted`, `C60_count`,
  `C60_ends_inside`, `C60_parts`, `C60_polygons`, `C60_reflex_start_refuted`,
  `C60_same_edge`, `C60_same_vertex`, `C60_short`, `C60_slice`, `C61_equal_names_refuted`,
  `C61_names`, `C61_order`, `C61_outcomes`, `C61_points`, `C62_added`, `C62_crossing`,
  `C62_order_refuted`, `C62_same_points`, `C63_first_run`, `C63_result`, `C63_straight`,
  `C64_count`, `C64_empty`, `C64_first`, `C64_greedy`, `C65_symmetric_refuted`,
  `C66_bad_name`, `C66_box`, `C66_everywhere_refuted`, `C66_far`,
  `C67_always_closed_refuted`, `C67_bad_names`, `C67_closed`, `C67_name_clash`,
  `C67_names`, `C67_shape`, `C67_volume`, `C68_centroid`, `C68_errors`,
  `C68_inside_refuted`, `C69_depth`, `C69_lost`, `C69_names`, `C69_nested_cut`,
  `C69_nested_refuted`, `C69_nothing_to_do`, `C69_pieces`, `C69_returns`, `C69_rounds`,
  `C69_touching_refuted`, `C69_uncaught_refuted`, `C70_contains`, `C70_distance`,
  `C70_distance_refuted`, `C70_inside`, `C70_margin`, `C70_no_normal`, `C70_no_plane`,
  `C70_ortho`, `C70_parallel`, `C70_plane`, `C70_plane_all`, `C70_projection`,
  `C70_undefined`, `C71_blocked`, `C71_defined`, `C71_matrix`, `C71_not_coplanar`,
  `C71_visible`, `C76_all_crossings_refuted`, `C76_complete`, `C76_guard`, `C76_parallel`,
  `C76_segments_complete`, `C76_segments_sound`, `C76_sound`, `C77_flip`,
  `C77_flip_reverses_refuted`, `C77_made`, `C78_apart`, `C78_boxes_apart`,
  `C78_crossing_missed_refuted`, `C78_exact`, `C78_not_coplanar`, `C78_same`, `C78_sound`,
  `C79_exact`, `C79_overlap_refuted`, `C79_self`, `C79_symmetric_refuted`,
  `C80_box_inside`, `C80_exterior_refuted`, `C80_interior_refuted`, `C80_on_face`,
  `C80_outside`, `C80_parity_even`, `C80_parity_odd`, `C81_adjacent`, `C81_boxes`,
  `C81_interface`, `C81_interface_adjacent`, `C81_made_proper`, `C81_nested_refuted`,
  `C81_overlap_refuted`, `C81_symmetric_refuted`, `C82_far_refuted`, `C82_made`,
  `C82_total`, `C82_true_distance`, `C83_interior_refuted`, `C83_no_wall_crossed`,
  `C83_scene_exists`, `C84_contained`, `C84_contained_refuted`, `C84_given_triangles`,
  `C84_interior_point`, `C84_no_triangles`, `C85_endless`, `C85_source_on_wall`,
  `C86_box_is_room`, `C86_never_leaves`, `C86_step`, `C87_ends`, `C87_energy`,
  `C87_short_box_refuted`, `C87_three_reflections`, `C88_crosses`, `C88_exact`,
  `C88_misses`, `C88_reverse`, `C88_within_plane`, `C89_apart`, `C89_entered`,
  `C89_exact`, `C89_pierced`, `C90_box`, `C90_first_met_refuted`, `C90_no_target`,
  `C90_not_missed`, `C90_only_wall`
* **CL, FE, R1, R2**: `C114_all_used`, `C114_computes`, `C114_fixed`, `C114_vertices`,
  `C115_oriented`, `C116_end`, `C116_fuel`, `C116_one_round`, `C123_made`, `C123_region`,
  `C123_same`, `C124_apart`, `C124_union`, `C126_solid`, `C126_turned`, `C127_box_inside`,
  `C127_convex_inside`, `C127_convex_outside`, `C128_floor`, `C128_outline`,
  `C129_hints_free`, `C129_located`, `C130_inside`, `C130_located`, `C130_room`,
  `C131_doors`, `C131_rooms`, `C131_stays`, `C131_twins`, `C131_way`, `C133_rooms`,
  `C133_stays`, `C134_stays`, `C47_parallel`, `C47_to_plane`, `C73_angle`,
  `C73_angle_invariant`, `C73_angle_parallel`, `C73_angle_undefined`, `C95_hits`,
  `C95_positive_absorption_refuted`, `C95_rounding`, `C96_between`, `C96_within`,
  `C97_default`, `C97_nearby`, `C97_skipped_refuted`, `C98_default`, `C98_gap_refuted`,
  `C98_upwards`
