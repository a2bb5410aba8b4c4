{"id": "C01", "title": "Cyclic buffer keeps the newest elements in order", "statement": "Starting from an empty buffer of size N (head = tail = 0), after any sequence of insertions with cyclic_buf, convert_to_contiguous returns exactly the last min(k, N-1) inserted elements, oldest first, where k is the number of insertions; elements are never reordered, duplicated or lost before that limit. (The documented capacity N is never reached.)", "quantifier": "for all buffer sizes N >= 1, all element types and all finite insertion sequences", "why_tests_cant": "The claim concerns every insertion history; the existing tests look at four short histories and convert_to_contiguous has no test at all.", "anchors": ["building3d/types/cyclic_buffer.py:cyclic_buf", "building3d/types/cyclic_buffer.py:convert_to_contiguous"]}
{"id": "C02", "title": "Rolling a sequence loses nothing", "statement": "roll_back moves the first element to the end and roll_forward moves the last element to the front; they are mutually inverse, preserve length and content, and n-fold rolling of an n-element sequence is the identity. roll_back of an empty list raises IndexError.", "quantifier": "for all lists / point arrays of any length", "why_tests_cant": "Tests check one list; the law is over all lengths and contents.", "anchors": ["building3d/util/roll_back.py:roll_back", "building3d/geom/points/__init__.py:roll_forward"]}
{"id": "C03", "title": "Random ids and bounded random numbers stay in range", "statement": "random_id(size) raises ValueError when size > 32 or size <= 0, otherwise returns exactly size characters which are a prefix of the de-hyphenated UUID; random_between(lo, hi) returns a value in [min, max) of its arguments in either order; random_within(lim) returns a value in [-lim, lim) for lim > 0 and exactly 0 for lim = 0.", "quantifier": "for all sizes, all UUID values, all real bounds and all draws u in [0,1)", "why_tests_cant": "Random outputs can only be sampled by tests; the bound must hold for every draw.", "anchors": ["building3d/random/__init__.py:random_id", "building3d/random/__init__.py:random_within", "building3d/random/__init__.py:random_between"]}
{"id": "C04", "title": "Object names and paths are unambiguous", "statement": "A name accepted at construction contains no path separator, every name containing a separator is rejected with ValueError, and splitting the path made by joining accepted names returns exactly those names; hence two different name sequences never give the same path.", "quantifier": "for all strings and all non-empty sequences of accepted names", "why_tests_cant": "Injectivity of paths is a statement about all pairs of name sequences.", "anchors": ["building3d/geom/paths/validate_name.py:validate_name", "building3d/geom/paths/split_path.py:split_path", "building3d/geom/building/__init__.py:Building.path"]}
{"id": "C05", "title": "Sibling names stay unique under every edit history", "statement": "After any sequence of constructions, add_zone/add_solid/add_wall/add_polygon, replace_wall and replace_polygon calls (failing calls included), every container maps each child name to at most one child and every key equals the name of the child stored under it. A rejected add (duplicate name) raises GeometryError and leaves the whole model unchanged; a polygon takes no children (TypeError).", "quantifier": "for all operation sequences, all names, all container levels", "why_tests_cant": "The invariant ranges over unbounded interleavings of edits including failing ones.", "anchors": ["building3d/geom/building/__init__.py:Building.add_zone", "building3d/geom/zone/__init__.py:Zone.add_solid", "building3d/geom/solid/__init__.py:Solid.add_wall", "building3d/geom/solid/__init__.py:Solid.replace_wall", "building3d/geom/wall/__init__.py:Wall.add_polygon", "building3d/geom/wall/__init__.py:Wall.replace_polygon"]}
{"id": "C06", "title": "Paths lead back to the object they name", "statement": "In a model in which every object was added to at most one container, building.get(obj.path) returns obj itself for every zone, solid, wall and polygon reachable from the building, at every level. If the same object is added to two containers this fails: its path names only the later container.", "quantifier": "for all reachable models and all objects reachable from a building", "why_tests_cant": "The statement covers every shape of building and every edit history; tests use two fixed buildings.", "anchors": ["building3d/geom/building/__init__.py:Building.get", "building3d/geom/polygon/__init__.py:Polygon.path", "building3d/geom/wall/__init__.py:Wall.path", "building3d/geom/solid/__init__.py:Solid.path", "building3d/geom/zone/__init__.py:Zone.path"]}
{"id": "C07", "title": "Path lookup is exact", "statement": "Building.get(path) returns the child chain named by the path components and nothing else: a path whose first component is not the building name fails the assertion, an unknown component raises KeyError, more than six components raise ValueError, and a path of 2/3/4/5 components yields a zone/solid/wall/polygon. get called on any descendant is the same as get called on its root building.", "quantifier": "for all path strings and all models", "why_tests_cant": "Requires reasoning about all strings and all models, including every error branch.", "anchors": ["building3d/geom/building/__init__.py:Building.get", "building3d/geom/zone/__init__.py:Zone.get", "building3d/geom/solid/__init__.py:Solid.get", "building3d/geom/wall/__init__.py:Wall.get", "building3d/geom/polygon/__init__.py:Polygon.get"]}
{"id": "C08", "title": "Polygon path listing is complete and duplicate-free", "statement": "Building.get_polygon_paths lists each polygon of the building exactly once, in zone/solid/wall/polygon insertion order, all listed paths are pairwise different and each resolves by get to that polygon; the listing of a building is the concatenation of the listings of its zones, that of a zone the concatenation over its solids, that of a solid the concatenation over its walls. The listing of a zone, solid or wall without a building above it raises AssertionError.", "quantifier": "for all reachable models", "why_tests_cant": "Completeness and distinctness must hold for models of any size.", "anchors": ["building3d/geom/building/__init__.py:Building.get_polygon_paths", "building3d/geom/zone/__init__.py:Zone.get_polygon_paths", "building3d/geom/solid/__init__.py:Solid.get_polygon_paths", "building3d/geom/wall/__init__.py:Wall.get_polygon_paths"]}
{"id": "C09", "title": "Replacing children touches only the named child", "statement": "Wall.replace_polygon(old, *new) removes exactly the polygon called old and appends the new polygons in order, keeping all others in order; if old is missing it raises KeyError and changes nothing. Replacement is not atomic: when a new polygon's name clashes, the old polygon is already gone.", "quantifier": "for all walls, names and lists of replacement polygons", "why_tests_cant": "Failure can strike after any prefix of the additions; tests exercise only the success path.", "anchors": ["building3d/geom/wall/__init__.py:Wall.replace_polygon", "building3d/geom/solid/__init__.py:Solid.replace_wall"]}
{"id": "C10", "title": "Stitching replaces by polygon name in all walls", "statement": "stitch.replace_polygon replaces the polygon wherever its name occurs in the solid: when the name is unique among the solid's walls exactly that polygon is replaced, every other polygon is untouched; when two walls hold polygons of the same name, both are replaced.", "quantifier": "for all solids, polygon names and replacement lists", "why_tests_cant": "Depends on all possible name distributions across walls.", "anchors": ["building3d/geom/solid/stitch.py:replace_polygon", "building3d/geom/solid/stitch.py:get_walls_and_polygons"]}
{"id": "C11", "title": "Polygon graph is exactly the chosen connection relation", "statement": "graph_polygon lists b among the neighbours of a iff a and b are different polygons with overlapping bounding boxes for which one of the requested relations (facing / overlapping / touching) holds in at least one direction; the neighbour relation is symmetric, has no self loops and no duplicates, and with at least two polygons every polygon is a key.", "quantifier": "for all buildings, all relation predicates and all flag combinations", "why_tests_cant": "Holds for arbitrary (even asymmetric) relations and any number of polygons.", "anchors": ["building3d/geom/building/graph.py:graph_polygon", "building3d/geom/building/graph.py:iter_polygons"]}
{"id": "C12", "title": "Wall, solid and zone graphs are quotients of the polygon graph", "statement": "strip_graph(g, n) connects two different path prefixes iff some polygon below one is connected in g to some polygon below the other; it has no self loops and no duplicate neighbours, and it is symmetric whenever g is.", "quantifier": "for all graphs and all n", "why_tests_cant": "Universal over graphs.", "anchors": ["building3d/geom/building/graph.py:strip_graph", "building3d/geom/building/graph.py:remove_last", "building3d/geom/building/graph.py:graph_wall", "building3d/geom/building/graph.py:graph_solid", "building3d/geom/building/graph.py:graph_zone"]}
{"id": "C13", "title": "Graph cache behaviour", "statement": "get_graph(new=True) always reflects the current building and flags; get_graph(new=False) after a non-empty result returns the earlier result whatever flags are passed and whatever edits happened since; all four levels returned between two recomputations stem from one polygon graph; an unknown level raises ValueError.", "quantifier": "for all call histories of get_graph interleaved with model edits", "why_tests_cant": "Staleness is a property of histories, not of single calls.", "anchors": ["building3d/geom/building/__init__.py:Building.get_graph"]}
{"id": "C14", "title": "Which solid pairs stitch_solids visits", "statement": "Building.stitch_solids calls the pairwise stitch at most once per unordered pair of solid names and only for pairs adjacent in the graph it uses; if solid names are unique in the building every adjacent pair is stitched once. If solid names repeat across zones, adjacent pairs can be skipped.", "quantifier": "for all solid graphs", "why_tests_cant": "Universal over graphs and name assignments.", "anchors": ["building3d/geom/building/__init__.py:Building.stitch_solids"]}
{"id": "C15", "title": "find_location returns the first containing solid", "statement": "find_location returns the first path, hints first then building order, whose solid contains the point; it raises RuntimeError iff no listed solid contains it and TypeError when a hint names something that is not a solid before any containing solid is found.", "quantifier": "for all buildings, points, hint lists and containment predicates", "why_tests_cant": "Universal over containment predicates and hint lists.", "anchors": ["building3d/geom/building/find_location.py:find_location"]}
{"id": "C16", "title": "Transparent polygons are the facing pairs inside one zone", "statement": "On first call for a building, find_transparent returns exactly the paths of polygons facing a polygon of the same zone, provided each polygon faces at most one other (otherwise the assertion fails); later calls for the same object return the first answer even after edits.", "quantifier": "for all facing graphs and call histories", "why_tests_cant": "Universal over graphs; staleness is a history property.", "anchors": ["building3d/sim/rays/find_transparent.py:find_transparent"]}
{"id": "C17", "title": "Stacking meshes keeps every vertex and triangle", "statement": "vstack_mesh returns the concatenation of all vertices, and triangle t of object i refers to the same three coordinates as in object i, provided every object has at least one vertex and one triangle (or empty objects are only leading ones). With an empty object between non-empty ones the result is corrupted.", "quantifier": "for all tuples of meshes of any size", "why_tests_cant": "Index arithmetic over unbounded numbers of objects and sizes.", "anchors": ["building3d/geom/mesh/__init__.py:vstack_mesh"]}
{"id": "C18", "title": "Building mesh contains every polygon triangle in place", "statement": "For a model in which no container is empty, get_mesh of a wall/solid/zone/building returns the vertices of all its polygons in traversal order and, for each polygon triangle, a face whose three coordinates equal those of the triangle; nothing else is returned.", "quantifier": "for all models with non-empty containers, at every level", "why_tests_cant": "Nested stacking at three levels with arbitrary sizes.", "anchors": ["building3d/geom/wall/get_mesh.py:get_mesh_from_polygons", "building3d/geom/solid/get_mesh.py:get_mesh_from_walls", "building3d/geom/zone/get_mesh.py:get_mesh_from_solids", "building3d/geom/building/get_mesh.py:get_mesh_from_zones"]}
{"id": "C19", "title": "Array format describes the building faithfully", "statement": "to_array_format returns arrays whose lengths are the total numbers of points, faces, faces, polygons, walls and solids; the k-th polygon in traversal order gets number k, its faces index exactly its own points, and the walls/solids/zones arrays give the parent of every polygon/wall/solid.", "quantifier": "for all buildings", "why_tests_cant": "Unbounded building sizes; offset arithmetic.", "anchors": ["building3d/io/arrayformat.py:to_array_format", "building3d/io/arrayformat.py:count_objects"]}
{"id": "C20", "title": "Array format round trip", "statement": "from_array_format(to_array_format(b)) has the same zone/solid/wall/polygon nesting as b and each polygon has the same points and triangles, provided every vertex of every polygon is used by its triangulation and the last zone is not empty. Unused vertices are dropped and trailing empty zones are lost. Whatever arrays are read, every polygon of the resulting building is one that the Polygon constructor accepts with its points and triangles. A polygon with a triangle whose corner is not a row of the array of points cannot be read (IndexError).", "quantifier": "for all buildings satisfying the proviso", "why_tests_cant": "Round trip over all buildings; the test compares one volume.", "anchors": ["building3d/io/arrayformat.py:to_array_format", "building3d/io/arrayformat.py:from_array_format", "building3d/io/arrayformat.py:get_polygon_points_and_faces"]}
{"id": "C21", "title": "B3D file round trip", "statement": "read_b3d(write_b3d(b)) has the same building name, zone/solid/wall/polygon names in the same order, and the same points, triangles and uid for every polygon, if every zone, solid and wall contains at least one polygon. Zones/solids/walls without polygons are dropped, a building without polygons cannot be read back (KeyError), and building/zone/solid/wall uids are not kept. Whatever a file holds, a building that is read from it is well formed: names without '/', distinct among siblings, and every polygon one that the polygon checks accept. A file with a value in place of the zones, a zone, a solid or a wall is refused.", "quantifier": "for all buildings", "why_tests_cant": "Round trip over all buildings including degenerate ones.", "anchors": ["building3d/io/b3d.py:write_b3d", "building3d/io/b3d.py:read_b3d"]}
{"id": "C22", "title": ".bim file round trip", "statement": "read_dotbim(write_dotbim(b)) restores names, uids, nesting, order, points and triangles for every building in which no zone/solid/wall is empty and siblings have distinct (uid, name); files not generated by this tool are rejected (KeyError without the marker, ValueError with a foreign marker). Whatever a file holds, a building that is read from it is well formed, carries the name and uid recorded in the file, and every mesh has an element and every element a mesh.", "quantifier": "for all buildings", "why_tests_cant": "Round trip over all buildings.", "anchors": ["building3d/io/dotbim.py:write_dotbim", "building3d/io/dotbim.py:read_dotbim"]}
{"id": "C23", "title": "STL round trip keeps every triangle", "statement": "read_stl(write_stl(b)) succeeds and yields one solid per solid of b in traversal order, each with one wall holding one triangle polygon per triangle of the original solid with the same three vertices in the same order. Any file can be read exactly if its lines tell groups, each from a solid line to the next, of facets and of endsolid lines with the group's name (a nameless group ends at most once); there is one solid of all the group's triangles for each of its endsolid lines, so triangles after an endsolid line are in the solid too. Files that differ only in how lines end (line feed, carriage return or both) are read alike.", "quantifier": "for all buildings, coordinate spellings without blanks, and solid uids without surrounding blanks", "why_tests_cant": "Parsing/printing inverse over all files.", "anchors": ["building3d/io/stl.py:write_stl", "building3d/io/stl.py:read_stl"]}
{"id": "C24", "title": "Wildcard filling is total and exact", "statement": "WildcardPath(p).fill(parent, **kw) succeeds iff kw has exactly the wildcard names of p as keys (ValueError on a count mismatch, KeyError on an unknown name) and then every occurrence of each <name> is replaced by its value with all other characters unchanged.", "quantifier": "for all templates made of literals and wildcards, all keyword assignments in any order", "why_tests_cant": "All templates, all values, all keyword orders.", "anchors": ["building3d/paths/wildcardpath.py:WildcardPath.fill", "building3d/paths/wildcardpath.py:WildcardPath._find_wildcards"]}
{"id": "C25", "title": "Wildcard matching inverts filling", "statement": "If the template starts with a non-empty literal, literals contain no digits or regex metacharacters and wildcards are separated by non-empty literals, then a path produced by fill matches the template and reading it back gives exactly the filled integers. Without a literal before the first wildcard only the last digit is read back.", "quantifier": "for all such templates, parents and non-negative integers", "why_tests_cant": "Greedy matching with backtracking over unbounded strings.", "anchors": ["building3d/paths/wildcardpath.py:WildcardPath.get_matching_paths_dict_values", "building3d/paths/wildcardpath.py:WildcardPath._wildcards_to_regex"]}
{"id": "C26", "title": "Filtering matching paths", "statement": "get_matching_paths(parent, **kw) returns exactly the matching paths whose wildcard values agree with every keyword, in directory order; a keyword that is not a wildcard yields an empty list. Keyed by their wildcard values, every path is found under its own values; of several paths with the same values the last is kept. Paths without a digit are passed over wherever they stand in the listing.", "quantifier": "for all match dictionaries and keyword assignments", "why_tests_cant": "Counting-based filter must equal conjunction for all inputs.", "anchors": ["building3d/paths/wildcardpath.py:WildcardPath.get_matching_paths"]}
{"id": "C27", "title": "Dumped simulation states are read back unchanged", "statement": "After a run that dumps consecutive batches (each batch saves batch_size+1 states starting at its initial step), the dump directory holds exactly num_steps+1 states and read_buffers returns, for every step, the state last written for that step; if each batch starts from the last state of the previous one, no state is lost or altered. Whatever a directory holds, what is read has one state per step up to the highest listed step in each of the three buffers, each the content of the file of its step, all of one shape per buffer; a missing step is FileNotFoundError, different highest steps an AssertionError and no files a RuntimeError.", "quantifier": "for all batch counts, batch sizes and buffer contents", "why_tests_cant": "Overlapping files and unbounded numbers of batches.", "anchors": ["building3d/sim/rays/dump_buffers.py:dump_buffers", "building3d/sim/rays/dump_buffers.py:read_buffers", "building3d/sim/rays/simulation.py:Simulation.run"]}
{"id": "C28", "title": "Surface parameters reach exactly the addressed polygons", "statement": "set_surface_param(name, path, v, b) changes the value of exactly the polygons at or below path and no others; surface_params_to_array then puts at index k the value of polygon number k (the default when no value was set), raising RuntimeError when polygons are not numbered.", "quantifier": "for all configurations, paths and buildings, for any sequence of settings", "why_tests_cant": "Last-write-wins over arbitrary sequences of partial paths.", "anchors": ["building3d/sim/rays/simulation_config.py:SimulationConfig.set_surface_param", "building3d/sim/rays/simulation_config.py:SimulationConfig.surface_params_to_array", "building3d/sim/rays/simulation_config.py:SimulationConfig.set_default_surface_paths"]}
{"id": "C29", "title": "Absorption used by the simulation", "statement": "The simulation uses the default absorption for every polygon: values set with set_surface_param have no effect on a run.", "quantifier": "for all configurations", "why_tests_cant": "Absence of an effect cannot be shown by examples.", "anchors": ["building3d/sim/rays/simulation.py:Simulation.__init__"]}
{"id": "C30", "title": "Ray energy never grows and never becomes negative", "statement": "With non-negative absorption coefficients, each ray's energy in the energy buffer is non-increasing over steps and stays >= 0, and it never exceeds its initial value.", "quantifier": "for all geometries, rays, absorbers and numbers of steps", "why_tests_cant": "Invariant over every execution.", "anchors": ["building3d/sim/rays/simulation_loop.py:simulation_loop"]}
{"id": "C31", "title": "Energy bookkeeping", "statement": "In each step, the total ray energy before the step equals the total after it plus the hits recorded for the step plus the energy lost at surfaces or by leaving the building; each hit amount equals the energy the absorbed rays had, and every absorbed ray is credited to exactly one absorber, the first in index order whose radius contains it.", "quantifier": "for all states and all steps", "why_tests_cant": "Conservation law over every execution.", "anchors": ["building3d/sim/rays/simulation_loop.py:simulation_loop"]}
{"id": "C32", "title": "Exhausted rays stay put", "statement": "Once a ray's energy is at most eps it is never moved, reflected, revived or counted as a hit in any later step; a ray that left the bounding box loses all energy in the next step.", "quantifier": "for all executions", "why_tests_cant": "A stability property over unbounded futures.", "anchors": ["building3d/sim/rays/simulation_loop.py:simulation_loop"]}
{"id": "C33", "title": "Rays move at constant speed", "statement": "Every ray's speed is preserved by reflection (unit normals), and in each step a ray either stays or moves by exactly velocity * time_step; an energetic ray stays only when its distance to the target equals the reflection distance exactly.", "quantifier": "for all geometries with unit normals and all executions", "why_tests_cant": "Invariant over every execution.", "anchors": ["building3d/sim/rays/simulation_loop.py:simulation_loop"]}
{"id": "C34", "title": "The reflection loop terminates", "statement": "If every absorption coefficient is at least a > 0, a ray is reflected at most ceil(energy/a) times within one step, so each step terminates; with zero absorption the loop can run forever.", "quantifier": "for all geometries and states", "why_tests_cant": "Termination for all inputs.", "anchors": ["building3d/sim/rays/simulation_loop.py:simulation_loop"]}
{"id": "C35", "title": "Parallel ray updates do not interfere", "statement": "The result of a simulation step does not depend on the order in which the parallel loop processes the rays.", "quantifier": "for all schedules (permutations of rays) and all states", "why_tests_cant": "All schedules cannot be tested.", "anchors": ["building3d/sim/rays/simulation_loop.py:simulation_loop"]}
{"id": "C36", "title": "Batching does not change the trajectories", "statement": "Running n*b steps in n batches of b gives the same positions and energies as one batch of n*b steps, as long as every ray alive at a batch boundary moved in the last step of the batch; a ray that stalled in that step continues with zero velocity instead.", "quantifier": "for all batch sizes, numbers of batches and initial states", "why_tests_cant": "Equivalence of executions of unbounded length.", "anchors": ["building3d/sim/rays/simulation.py:Simulation.run", "building3d/sim/rays/simulation_loop.py:simulation_loop"]}
{"id": "C37", "title": "Buffers contain the full history", "statement": "simulation_loop returns buffers with num_steps+1 entries, entry 0 is the initial state and entry i+1 is the state after i+1 steps; recorded hits are per step, not cumulative.", "quantifier": "for all numbers of steps and initial states", "why_tests_cant": "Unbounded step counts.", "anchors": ["building3d/sim/rays/simulation_loop.py:simulation_loop"]}
{"id": "C38", "title": "Voxel grid misses no polygon", "statement": "For step > 0, if the bounding box given covers all polygons, make_voxel_grid does not raise and, for every polygon and every point q in the convex hull of its vertices, the polygon is listed in the cell containing q; if a polygon is disjoint from every cell, ValueError is raised.", "quantifier": "for all polygon lists, bounding boxes and step sizes", "why_tests_cant": "Real-valued coverage statement.", "anchors": ["building3d/sim/rays/voxel_grid.py:make_voxel_grid"]}
{"id": "C39", "title": "Nearby search sees everything within one cell size", "statement": "find_nearby_polygons at the cell of a position returns exactly the polygons listed in the 27 surrounding cells; combined with the voxel grid, every polygon having a point within one cell size of the position in each coordinate is returned, so no wall within the reflection distance is missed when the reflection distance does not exceed the voxel size.", "quantifier": "for all positions inside the bounding box, all grids and polygons", "why_tests_cant": "Real-valued coverage statement.", "anchors": ["building3d/sim/rays/find_nearby_polygons.py:find_nearby_polygons", "building3d/sim/rays/voxel_grid.py:make_voxel_grid"]}
{"id": "C40", "title": "Target search returns the nearest hit polygon", "statement": "find_target_surface returns -1 iff no checked, non-transparent polygon is hit by the ray; otherwise it returns a checked, non-transparent, hit polygon whose distance to the position is minimal among all such, whatever the set iteration order.", "quantifier": "for all polygon sets, iteration orders and distances", "why_tests_cant": "Order independence and minimality over all inputs.", "anchors": ["building3d/sim/rays/find_target.py:find_target_surface"]}
{"id": "C41", "title": "Impulse response normalisation", "statement": "impulse_response scales all columns by one positive factor so that the largest column sum is 1 and all others are at most 1, keeping the ratios between absorbers; it fails iff no hits were recorded. The input buffer is not modified.", "quantifier": "for all hit buffers with non-negative entries", "why_tests_cant": "Universal over buffers.", "anchors": ["building3d/sim/rays/impulse_response.py:impulse_response"]}
{"id": "C42", "title": "Ray trail connectivity", "statement": "position_buffer_to_lines and RayBuffPlotter.get_lines produce, for each ray, one line through exactly that ray's positions in time order; all indices are within range and each point is used exactly once.", "quantifier": "for all buffer lengths and ray counts", "why_tests_cant": "Index arithmetic over unbounded sizes.", "anchors": ["building3d/sim/rays/movie_from_buffer.py:position_buffer_to_lines", "building3d/sim/rays/ray_buff_plotter.py:RayBuffPlotter.get_lines"]}
{"id": "C43", "title": "Triangle area", "statement": "triangle_area squared equals the squared cross-product area plus EPSILON; hence it is symmetric in the vertices, invariant under translation, never smaller than the true area and larger by at most sqrt(EPSILON); a degenerate triangle gets area 1e-6 rather than 0.", "quantifier": "for all triples of points (exact arithmetic)", "why_tests_cant": "Algebraic identity over all reals.", "anchors": ["building3d/geom/triangles.py:triangle_area"]}
{"id": "C44", "title": "Tetrahedron volume", "statement": "tetrahedron_volume equals sqrt(det^2/36 + EPSILON/144): it is invariant under vertex permutation and translation, at least the true volume and at most sqrt(EPSILON)/12 larger.", "quantifier": "for all quadruples of points (exact arithmetic)", "why_tests_cant": "Algebraic identity over all reals.", "anchors": ["building3d/geom/tetrahedrons.py:tetrahedron_volume"]}
{"id": "C45", "title": "Normal vector", "statement": "normal(p0,p1,p2) is a unit vector orthogonal to both edges and positively oriented, or NaN exactly when the parallelogram area is at most 1e-8; it is invariant under translation and cyclic rotation of the points and changes sign when two points are swapped.", "quantifier": "for all triples of points (exact arithmetic)", "why_tests_cant": "Real-valued universal statement.", "anchors": ["building3d/geom/vectors.py:normal"]}
{"id": "C46", "title": "Rotations preserve distances", "statement": "For a unit axis u, rotation_matrix(u, phi) is orthogonal with determinant 1, fixes u and is inverted by rotation_matrix(u, -phi); rotating points therefore preserves all pairwise distances. When no rotation is needed rotate_points_around_vector returns an all-ones matrix, which is not the rotation it performed.", "quantifier": "for all unit axes, angles and point arrays (exact arithmetic)", "why_tests_cant": "Trigonometric identities over all reals.", "anchors": ["building3d/geom/rotation.py:rotation_matrix", "building3d/geom/rotation.py:rotate_points", "building3d/geom/rotation.py:rotate_points_around_vector"]}
{"id": "C47", "title": "Rotating points to a plane", "statement": "When the points' normal is not parallel to u, rotate_points_to_plane maps a coplanar polygon n.p = c into the plane u.q = c - n.anchor + u.anchor + d (so through anchor + u*d only if the anchor lies in the polygon's plane) and preserves distances; when it is parallel, points are returned shifted by -anchor and the distance argument is ignored.", "quantifier": "for all coplanar point arrays, anchors, unit normals and distances (exact arithmetic)", "why_tests_cant": "Trigonometric identities over all reals.", "anchors": ["building3d/geom/rotation.py:rotate_points_to_plane"]}
{"id": "C48", "title": "Bounding boxes are tight and overlap test is exact", "statement": "bounding_box contains every point and each face touches some point; is_point_inside_bbox accepts exactly the points within atol of the box; are_bboxes_overlapping is symmetric and true iff the two (non-empty) boxes share a point.", "quantifier": "for all non-empty point arrays", "why_tests_cant": "Universal over point arrays.", "anchors": ["building3d/geom/bboxes.py:bounding_box", "building3d/geom/bboxes.py:is_point_inside_bbox", "building3d/geom/bboxes.py:are_bboxes_overlapping"]}
{"id": "C49", "title": "Polygon edges", "statement": "polygon_edges returns exactly n edges, the i-th going from vertex i to vertex i+1 modulo n.", "quantifier": "for all point arrays with at least one point", "why_tests_cant": "Loop invariant over all lengths.", "anchors": ["building3d/geom/polygon/edges.py:polygon_edges"]}
{"id": "C50", "title": "Polygon area is well defined", "statement": "polygon_area is invariant under rotating the vertex list, reversing it, and translating all points, is never negative, scales with the square of a uniform scaling and equals half the length of the vector area when vn is the unit vector along it; it agrees with the cross-product area for a triangle.", "quantifier": "for all point arrays with at least three points (exact arithmetic)", "why_tests_cant": "Universal over polygons of any size.", "anchors": ["building3d/geom/polygon/area.py:polygon_area"]}
{"id": "C51", "title": "Triangulation is complete and well formed", "statement": "triangulate always terminates: it returns the input points or their reversal together with exactly n-2 triangles of pairwise different valid indices, in which every vertex occurs, or raises TriangulationError after at most two attempts. Each clipped triangle is a convex corner containing no other remaining vertex. Convex polygons always succeed; a simple polygon that can be ear-clipped may be rejected, because the failure counter is never reset.", "quantifier": "for all point arrays with at least three points and all normals", "why_tests_cant": "Termination and structure for every polygon.", "anchors": ["building3d/geom/triangles.py:triangulate"]}
{"id": "C52", "title": "Triangulation covers the polygon boundary exactly once", "statement": "The triangles returned by triangulate have the polygon as oriented boundary: every interior edge occurs once in each direction and the remaining edges are exactly the polygon's edges. Hence the vector areas of the triangles add up to the polygon's vector area, and polygon_area equals the sum of the triangles' signed areas, all of which are positive.", "quantifier": "for all polygons for which triangulate succeeds", "why_tests_cant": "Chain-level statement over all polygons.", "anchors": ["building3d/geom/triangles.py:triangulate", "building3d/geom/polygon/area.py:polygon_area"]}
{"id": "C53", "title": "Solid volume", "statement": "For a solid whose polygon normals agree with the triangle orientation, Solid.volume differs from the absolute signed volume enclosed by the triangle mesh by at most 1e-6/12 per triangle; for a closed mesh that signed volume does not depend on where the solid is placed. For flat polygons the volume is the sum of plane offset times area over three, whatever the triangulation.", "quantifier": "for all solids (exact arithmetic)", "why_tests_cant": "Universal over meshes of any size.", "anchors": ["building3d/geom/solid/__init__.py:Solid.volume"]}
{"id": "C54", "title": "Distance to an edge is the true minimum", "statement": "distance_point_to_edge returns the minimum distance from the point to any point of the segment, for segments with distinct end points; for coinciding end points the result is undefined (0/0).", "quantifier": "for all points and non-degenerate segments (exact arithmetic)", "why_tests_cant": "Optimality over the continuum.", "anchors": ["building3d/geom/points/distance.py:distance_point_to_edge"]}
{"id": "C55", "title": "Point-on-segment test", "statement": "Every point of the segment is accepted by is_point_on_segment, and every accepted point that is not within tolerance of an end point lies within atol*sqrt(3)/length of the line and projects onto the segment up to atol/length. A point is in an array exactly if all its coordinates are close to those of one of the points.", "quantifier": "for all points, segments and tolerances (exact arithmetic)", "why_tests_cant": "Real-valued soundness and completeness.", "anchors": ["building3d/geom/points/__init__.py:is_point_on_segment"]}
{"id": "C56", "title": "Points between two points", "statement": "many_new_points_between_2_points returns num+2 points, first and last equal the end points, consecutive points are equally spaced and all lie on the segment; new_point_between_2_points with rel_d in [0,1] lies on the segment and equals an end point at 0 and 1.", "quantifier": "for all points and counts (exact arithmetic)", "why_tests_cant": "All counts and coordinates.", "anchors": ["building3d/geom/points/__init__.py:many_new_points_between_2_points", "building3d/geom/points/__init__.py:new_point_between_2_points"]}
{"id": "C57", "title": "Coplanarity test", "statement": "are_points_coplanar accepts every set of exactly coplanar points; when it accepts after computing a normal, all points are within atol of one plane. It also accepts any points whose consecutive triples span areas at most 1e-8, even if they are not coplanar to within atol.", "quantifier": "for all point arrays (exact arithmetic)", "why_tests_cant": "Real-valued soundness and completeness.", "anchors": ["building3d/geom/points/__init__.py:are_points_coplanar", "building3d/geom/points/__init__.py:are_points_collinear"]}
{"id": "C58", "title": "Point-in-triangle test", "statement": "For a triangle and a coplanar point, is_point_inside accepts all vertices, and rejects points outside the (slightly enlarged) bounding box; interior points that are not nearly collinear with an edge are accepted and exterior points are rejected. An interior point nearly collinear with a slanted edge can be wrongly rejected.", "quantifier": "for all triangles and points (exact arithmetic)", "why_tests_cant": "Real-valued statement.", "anchors": ["building3d/geom/triangles.py:is_point_inside", "building3d/geom/triangles.py:is_point_on_same_side"]}
{"id": "C59", "title": "Convex corner test", "statement": "is_corner_convex never accepts a corner whose cross product is opposite or orthogonal to the unit normal and, for a corner lying exactly in the plane with the given normal, accepts iff the turn is counter-clockwise and not degenerate (below atol).", "quantifier": "for all corners and unit normals (exact arithmetic)", "why_tests_cant": "Real-valued statement.", "anchors": ["building3d/geom/triangles.py:is_corner_convex"]}
{"id": "C60", "title": "Slicing conserves the area", "statement": "When get_point_arrays succeeds for a slicing chain that joins two different edges, a vertex and an edge, or two different vertices, the two parts are bounded by the polygon boundary and the chain, so their vector areas (second part reversed) add up to the vector area of the original polygon. The scalar areas add up exactly when the two arrays go round in opposite directions and otherwise exceed the polygon's area. The edges of the parts are those of the outline plus the chain once in each direction. A chain with both ends on one edge is put in after the start of that edge, except for the closing edge, where it is put in after vertex 0, so that the same notch works on other edges and raises TriangulationError there; the same happens with a polygon listed from a reflex corner. Every unusable chain raises a definite exception.", "quantifier": "for all polygons and slicing chains (exact arithmetic)", "why_tests_cant": "Universal over polygons and chains of any length.", "anchors": ["building3d/geom/polygon/slice/get_point_arrays.py:get_point_arrays"]}
{"id": "C61", "title": "Names of sliced parts", "statement": "make_polygons returns the parts in the order (name1, name2); when the two names differ, the part containing a reference point gets the corresponding name, if no part contains the point a GeometryError is raised, and a first point lying in both parts raises RuntimeError when two points are given. When the names are equal, or no point is given, the order of the arrays is kept wherever the reference points are.", "quantifier": "for all containment outcomes, names and optional points", "why_tests_cant": "All combinations including coinciding names and points in both parts.", "anchors": ["building3d/geom/polygon/slice/__init__.py:make_polygons"]}
{"id": "C62", "title": "Adding intersection points keeps the outline", "statement": "add_intersection_points keeps every original vertex in order, inserts only intersection points that are no vertex of the crossing edges, each after the start of the edge it lies on, and inserts each found intersection into both outlines. With two or more crossings on one edge the inserted points may be in the wrong order along the edge.", "quantifier": "for all pairs of outlines and all intersection outcomes", "why_tests_cant": "Universal over outlines.", "anchors": ["building3d/geom/polygon/slice/add_intersection_points.py:add_intersection_points"]}
{"id": "C63", "title": "Removing redundant slicing points", "statement": "remove_redundant_points always returns: either points of a rotation of the input in order, none of which is outside the polygon, or, exactly when every rotation begins or ends inside the polygon, just the last point. A first run of interior points between two points on the outline is returned with exactly its two ends.", "quantifier": "for all slicing points and location outcomes", "why_tests_cant": "Termination and subsequence property for all inputs.", "anchors": ["building3d/geom/polygon/slice/remove_redundant_points.py:remove_redundant_points"]}
{"id": "C64", "title": "Close pairs", "statement": "find_close_pairs returns n pairs of mutually visible points, each point used at most once, in ascending distance, the first pair being the overall closest; it raises ValueError iff fewer than n pairs can be selected greedily.", "quantifier": "for all point arrays, n and visibility relations", "why_tests_cant": "Greedy matching over all inputs.", "anchors": ["building3d/geom/points/find_close_pairs.py:find_close_pairs"]}
{"id": "C65", "title": "Facing test", "statement": "are_polygons_facing implies opposite normals, and that every point of the first polygon is matched with a different, equal point of the second; with exact comparison and equally many points it is symmetric. It is not symmetric when the second polygon has extra vertices.", "quantifier": "for all polygons", "why_tests_cant": "Universal over polygons.", "anchors": ["building3d/geom/polygon/facing.py:are_polygons_facing"]}
{"id": "C66", "title": "Box solids are correct", "statement": "box(x,y,z,move) has six faces whose outward normals point along the axes, twelve edges each shared by exactly two faces in opposite directions, and volume x*y*z up to 1e-6, for sizes within a factor 5000 of each other and offsets up to 8000 times the smallest size. A box whose x offset is 100001 times its x size cannot be built at all: the relative tolerance merges its corners.", "quantifier": "for all dimensions and offsets in the stated ranges (exact arithmetic)", "why_tests_cant": "All dimensions and offsets.", "anchors": ["building3d/geom/solid/box.py:box", "building3d/geom/solid/__init__.py:Solid.volume"]}
{"id": "C67", "title": "Floor plan solids", "statement": "floor_plan of n points gives n+2 walls with unique names or an error; wall i spans the i-th edge of the turned and moved plan from floor to ceiling. The surface is closed exactly when the first and the last corner of the plan are convex; then the volume is area times height, otherwise it depends on the vertical position. Exactly one of the floor and ceiling polygons has lost its given name.", "quantifier": "for all plans with at least three points, heights, translations and rotations", "why_tests_cant": "All plan sizes.", "anchors": ["building3d/geom/solid/floor_plan.py:floor_plan"]}
{"id": "C68", "title": "Polygon centroid", "statement": "polygon_centroid returns the area-weighted sum of triangle centroids; it is not divided by the total area, so it equals the centre of mass only when the (EPSILON-adjusted) areas add up to one.", "quantifier": "for all triangulated polygons (exact arithmetic)", "why_tests_cant": "Universal over polygons.", "anchors": ["building3d/geom/polygon/centroid.py:polygon_centroid"]}
{"id": "C69", "title": "Stitching stops only when nothing is adjacent", "statement": "If stitch_solids returns, no polygon of one solid crosses, contains or is contained in a polygon of the other. Whatever the outcome, walls and unique names are kept and every polygon is a piece ('-main'/'-sup' appended, same normal) of an earlier one. A round that changes nothing makes the recursion endless (a triangle touching an edge with one corner), any other adds polygons, so the depth is at most the polygons gained plus one. A TriangulationError is not caught (closing edge), and a polygon whose part name is taken is lost. When one polygon is strictly within the other, the outer one is cut along the path outer-inner-inner-outer (or its rotation) through the two closest visible pairs; the first part is then cut with the inner outline, which raises AssertionError when that part is the bridge between the outlines.", "quantifier": "for all solids with unique names, all numbers of nested calls and all outcomes", "why_tests_cant": "Termination behaviour and half-done updates over all inputs; tests stitch a few boxes.", "anchors": ["building3d/geom/solid/stitch.py:stitch_solids", "building3d/geom/solid/stitch.py:next_adjacent_polygons", "building3d/geom/solid/stitch.py:slice_both_and_replace", "building3d/geom/solid/stitch.py:slice_one_and_replace", "building3d/geom/solid/stitch.py:replace_polygon"]}
{"id": "C70", "title": "Plane coefficients and projections", "statement": "plane_coefficients gives a plane containing the first three used points with unit normal; a forward projection accepted by is_point_inside_projection hits the plane at a non-negative parameter, and the orthogonal distance in distance_point_to_polygon is the distance to that plane if the stored normal is the plane normal. A polygon whose first and last corners are reflex is stored with the opposite normal, and the distance is then wrong. A point is at the boundary exactly if it is on an edge, inside with a margin exactly if it is inside and so far from the outline, and a polygon contains another exactly if it contains all its points with a margin. Without a plane at the first corner a projected point is accepted only for a triangle with an edge without length.", "quantifier": "for all polygons with a defined normal, points and directions (exact arithmetic)", "why_tests_cant": "Real-valued statement.", "anchors": ["building3d/geom/polygon/plane.py:plane_coefficients", "building3d/geom/polygon/ispointinside.py:is_point_inside_projection", "building3d/geom/polygon/distance.py:distance_point_to_polygon"]}
{"id": "C71", "title": "Visibility matrix", "statement": "visibility_matrix is symmetric with unit diagonal and entries 0 or 1, and entry (i,j) with i<j is the visibility of point i from point j.", "quantifier": "for all point arrays and blocking edges", "why_tests_cant": "All sizes.", "anchors": ["building3d/geom/points/visibility.py:visibility_matrix"]}
{"id": "C72", "title": "Recursive default dictionaries", "statement": "Values stored at string-key paths are read back by later lookups and survive conversion to a plain dict; reading a missing key creates an empty nested dict that appears in the conversion; keys that are different but print alike collide in the conversion.", "quantifier": "for all sequences of reads and writes", "why_tests_cant": "Histories of arbitrary length.", "anchors": ["building3d/types/recursive_default_dict.py:recursive_default_dict", "building3d/types/recursive_default_dict.py:recursive_default_dict_to_dict"]}
{"id": "C73", "title": "Angle between vectors", "statement": "angle(v1, v2) lies in [0, pi], is symmetric, invariant under positive scaling, 0 for parallel and pi for opposite vectors.", "quantifier": "for all non-zero vectors (exact arithmetic)", "why_tests_cant": "Real-valued statement.", "anchors": ["building3d/geom/vectors.py:angle"]}
{"id": "C74", "title": "Simulation directory protection", "statement": "Starting a simulation never overwrites existing state files: a non-empty buffer directory raises RuntimeError before anything is written; an existing empty buffer directory also fails (FileExistsError), and so does a file in its place.", "quantifier": "for all directory states", "why_tests_cant": "All file-system states.", "anchors": ["building3d/sim/rays/simulation.py:Simulation.make_dirs"]}
{"id": "C75", "title": "Movie trail colours", "statement": "The energies attached to the trail vertices of a movie frame are laid out step by step while the vertices are laid out ray by ray: they belong to the right ray and step only for a single ray or a single row, not in general. Frame i shows row i-1 as current and no row from i on, so the last recorded row is never shown.", "quantifier": "for all buffers, ray counts and trail lengths", "why_tests_cant": "Index arithmetic over unbounded sizes; wrong colours raise no error.", "anchors": ["building3d/sim/rays/movie_from_buffer.py:make_movie_from_buffer", "building3d/sim/rays/movie_from_buffer.py:position_buffer_to_lines"]}
{"id": "C76", "title": "Line and segment intersection", "statement": "Two lines that meet and do not count as parallel get exactly their common point; a returned point lies on the first line, and within tolerance of the nearest point of the second one; exactly parallel lines get none; segments get the common point exactly when it lies on both. Segments that cross at a small angle count as parallel and their crossing is missed.", "quantifier": "for all points, directions and segments (exact arithmetic)", "why_tests_cant": "Real-valued statement over all positions; a missed crossing raises no error.", "anchors": ["building3d/geom/points/intersections.py:line_intersection", "building3d/geom/points/intersections.py:line_segment_intersection"]}
{"id": "C77", "title": "Making and flipping polygons", "statement": "A polygon made from points of a plane has a unit normal of that plane which agrees with the order of its stored points; the order is the given one exactly when the first corner is convex, otherwise it is silently reversed. Polygon.flip keeps the area and reverses the normal exactly when the last corner is convex; otherwise it returns the same polygon.", "quantifier": "for all plane polygons that can be constructed (exact arithmetic)", "why_tests_cant": "All polygon shapes; tests flip convex polygons only and an unflipped polygon raises no error.", "anchors": ["building3d/geom/polygon/__init__.py:Polygon", "building3d/geom/polygon/__init__.py:Polygon.flip"]}
{"id": "C78", "title": "Crossing polygons", "statement": "are_polygons_crossing always answers for polygons with proper edges and triangles, and answers True exactly when the bounding boxes meet, all points pass the coplanarity test and two edges without a common end intersect, one of the ten equally spaced points of these two edges being strictly inside the other polygon. So nested polygons, separate ones and the same polygon in any corner order do not cross; but two bars forming a plus sign whose sample points miss each other are reported as not crossing.", "quantifier": "for all polygons with distinguishable points (exact arithmetic)", "why_tests_cant": "The answer depends on which of the sampled points fall inside; a few hand-made polygons cannot show what the sampling misses.", "anchors": ["building3d/geom/polygon/crossing.py:are_polygons_crossing"]}
{"id": "C79", "title": "Touching polygons", "statement": "are_polygons_touching answers True exactly when the boxes meet, some corner of the first polygon is not a corner of the second, a corner of one lies on the outline of the other and no quarter point of an edge of one is strictly inside the other. It is not symmetric (a triangle filling the notch of a polygon does not touch it, the polygon touches the triangle), and overlapping polygons can count as touching.", "quantifier": "for all polygons with distinct, distinguishable points (exact arithmetic)", "why_tests_cant": "Universal over polygons; asymmetric answers appear only for particular shapes.", "anchors": ["building3d/geom/polygon/touching.py:are_polygons_touching"]}
{"id": "C80", "title": "Point in a solid", "statement": "Solid.is_point_inside answers False for every point beyond all corners in some coordinate, True for a point on a face, and otherwise True exactly when the fixed line of sight meets an odd number of faces; interior points of a box whose line of sight leaves well inside a face triangle are found inside. A line of sight through the common edge of two faces counts both: some interior points of a box are reported outside, and some points outside a tetrahedron are reported inside.", "quantifier": "for all solids with proper faces and all points (exact arithmetic); the box statement for all box sizes and positions", "why_tests_cant": "The wrong answers need a line of sight exactly through an edge, which a handful of sample points never has.", "anchors": ["building3d/geom/solid/__init__.py:Solid.is_point_inside", "building3d/geom/solid/__init__.py:Solid.is_point_at_boundary"]}
{"id": "C81", "title": "Adjacent solids", "statement": "is_adjacent_to_solid and has_correct_interface always answer for solids made of polygons that can be constructed. The interface is correct exactly when some polygon of the first solid faces one of the second (opposite normals, equal areas, corners of the first among those of the second); the solids are adjacent exactly when some pair faces or crosses. Two boxes with a common side are adjacent with a correct interface in both orders. A box against the middle of a larger box's side is not adjacent; overlapping boxes are; and the interface can be correct from one side only.", "quantifier": "for all lists of constructible polygons; the box statement for all box sizes and positions (exact arithmetic)", "why_tests_cant": "Universal over solids; tests try a few pairs of unit boxes.", "anchors": ["building3d/geom/solid/__init__.py:Solid.is_adjacent_to_solid", "building3d/geom/solid/__init__.py:Solid.has_correct_interface"]}
{"id": "C82", "title": "Distance to a polygon is the true distance", "statement": "distance_point_to_polygon with the normal at the first corner answers for every sound wall (every polygon the code makes of points of a plane is one) and is the least distance to a point of the polygon, whenever the foot of the perpendicular is well inside or well outside. Rests on: a path within the plane that leaves a triangulated polygon crosses its outline. Far from the origin the answer can be 0 for a point 9 mm beside the polygon.", "quantifier": "for all polygons that are tiled by their triangles, convex or not, and all points (exact arithmetic)", "why_tests_cant": "The least distance is a minimum over infinitely many points of a polygon of any shape; tests compare a few numbers for squares.", "anchors": ["building3d/geom/polygon/distance.py:distance_point_to_polygon", "building3d/geom/polygon/ispointinside.py:is_point_inside_ortho"]}
{"id": "C83", "title": "Rays do not pass through walls", "statement": "Between two rows of the position buffer no ray passes through a well interior point of a wall that is not transparent, if a step is not longer than a voxel, the ray approaches the wall at 1/1000 of a length unit per time unit or more, and the spot of the wall under the ray is well inside or outside; targets, distances and normals being those the code computes with the voxel grid. Near the corner of a triangle a ray does pass through an interior point of a wall.", "quantifier": "for all rooms of sound walls, all sets of transparent polygons, all iteration orders of the nearby polygons, all rays and numbers of steps (exact arithmetic)", "why_tests_cant": "A safety property of every step of every ray in every geometry; a leaking ray only loses its energy silently.", "anchors": ["building3d/sim/rays/simulation_loop.py:simulation_loop", "building3d/sim/rays/find_target.py:find_target_surface", "building3d/sim/rays/voxel_grid.py:make_voxel_grid"]}
{"id": "C84", "title": "Interior point and given triangles", "statement": "A polygon that was constructed has at least one triangle, the first one is not degenerate and get_some_interior_point returns a point strictly inside it; the polygon contains this point if it is well off the edges of the triangle, but there is a triangle which does not contain its own interior point. Triangles given to the constructor are kept; an empty list is rejected with AssertionError.", "quantifier": "for all polygons that can be constructed (exact arithmetic)", "why_tests_cant": "All polygon shapes; the failing triangle is a needle that no test has.", "anchors": ["building3d/geom/polygon/__init__.py:Polygon.get_some_interior_point", "building3d/geom/polygon/__init__.py:Polygon"]}
{"id": "C85", "title": "A source on a wall", "statement": "A ray that starts on a wall which is not transparent never moves, whatever its direction, and has no energy after the first step; if nothing absorbs, the first step does not end. (The wall stays the target after every reflection because the projection with parameter 0 counts as ahead.)", "quantifier": "for all rooms, walls, points well inside the wall, directions, energies and numbers of steps (exact arithmetic)", "why_tests_cant": "A test of one source on one wall would see no output or hang; it cannot show that this happens for every wall and direction.", "anchors": ["building3d/sim/rays/simulation_loop.py:simulation_loop", "building3d/sim/rays/find_target.py:find_target_surface", "building3d/geom/polygon/ispointinside.py:is_point_inside_projection"]}
{"id": "C86", "title": "Rays stay in a box", "statement": "The six walls box makes form a room for the simulation. A ray strictly within the box is strictly within it in the next row of the position buffer, unless on the way it comes within 1e-5 of an edge of the box; so a ray that starts within and keeps clear of the edges never leaves. Components of the velocity must be zero or at least 1/1000, which reflections preserve.", "quantifier": "for all boxes with edges from 1 to 100 at any position up to 8000, all sets of rays, all numbers of steps (exact arithmetic)", "why_tests_cant": "An inductive invariant over all steps of all rays; escaped rays are silently dropped.", "anchors": ["building3d/geom/solid/box.py:box", "building3d/sim/rays/simulation_loop.py:simulation_loop", "building3d/sim/rays/find_target.py:find_target_surface"]}
{"id": "C87", "title": "At most three reflections per step in a box", "statement": "In a box whose edges are longer than twice the reflection distance a ray strictly within, no component of whose velocity is below 1/1000, is reflected at most three times in one step: the step ends even if nothing absorbs, and takes at most three times the largest absorption from the ray. In a box shorter than a step with no absorption the step does not end.", "quantifier": "for all boxes with edges from 1 to 100, all positions strictly within, all directions without small components (exact arithmetic)", "why_tests_cant": "Termination of an unbounded while loop for all states.", "anchors": ["building3d/sim/rays/simulation_loop.py:simulation_loop", "building3d/geom/solid/box.py:box"]}
{"id": "C88", "title": "A segment crossing a polygon", "statement": "is_line_segment_crossing_polygon always answers for a sound polygon: True exactly when the segment is not almost parallel to the plane and its point on the plane is found inside the polygon; True for every segment with a point well inside the polygon, False if its points on the plane are well outside, the same in both directions. It is False for every segment within the plane of the polygon, even one within the polygon.", "quantifier": "for all polygons that are tiled by their triangles, convex or not, all segments and all tolerances (exact arithmetic)", "why_tests_cant": "Universal over polygons and segments; a missed crossing raises no error.", "anchors": ["building3d/geom/polygon/crossing.py:is_line_segment_crossing_polygon"]}
{"id": "C89", "title": "A polygon crossing a cube", "statement": "The edges and sides the cube test uses are exactly the twelve edges and six sides of the cube. is_polygon_crossing_cube always answers; True for a polygon with a corner in the cube, one that an edge of the cube passes through and one with a triangle edge that passes through a side of the cube; False if one coordinate keeps the two apart by 1/100.", "quantifier": "for all polygons that are tiled by their triangles and all cubes with sides of at least 1/1000 (exact arithmetic)", "why_tests_cant": "Universal over polygons and cubes; tests try a few triangles and unit cubes.", "anchors": ["building3d/geom/polygon/crossing.py:is_polygon_crossing_cube"]}
{"id": "C90", "title": "The wall a ray aims at", "statement": "The target of a ray is a wall that is not transparent and that the ray does not clearly miss; a wall within a voxel that is met while all others are missed is the target; in a box the target is the side through which the ray leaves, unless it leaves close to an edge. In general the target is not the first wall met but, among those met, the one with the nearest point: a ray can be reflected by a wall behind a screen and never reach the screen.", "quantifier": "for all rooms of sound walls, transparent sets, iteration orders, positions and directions; the box statement for all boxes with edges from 1 to 100 (exact arithmetic)", "why_tests_cant": "All rays in all geometries; a ray reflected by the wrong wall raises no error.", "anchors": ["building3d/sim/rays/find_target.py:find_target_surface", "building3d/sim/rays/simulation_loop.py:simulation_loop"]}
{"id": "C91", "title": "Comparing polygons", "statement": "Two polygons with the same number of corners compare equal exactly when corresponding corners agree within 1e-8 plus 1e-5 of the second one's coordinates; a polygon equals itself. Comparing polygons with different numbers of corners raises ValueError, and equality is neither symmetric nor transitive and depends on the first corner.", "quantifier": "for all lists of at least three points (exact arithmetic)", "why_tests_cant": "Universal over pairs of polygons; there is no test of the comparison.", "anchors": ["building3d/geom/polygon/__init__.py:Polygon.__eq__"]}
{"id": "C92", "title": "Keys of points", "statement": "Rounding to 8 decimals gives the nearest multiple of 1e-8, the even one of two; the key of a point consists of its rounded coordinates; points with the same key agree within 1e-8, and hashes agree whatever the hash function exactly if the keys do. Points that count as equal, however close, can have different keys. A point is valid exactly if no coordinate is NaN.", "quantifier": "for all points and hash functions (exact arithmetic)", "why_tests_cant": "Universal over reals; ties and boundaries are never among the sampled values.", "anchors": ["building3d/geom/points/__init__.py:point_to_tuple", "building3d/geom/points/__init__.py:point_to_hash", "building3d/geom/points/__init__.py:is_valid_pt", "building3d/geom/triangles.py:is_point_inside"]}
{"id": "C93", "title": "Directories made from wildcard paths", "statement": "WildcardPath.mkdir turns the filled path and everything above it into directories and changes nothing else; what was there stays, and a second call changes nothing. If the path is a file it raises FileExistsError, if something above it is a file NotADirectoryError, and wrong keywords raise as in fill.", "quantifier": "for all file systems in which everything lies in directories, all templates, parents and keywords", "why_tests_cant": "Universal over file systems; the test makes one path in an empty directory.", "anchors": ["building3d/paths/wildcardpath.py:WildcardPath.mkdir"]}
{"id": "C94", "title": "Made directories are found again", "statement": "A directory made by mkdir is listed below its parent and read back with exactly its numbers; without a repeated wildcard reading never raises whatever else lies there. Found are exactly the paths that consist of any text, the template with numbers, and slashes. So a template ending with a slash or with a doubled one finds nothing that it made; directories deeper down and names with a prefix are found too and can take the place of the made one under its numbers; with a repeated wildcard one foreign directory makes reading raise.", "quantifier": "for all file systems, templates with separated wildcards, parents and numbers; the description of what is found for all templates without dots and all lists of paths", "why_tests_cant": "Universal over file systems and templates; tests use one tree that contains matching directories only.", "anchors": ["building3d/paths/wildcardpath.py:WildcardPath.mkdir", "building3d/paths/wildcardpath.py:WildcardPath.get_matching_paths_dict_values"]}
{"id": "C95", "title": "Energies in floating point", "statement": "With float64 energies, rounded to nearest after each operation and whatever the motion of the rays is: energies stay between 0 and 1 and never grow, a ray with an energy up to eps stays as it is, and an absorber's hits are the energies of the rays it absorbs up to one relative error of 2^-53 per ray. If all absorptions exceed 2^-54 every step ends; below that, a ray between close walls is reflected for ever although every absorption is positive. Without rounding this is the exact model.", "quantifier": "for all roundings to nearest (ties either way), all motions (targets, distances, moves, NaN included), all numbers of rays, absorbers and steps", "why_tests_cant": "Rounding is invisible in tests with a few rays; absorptions near the last digit and unbounded loops cannot be sampled.", "anchors": ["building3d/sim/rays/simulation_loop.py:simulation_loop"]}
{"id": "C96", "title": "Random numbers in floating point", "statement": "With rounding to nearest random_between lies between its arguments in either order, both ends included: the documented exclusion of the upper end is false, random_between(2, 3) can be 3. random_within(lim) lies within [-lim, lim] and is below lim for every lim of at least 2^-1022, but not for the least limits.", "quantifier": "for all roundings to nearest, all finite arguments and all random numbers from 0 to 1 - 2^-53 (without overflow)", "why_tests_cant": "The upper end has probability 2^-53; no sampling finds it.", "anchors": ["building3d/random/__init__.py:random_between", "building3d/random/__init__.py:random_within"]}
{"id": "C97", "title": "Voxel grid in floating point", "statement": "With every operation rounded to nearest, make_voxel_grid succeeds and find_nearby_polygons finds every polygon with a point within (1 - 1e-8) cell sizes in each coordinate of a position, if on each axis (min - eps) / step differs from whole numbers by 1e-8, coordinates are at most 1e6 cells, and neighbouring cells leave no float between them; the last condition always holds for the default size 0.1. The first one is needed: with the default size a building that begins with a wall at x = 0.1001 raises ValueError. Without rounding this is the exact grid.", "quantifier": "for all roundings to nearest, cell sizes from 2^-900, boxes, polygons with float coordinates and positions; the failure for all further polygons and box ends", "why_tests_cant": "Rounding decides at single floats; tests use buildings that begin at 0.", "anchors": ["building3d/sim/rays/voxel_grid.py:make_voxel_grid", "building3d/sim/rays/find_nearby_polygons.py:find_nearby_polygons", "building3d/sim/rays/simulation_loop.py:simulation_loop"]}
{"id": "C98", "title": "Gaps between voxels", "statement": "The computed end of a cell and the computed beginning of the next leave no float between them from cell -1 on, and below whenever the beginning is exact or rounded upwards or no power of two lies between the two beginnings; for size 0.1 always. With size 0.09 the float -0.45 lies in no cell: a building with a wall at x = -0.45 raises ValueError.", "quantifier": "for all roundings to nearest and cell sizes from 2^-900; for size 0.1 all cells above -2^53; the failure for all boxes and further polygons", "why_tests_cant": "A gap is a single float; tests have no negative coordinates with such a size.", "anchors": ["building3d/sim/rays/voxel_grid.py:make_voxel_grid"]}
{"id": "C99", "title": "Files are written where they should be", "statement": "write_b3d, write_dotbim and write_stl make every missing directory above the file, write it and change nothing else: other files read as before, and reading gives what was written. If a file lies above the path (NotADirectoryError) or the path is a directory (IsADirectoryError) nothing changes; without parent_dirs a missing parent raises FileNotFoundError and nothing is made. A model that cannot be written leaves its directories behind but no file. A file that cannot be read fails in the same way for all formats.", "quantifier": "for all file systems whose entries lie in directories, all relative and absolute paths of names, all contents", "why_tests_cant": "Universal over file systems; the tests write one file into a temporary directory.", "anchors": ["building3d/io/b3d.py:write_b3d", "building3d/io/dotbim.py:write_dotbim", "building3d/io/stl.py:write_stl"]}
{"id": "C100", "title": "Buildings survive the disk", "statement": "A well formed building without empty containers that is saved to B3D or dotbim at any free path is the building loaded from it (B3D: with new identifiers of containers); saved to STL its triangles come back and the building is named after the file without its suffix. That name is accepted for every path.", "quantifier": "for all buildings, paths and file systems as before; STL for all texts of numbers that are read back", "why_tests_cant": "Universal over buildings, paths and what is on the disk.", "anchors": ["building3d/io/b3d.py:write_b3d", "building3d/io/b3d.py:read_b3d", "building3d/io/dotbim.py:write_dotbim", "building3d/io/dotbim.py:read_dotbim", "building3d/io/stl.py:write_stl", "building3d/io/stl.py:read_stl"]}
{"id": "C101", "title": "A whole simulation and what it leaves on disk", "statement": "The constructor accepts a batch size iff it is not 0, not above the number of steps and divides it; otherwise it raises AssertionError or, for 0, ZeroDivisionError (negative sizes pass). Starting velocities have the configured speed and point from the centre of the unit cube to the random point; only the centre gives none. If every surface absorbs at least a > 0 the run ends. A run that ends has written three files for each step and the start, once each; reading them in any order of the listing gives one row per step: at first all rays at the source with energy 1 and no hits, and between rows each ray stays or moves speed times time step, energies stay nonnegative and never grow, rays without energy do not change, absorbers get only what rays lose. The returned buffers are the last rows.", "quantifier": "for all scenes with unit normals of targets, numbers of rays, steps and batches, random numbers, file name patterns, directory listings", "why_tests_cant": "Universal over scenes, steps and batch sizes; the tests run one simulation and never read the files of several batches back.", "anchors": ["building3d/sim/rays/simulation.py:Simulation.__init__", "building3d/sim/rays/simulation.py:Simulation.run", "building3d/sim/rays/dump_buffers.py:dump_buffers", "building3d/sim/rays/dump_buffers.py:read_buffers"]}
{"id": "C102", "title": "What the record of a simulation says", "statement": "In every record of a whole simulation, over all batches: energies lie in [0, 1] and never grow; a ray without energy keeps its place; after i steps no ray is farther from the source than i times speed times time step; the energy collected by all absorbers in all steps plus what the rays still have is at most one unit per ray. In a box, positions read back from disk lie strictly within the box as long as the ray keeps clear of its edges.", "quantifier": "for all records; for all boxes with edges from 1 to 100, sources within, directions without tiny components", "why_tests_cant": "Universal over all runs, across batch boundaries where velocities are recomputed from positions.", "anchors": ["building3d/sim/rays/simulation.py:Simulation.run", "building3d/sim/rays/simulation_loop.py:simulation_loop", "building3d/sim/rays/dump_buffers.py:read_buffers"]}
{"id": "C103", "title": "Purging a mesh removes exactly the unused vertices", "statement": "purge_mesh returns, in their order, exactly the vertices that some element uses; every element still stands for the same points; every remaining vertex is used; a second call changes nothing, and neither does a call if every vertex is used. It raises (ValueError) if and only if elements differ in length. The total volume, which is the sum of the volumes of the elements, does not change.", "quantifier": "for all lists of vertices and elements", "why_tests_cant": "Universal over all meshes; renumbering while deleting in a loop is where an off-by-one hides.", "anchors": ["building3d/_to_be_ported/mesh/quality/purge_mesh.py:purge_mesh", "building3d/_to_be_ported/mesh/quality/total_volume.py:total_volume"]}
{"id": "C104", "title": "Merging the same points of a mesh", "statement": "collapse_points never raises; it keeps, in their order, exactly the vertices that are not the same as an earlier one; the remaining vertices are pairwise different; every number in every element afterwards stands for the same point as before; without repeated points nothing changes.", "quantifier": "for all equivalence relations of points, lists of vertices and elements", "why_tests_cant": "Universal over all numbers of repetitions and orders of the points.", "anchors": ["building3d/_to_be_ported/mesh/quality/collapse_points.py:collapse_points"]}
{"id": "C105", "title": "Neighbours of tetrahedra", "statement": "find_neighbors lists for each element, by increasing number and symmetrically, exactly the other elements that have three different points in common with it; if an element lacks a corner it raises IndexError. The compiled version returns the first four of each row if points are either the same or farther apart than the tolerance and corners of an element differ; without elements it raises TypeError; with six elements on one face its answer is not symmetric (refuted).", "quantifier": "for all lists of vertices and elements", "why_tests_cant": "Universal over meshes of any size; the test compares the two functions on one mesh.", "anchors": ["building3d/_to_be_ported/mesh/quality/tetra_graph.py:find_neighbors", "building3d/_to_be_ported/mesh/quality/tetra_graph.py:find_neighbors_numba", "building3d/_to_be_ported/mesh/quality/tetra_graph.py:find_neighbors_numba_wrap"]}
{"id": "C106", "title": "What a finished volume mesh satisfies", "statement": "get_invalid_points returns exactly the unrestricted vertices where volumes differ by a factor of more than 100 or one is below the least volume, which is delta^3/300 up to 2e-9; an unused unrestricted vertex raises AssertionError. The search for elements of zero volume never finds any. If delaunay_tetrahedralization returns, its elements are those of the last triangulation whose centroid is inside, every vertex is an initial one and used, no vertex off the boundary is bad, the corners of the solid are present, every element has a neighbour and every interior one four.", "quantifier": "for all answers of the Delaunay triangulation and of the inside test, point sets, deltas and numbers of tries", "why_tests_cant": "Universal over what an external library answers in up to 500 passes.", "anchors": ["building3d/_to_be_ported/mesh/tetrahedralization.py:delaunay_tetrahedralization", "building3d/_to_be_ported/mesh/tetrahedralization.py:get_invalid_points", "building3d/_to_be_ported/mesh/quality/min_tetra_volume.py:minimum_tetra_volume"]}
{"id": "C107", "title": "Surface meshes of many polygons", "statement": "After PolyMesh.generate succeeds every vertex and every face has exactly one owner; each polygon owns, in order, copies of what the triangulation returned for it, get_vertices_per_polygon gives those vertices back, and there is one area per face, that of its corners. The triangulation gets the given points and those of the polygon it faces last, if that came earlier; a polygon facing one earlier polygon only has all its vertices; facing also a later one it does not (refuted). What was there before does not matter. An exception leaves the polygons meshed so far and the areas of the mesh before. The lists in fixed_points grow (refuted: they stay). Adding a polygon with a known uid raises MeshError.", "quantifier": "for all polygons, facing relations, answers of the triangulation and given points", "why_tests_cant": "Universal over numbers of polygons and answers of an external library; the tests mesh one cube.", "anchors": ["building3d/_to_be_ported/mesh/polymesh.py:PolyMesh.generate", "building3d/_to_be_ported/mesh/polymesh.py:PolyMesh._add_vertices", "building3d/_to_be_ported/mesh/polymesh.py:PolyMesh.get_vertices_per_polygon", "building3d/_to_be_ported/mesh/polymesh.py:PolyMesh.reinit", "building3d/_to_be_ported/mesh/polymesh.py:PolyMesh.add_polygon"]}
{"id": "C108", "title": "Volume meshes of many solids", "statement": "SolidMesh.generate takes for each solid the first of at most ten attempts whose volume is that of the solid within 1e-6 of it plus 1e-8, and raises MeshError if none is, leaving the solids meshed so far. On success each solid whose name no later one has owns copies of its part, every element has its volume, and these add up to the volumes of the solids within the sum of the tolerances. A second generate adds everything again (refuted: it does not), and with equal names elements lose their owner (refuted). copy(max_vol) keeps exactly the elements below, with their points and volumes and no unused vertices; copy(elements) keeps the points but no volumes (refuted: one per element).", "quantifier": "for all solids of nonnegative volume, answers of the tetrahedralization and meshes", "why_tests_cant": "Universal over numbers of solids and attempts.", "anchors": ["building3d/_to_be_ported/mesh/solidmesh.py:SolidMesh.generate", "building3d/_to_be_ported/mesh/solidmesh.py:SolidMesh.copy", "building3d/_to_be_ported/mesh/solidmesh.py:SolidMesh._add_vertices"]}
{"id": "C109", "title": "Meshes of whole buildings", "statement": "Mesh.add_building succeeds if and only if all solids and all their polygons have different uids, and then holds exactly these, in order; otherwise it raises MeshError and leaves what came before, including a solid only some of whose polygons were added. Mesh.generate with the flag then hands each tetrahedralization the vertices of every polygon, and the volumes of all elements add up to those of the building; without it the volume mesh stays.", "quantifier": "for all buildings, facing relations and answers of the two triangulations", "why_tests_cant": "Universal over buildings; a shared polygon is needed for the failure.", "anchors": ["building3d/_to_be_ported/mesh/mesh.py:Mesh.add_building", "building3d/_to_be_ported/mesh/mesh.py:Mesh.add_solid", "building3d/_to_be_ported/mesh/mesh.py:Mesh.generate"]}
{"id": "C110", "title": "Imprinting polygons", "statement": "imprint_polygon uses the points of the inner polygon that the outer one lacks, in the first cyclic order for which cutting does not raise GeometryError; if all raise, it cuts twice along the two closest pairs of points. It returns two or three polygons; if cutting keeps the area, these make up the outer polygon, the first one holds an interior point of the outline, and hole_polygon returns the others. With no such points it returns nothing: the polygon vanishes. With one or two it always fails.", "quantifier": "for all polygons, answers of the cutting function and of the search for closest points", "why_tests_cant": "Universal over polygons and over which cuts fail.", "anchors": ["building3d/_to_be_ported/operations/imprint_polygon.py:imprint_polygon", "building3d/_to_be_ported/operations/hole_polygon.py:hole_polygon"]}
{"id": "C111", "title": "Partitions along a line", "statement": "partition_plan builds for every two neighbouring points of the plan, turned and moved, the wall with these corners and the given height; its normal is horizontal and to the right of the way, its area the length times the height. There is one wall less than points, walls and polygons have the given names in order, and the last name is not used. Names of a different number or repeated ones raise ValueError; walls of reasonable size are built.", "quantifier": "for all plans, heights, moves, angles and names", "why_tests_cant": "Universal over plans of any number of points and over real angles.", "anchors": ["building3d/_to_be_ported/predefined/walls/partition_plan.py:partition_plan"]}
{"id": "C112", "title": "Single walls and apertures", "statement": "vertical_wall builds the rectangle with the given width and height, turned and then moved, with the right area and a normal that is (0, 1, 0) turned, for positive sizes. The aperture is the rectangle at its offset, built in the same way and named after the wall's polygon; it lies in the wall if and only if offset and size fit, which is not checked. The default aperture of size 0 always fails (refuted: it builds a wall), and an axis whose length is not 1 raises AssertionError.", "quantifier": "for all sizes, offsets, moves, unit axes and angles", "why_tests_cant": "Universal over real sizes, axes and angles.", "anchors": ["building3d/_to_be_ported/predefined/walls/walls.py:vertical_wall", "building3d/_to_be_ported/predefined/walls/walls.py:vertical_wall_with_aperture"]}
{"id": "C113", "title": "Mesh statistics", "statement": "mesh_stats of a list whose first element has three corners reports the largest, average and smallest area of all faces and length of all their edges, and the areas in ten bins of equal width between the extremes, whose numbers add up to the number of faces; if the first has four corners, the same for volumes; otherwise that the kind is unknown. The average is between the extremes. It succeeds if all corners exist, also if later elements are of the other kind (their first corners are used); it raises nothing but IndexError, which an empty mesh always raises. The least area allowed is half a square of half the step.", "quantifier": "for all vertices, elements and steps", "why_tests_cant": "Universal over meshes of any size; bins need real arithmetic.", "anchors": ["building3d/_to_be_ported/mesh/quality/mesh_stats.py:mesh_stats", "building3d/_to_be_ported/mesh/quality/min_triangle_area.py:minimum_triangle_area"]}
{"id": "C114", "title": "What the old triangulation computes", "statement": "A successful delaunay_triangulation(poly, delta, fixed) has rotated the polygon to the xy plane and given it one height, and has repeated rounds until one was good: edge points, then grid points jiggled by the random numbers, inside by half a step and half a step from the fixed points, then a first triangulation, whose points with small triangles are dropped except fixed, edge and corner points, then a second one. Its vertices, turned back, are corners, fixed points, edge points or such grid points; every fixed point is among them up to the tolerance of equality, and every vertex is used by the last triangulation. Its faces are, in order, exactly the triangles whose centroid is in the polygon, reversed if they face the other way.", "quantifier": "for all polygons, steps, fixed points, numbers of rounds, random numbers and answers of scipy and of the point search", "why_tests_cant": "Universal over answers of an external triangulation and random numbers.", "anchors": ["building3d/_to_be_ported/mesh/triangulation.py:delaunay_triangulation"]}
{"id": "C115", "title": "Faces of the old triangulation point the way of the polygon", "statement": "If the fixed points lie in the plane of the first corner and edge points keep the height of what they are put between, then all vertices of a successful delaunay_triangulation lie in that plane and all faces that have a normal have the same one: the plane's up to sign, and within 1e-13 of the polygon's normal in each coordinate.", "quantifier": "for all polygons, steps, fixed points, numbers of rounds, random numbers and answers of scipy", "why_tests_cant": "Universal over real coordinates and answers of an external triangulation.", "anchors": ["building3d/_to_be_ported/mesh/triangulation.py:delaunay_triangulation"]}
{"id": "C116", "title": "When the old triangulation ends and how it fails", "statement": "Once delaunay_triangulation succeeds within some number of rounds, allowing more changes nothing. One round is enough if the first triangulation uses every point or one equal to it. A round raises nothing if edge points are found, both triangulations succeed and the second uses all points. After the loop it raises IndexError if no face is left, MeshError if the first face has no normal or one that differs from the polygon's, and succeeds otherwise.", "quantifier": "for all polygons, steps, fixed points, numbers of rounds, random numbers and answers of scipy", "why_tests_cant": "Termination and error behaviour over all answers of an external triangulation.", "anchors": ["building3d/_to_be_ported/mesh/triangulation.py:delaunay_triangulation"]}
{"id": "C117", "title": "Polygons read back from files", "statement": "Building a polygon again from its own points and triangles, as the file readers do, gives the same normal, centroid, area and plane if the first stored corner is convex (in particular for every planar polygon that was made from points with a convex first corner). If that corner is reflex the normal comes out opposite, and if it is straight the normal and the area are NaN; both happen for polygons the code makes itself. Whatever points and triangles a file holds are kept as they are; fewer than three points or points off one plane are refused.", "quantifier": "For every polygon the constructor returns, with given or computed normal, whose points lie in the plane of its unit normal.", "why_tests_cant": "Round-trip tests use boxes and convex plans, for which the first corner is always convex.", "anchors": ["building3d/io/b3d.py:read_b3d", "building3d/io/dotbim.py:read_dotbim", "building3d/io/arrayformat.py:from_array_format", "building3d/geom/polygon/__init__.py:Polygon.__init__"]}
{"id": "C118", "title": "Volume of solids read back from files", "statement": "The volume of a solid that is read back equals the volume before if all its polygons start with a convex corner. A polygon whose normal came out opposite adds the opposite summands (the same ones if its plane goes through the origin), and one without a normal always subtracts. A cube of volume 8 with an extra point at the start of its top polygon has volume 8/3 when read back.", "quantifier": "For all lists of polygons; exact reals.", "why_tests_cant": "Tests compare volumes after a round trip for simple boxes only.", "anchors": ["building3d/geom/solid/__init__.py:Solid.volume", "building3d/io/b3d.py:read_b3d", "building3d/io/dotbim.py:read_dotbim"]}
{"id": "C119", "title": "Which solids of a building are stitched", "statement": "Building.stitch_solids with an empty graph cache stitches, one after the other, pairs of different solids that have facing or crossing polygons: one pair for each unordered pair of solid names, hence every adjacent pair exactly once if the solids have different names. With a graph in the cache it takes the solids that were adjacent when that graph was computed, under the flags of that call, whatever operations came in between; after a plain get_graph() two solids that only cross are not stitched.", "quantifier": "For all programs of object operations that add each object once, all geometric relations, all pairwise stitching procedures and all set orders.", "why_tests_cant": "The outcome depends on earlier calls and edits, on names and on the iteration order of sets.", "anchors": ["building3d/geom/building/__init__.py:Building.stitch_solids", "building3d/geom/building/__init__.py:Building.get_graph"]}
{"id": "C120", "title": "What stitching a building leaves as it is", "statement": "The only exceptions of Building.stitch_solids are those of the pairwise stitching (all lookups of zones and solids by path succeed, also with an old graph). Zones, solids and walls stay where they are in the building, also after an exception.", "quantifier": "For all buildings, all graphs computed earlier, and all pairwise stitching procedures that make polygons and replace polygons of walls.", "why_tests_cant": "Lookups by path in a building that changes during the loop; exceptions half-way.", "anchors": ["building3d/geom/building/__init__.py:Building.stitch_solids", "building3d/geom/wall/__init__.py:Wall.replace_polygon"]}
{"id": "C121", "title": "A polygon contains what its outline winds around", "statement": "For every polygon the code makes of points in a plane, is_point_inside accepts a point of the plane that is well off the triangle edges exactly when the outline given by the user winds around it: which triangulation was found, where the list starts and which way it runs do not matter. The winding number lies between the number of triangles with the point strictly inside and the number of triangles containing it; it is never negative, and where it is at most one no two triangles overlap. A strictly convex outline winds once around the points left of all its edges, not at all around those right of some edge and nowhere twice. That every accepted outline winds at most once is false: a strip that crosses its own beginning is accepted and two of its triangles overlap.", "quantifier": "For all point lists from which a polygon is made, all planes, all directions of counting and all points well off the triangle edges; for all meshes covering an outline.", "why_tests_cant": "Relates a local answer (triangle by triangle) to a global invariant of an arbitrary outline; examples cover only a few outlines.", "anchors": ["building3d/geom/polygon/ispointinside.py:is_point_inside", "building3d/geom/triangles.py:triangulate", "building3d/geom/polygon/__init__.py:Polygon.__init__"]}
{"id": "C122", "title": "Slicing divides the polygon", "statement": "If the areas of the two polygons returned by slice_polygon add up to that of the sliced one, then around every point the sliced outline winds as often as the two parts together, the triangles of each part cover it, and a point well off all triangle edges is inside the sliced polygon exactly when it is inside one of the parts, and inside both only if the outline winds around it twice. If the areas do not add up, the sliced outline winds as often as the difference of the two parts, in the same order for all points.", "quantifier": "For all polygons with different vertices, all slicing chains ending exactly on the outline at different places, and all points.", "why_tests_cant": "A statement on all points of the plane for all outlines and chains; area checks cannot see parts that overlap elsewhere.", "anchors": ["building3d/geom/polygon/slice/__init__.py:slice_polygon", "building3d/geom/polygon/slice/get_point_arrays.py:get_point_arrays", "building3d/geom/polygon/ispointinside.py:is_point_inside"]}
{"id": "C123", "title": "Outlines that do not meet themselves", "statement": "An outline in a plane that does not meet itself winds, around all points of the plane off the outline, either 0 or 1 times, or either 0 or -1 times, whatever direction of counting; the number is the same for points joined by a segment off the outline. The triangles the code finds for such an outline do not reach across it, no two of them overlap, and together they fill exactly the points on the outline or wound around by it. Polygons made of the same outline from another starting point or in the other direction therefore contain the same points, although triangles, order and normal may differ; and is_point_inside accepts a point well off the triangle edges exactly when the outline winds around it once. Outlines that do meet themselves are not rejected.", "quantifier": "For all point lists in a plane whose different edges share only the corner where one ends and the other starts, all points of the plane, all triangulations the code finds and all meshes covering such an outline.", "why_tests_cant": "The polygonal Jordan theorem and its consequence for arbitrary triangulations: no finite set of outlines or points shows it.", "anchors": ["building3d/geom/triangles.py:triangulate", "building3d/geom/polygon/ispointinside.py:is_point_inside", "building3d/geom/polygon/__init__.py:Polygon.__init__"]}
{"id": "C124", "title": "Slices of a polygon fill it and do not overlap", "statement": "If the areas of the two polygons returned by slice_polygon add up to that of the sliced one, a point is in a triangle of the sliced polygon exactly when it is in a triangle of one of the parts; this holds for all points, also on edges, and for all outlines. If the outline of the sliced polygon does not meet itself, no two triangles of the parts overlap, neither two of the same part nor one of each, and is_point_inside accepts no point well off the edges for both parts.", "quantifier": "For all polygons with different vertices, all slicing chains ending exactly on the outline at different places, and all points.", "why_tests_cant": "A statement on all points for all outlines and all chains.", "anchors": ["building3d/geom/polygon/slice/__init__.py:slice_polygon", "building3d/geom/polygon/slice/get_point_arrays.py:get_point_arrays", "building3d/geom/triangles.py:triangulate"]}
{"id": "C125", "title": "Counting passages through a closed surface does not depend on the ray", "statement": "For triangles without degenerate ones whose directed edges cancel, two rays from the same point that touch no edge agree on the balance of passages (through the front minus through the back) and on whether their number is odd. Along any path of straight pieces the balance changes by exactly the triangles the path goes through; from a point with all triangles on one side of a plane it is 0; hence paths from outside to the same point agree. From every point off the triangles there is such a ray.", "quantifier": "for all lists of triangles, points, directions and paths", "why_tests_cant": "The ray test of the code uses one fixed direction; a test can compare a few directions and points but the claim is about all of them.", "anchors": ["building3d/geom/solid/__init__.py:Solid.is_point_inside", "building3d/geom/solid/__init__.py:Solid.is_point_at_boundary"]}
{"id": "C126", "title": "A point is found in a closed solid exactly if a path to it from outside crosses the surface an odd number of times", "statement": "For a solid whose faces have outlines that do not meet themselves, are covered by their triangles and match edge to edge, and a point whose line of sight meets every face well inside a triangle or not at all, is_point_inside returns True exactly if a path from outside goes through an odd number of triangles. It is enough that the outlines match once some of them are turned round. The match is needed: a tetrahedron without one side is said to contain points that can be reached from outside freely.", "quantifier": "for all closed solids (convex or not), points and paths from outside", "why_tests_cant": "What is inside is defined by all paths and the answer is computed from one ray; tests sample some points of a few solids.", "anchors": ["building3d/geom/solid/__init__.py:Solid.is_point_inside", "building3d/geom/solid/__init__.py:Solid.is_point_at_boundary"]}
{"id": "C127", "title": "A point is found in a convex solid exactly if it is behind all faces", "statement": "For a closed solid of which all corners are on or behind the planes of all faces, no two of which coincide, and a point whose line of sight meets every face well inside a triangle or not at all, is_point_inside returns True if the point is behind all faces and False if it is in front of one. For every box made by the code this gives True for such points strictly between the faces, and False for every point beyond a face.", "quantifier": "for all convex solids and points, for all boxes that fit the tolerances", "why_tests_cant": "There are infinitely many convex solids and points; tests check a few points of the unit cube.", "anchors": ["building3d/geom/solid/__init__.py:Solid.is_point_inside", "building3d/geom/solid/__init__.py:Solid.is_point_at_boundary"]}
{"id": "C128", "title": "A point is found in a solid over a floor plan exactly if it stands on the plan", "statement": "For a solid made by floor_plan from a plan with a simple outline and a positive height, wherever it is moved and turned, and a point between floor and ceiling whose line of sight meets every face well inside a triangle or not at all, is_point_inside returns True exactly if the outline of the plan winds round the point below it on the floor, equivalently if that point is in a triangle of the floor polygon. This also holds for the plans whose faces floor_plan turns inconsistently. Points below the floor or above the ceiling are found outside.", "quantifier": "for all plans with a simple outline (convex or not), heights, moves, turns and points", "why_tests_cant": "Tests contain one plan and a handful of points; the claim is about all shapes of plans and depends on how they are triangulated.", "anchors": ["building3d/geom/solid/floor_plan.py:floor_plan", "building3d/geom/solid/__init__.py:Solid.is_point_inside"]}
{"id": "C129", "title": "Points in boxes and halls are located in the right room", "statement": "In a building whose solids are boxes made by box and halls made by floor_plan from plans with a simple outline, a point off all faces whose line of sight meets the faces of every room well inside a triangle or not at all (needed only for boxes it is in and for halls it is level with) is located by find_location in a solid it is in, and a RuntimeError is raised exactly if it is in none. If it is in one solid only, the path of that solid is returned whatever solids are given to look at first.", "quantifier": "for all buildings of boxes and halls, with any number of zones and solids, all points with a clear view and all lists of solids to look at first", "why_tests_cant": "Tests locate a few points in a building of two boxes; the claim joins the search over the tree of objects with the inside test of every room and is about all buildings, points and hints.", "anchors": ["building3d/geom/building/find_location.py:find_location", "building3d/geom/solid/__init__.py:Solid.is_point_inside"]}
{"id": "C130", "title": "Rays stay in the room they start in", "statement": "If the faces of a closed solid (such as those made by box, and by floor_plan from a plan with a simple outline) are among the polygons of the simulation and not transparent, the ray speed is positive and a step is no longer than the voxel size, then a ray that meets these faces, if at all, only well on a triangle or on a rim, not almost within the plane, and from over a clear spot, meets no face at all between two rows of the position buffer. So is_point_inside gives the same answer for all its positions that are off the faces and have a good view; a ray in a box stays between its sides, a ray in a hall over a floor plan stays between floor and ceiling with the outline of the plan around it; and find_location locates it in the same room in all later rows, as long as no two rooms overlap.", "quantifier": "for all runs of the simulation, numbers of rays and steps, closed solids and simple floor plans (convex or not), and all rows of the buffer", "why_tests_cant": "Tests count rays in one box after some steps; the claim is an invariant of all runs and joins ray marching over voxels, reflection, triangulation, winding numbers and the inside test.", "anchors": ["building3d/sim/rays/simulation_loop.py:simulation_loop", "building3d/geom/solid/floor_plan.py:floor_plan", "building3d/geom/solid/__init__.py:Solid.is_point_inside", "building3d/geom/building/find_location.py:find_location"]}
{"id": "C131", "title": "Rays pass between joined rooms only through doors", "statement": "If closed solids are joined by doors, pairs of faces in the same place that the simulation may treat as transparent, and all their other faces are among the polygons of the simulation and not transparent, then a ray that meets these walls well (as in C130) and goes through doors or keeps off them changes its answer to is_point_inside of a solid exactly if it has gone through the doors of this solid an odd number of times. The number of solids it is found in stays odd or stays even, so a ray found in exactly one room is later found in exactly one room wherever rooms do not overlap. Faces with the same or the reversed outline are in the same place however they are triangulated.", "quantifier": "for all runs of the simulation, numbers of rays, steps, rooms and doors, closed solids, and all rows of the buffer from which the solids are seen well", "why_tests_cant": "Tests look at some rays in one building; the claim is an invariant of all runs over any number of rooms and relies on a parity argument over all faces.", "anchors": ["building3d/sim/rays/simulation_loop.py:simulation_loop", "building3d/sim/rays/find_target.py:find_target_surface", "building3d/geom/solid/__init__.py:Solid.is_point_inside"]}
{"id": "C132", "title": "The transparent polygons of a simulation are those between solids of a zone", "statement": "Simulation.__init__ numbers the polygons of a building in the order of their paths and leaves other polygons alone. If the search for transparent polygons is on and the building was not seen before, the numbers it makes are the dummy -1 and the numbers of exactly those polygons whose outline, seen from the other side, is that of another polygon of the same zone. A polygon with two such partners raises AssertionError. What is remembered under id(building) is used for every building that has this id later: its polygons with the remembered paths are transparent whatever they look like, and the simulation fails if a remembered path is gone. With the search off there is only the dummy. The simulation loop removes the dummy if there are other numbers, and the set it uses is never empty.", "quantifier": "for all buildings made by any sequence of operations that adds each object once, geometries in which two polygons are either opposite or clearly not, earlier numbers, and caches", "why_tests_cant": "Tests simulate a few buildings with one or two transparent walls; which polygons are found among all pairs, and how numbers follow paths, is a statement about all buildings.", "anchors": ["building3d/sim/rays/simulation.py:Simulation.__init__", "building3d/sim/rays/simulation.py:Simulation.get_transparent_polygon_numbers", "building3d/sim/rays/find_transparent.py:find_transparent", "building3d/io/arrayformat.py:to_array_format", "building3d/sim/rays/simulation_loop.py:simulation_loop"]}
{"id": "C133", "title": "Rays of the simulation of a building stay in its rooms", "statement": "Let the faces of the simulation be those of the polygons of a building by their numbers, and the transparent ones those of C132. If the polygons form closed solids, a ray that meets the other polygons well and goes through the transparent ones or keeps off them is found in an odd number of solids for ever or in an even number for ever; so a ray found in exactly one room is later found in exactly one room wherever rooms do not overlap.", "quantifier": "for all buildings, runs of the simulation, numbers of rays and steps", "why_tests_cant": "It composes the tree, the polygon graph, the numbering, the voxel search and the simulation loop; tests check these one at a time on fixed buildings.", "anchors": ["building3d/sim/rays/simulation.py:Simulation.__init__", "building3d/sim/rays/simulation_loop.py:simulation_loop", "building3d/geom/solid/__init__.py:Solid.is_point_inside"]}
{"id": "C134", "title": "The simulation loop gets the polygons of the building by their numbers", "statement": "Simulation.__init__ turns a building into arrays, and the simulation loop takes the polygons out of them again. If the triangles of each polygon use its own points and all of them, the loop gets exactly the polygons of the building, each at the number that to_array_format gave it, and the box it makes is the smallest one around them. A building without points raises ValueError. A triangle that points past the points of its polygon silently gets a point of the next polygon. The absorption numbers, kept per triangle and read by polygon number, have an entry for every polygon if every polygon has a triangle; a polygon without triangles can leave another one without an entry. In the simulation of a building whose polygons have points, all of them used by triangles, no ray reads an entry past the end. With this, rays found in one room are later found in one room from the objects of the building on: the polygons, their numbers, the transparent ones and the box are those that the code makes.", "quantifier": "for all buildings made by any sequence of operations that adds each object once, polygons and earlier numbers, and for all runs of the simulation", "why_tests_cant": "Tests convert a few buildings to arrays and simulate others; that the two numberings agree for every building, and what follows for rays, is a statement about all buildings.", "anchors": ["building3d/io/arrayformat.py:to_array_format", "building3d/io/arrayformat.py:get_polygon_points_and_faces", "building3d/sim/rays/simulation.py:Simulation.__init__", "building3d/sim/rays/simulation_loop.py:simulation_loop"]}
{"id": "C135", "title": "Plotting draws every object once, by each method it has, in its colour", "statement": "plot_objects draws each object by each of the methods get_mesh, get_lines and get_points that it has, in the order of the objects. The flat list of numbers given to the plotter tells exactly the triangles or lines of the object, and can be read in no other way. Two or more objects get the given colours by position, or a random colour each. No objects, or another number of colours than objects, raise ValueError, and an object with none of the methods AssertionError; nothing else is raised, so the branch with RuntimeError is never taken. With an output file the directories above it are made and the file holds the picture; a plot that raises leaves the disk as it was. The colour given for a single object is not used: it is drawn white.", "quantifier": "for all lists of objects, meshes, lines, points and colours, all contents of the disk and all paths", "why_tests_cant": "Tests of plotting at most check that a file appears; the numbers handed to the plotter and the choice of colours are never compared with the objects.", "anchors": ["building3d/display/plot_objects.py:plot_objects", "building3d/display/colors.py:random_rgb_color"]}
{"id": "C136", "title": "The plot of the rays shows the building and the way of every ray", "statement": "RayBuffPlotter.plot draws the triangles of the building in white and, in red, one line for each ray through its positions in the order of the steps, and a point for each ray at its last position. Without rays or steps it raises ValueError and shows nothing, not even the building.", "quantifier": "for all meshes, buffers with any number of steps and rays, and all colours", "why_tests_cant": "A test can only check that a picture appears; which vertex belongs to which ray in the flat lists is not looked at, and mixing up rays and steps still gives a picture.", "anchors": ["building3d/sim/rays/ray_buff_plotter.py:RayBuffPlotter.plot", "building3d/sim/rays/ray_buff_plotter.py:RayBuffPlotter.get_points", "building3d/sim/rays/ray_buff_plotter.py:RayBuffPlotter.get_lines", "building3d/display/plot_objects.py:plot_objects"]}
{"id": "C137", "title": "Starting the log makes or empties one file and changes nothing else", "statement": "init_logger with a file name makes the directories above it, makes or empties that file and changes nothing else on the disk. If a file is in the place of a directory above it, or a directory has its name, it raises and nothing changes. Without a name it uses b3d.log in the current directory and makes no directories; the content left there by an earlier run is lost.", "quantifier": "for all contents of the disk and all paths", "why_tests_cant": "Tests do not call init_logger; that no other file or directory is touched is a statement about every disk and every path.", "anchors": ["building3d/logger/__init__.py:init_logger", "building3d/config.py:LOG_FILE"]}
