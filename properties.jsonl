{"id": "C01", "title": "Day-of-year conversion round-trips", "statement": "Converting any valid calendar date to its (fractional) day of the year and back gives the same date, and converting any day number in [0,365) to a date and back gives the same number; every produced date is a valid calendar date.", "quantifier": "all valid dates (month, day, hour in [0,24)) and all day numbers in [0,365)", "why_tests_cant": "the domain is a continuum of hours over 365 days and twelve month-boundary branches; tests sample a few dates", "anchors": ["calendar/src/date.rs: Date::day_of_year, Date::from_day_of_year"]}
{"id": "C02", "title": "Date ordering agrees with elapsed time in the year", "statement": "Comparing two valid dates with the ordering operators (or is_earlier / same_day) gives the same answer as comparing their day-of-year numbers; the order is total and transitive.", "quantifier": "all pairs and triples of valid dates", "why_tests_cant": "pairs of dates over a continuum; tests only compare a few", "anchors": ["calendar/src/date.rs: Ord for Date, PartialOrd for Date, Date::is_earlier, Date::same_day"]}
{"id": "C03", "title": "Adding days advances the calendar by exactly that many days modulo a year", "statement": "Adding n days to a valid date yields a valid date whose day-of-year number is the original plus n, modulo 365, for every non-negative n.", "quantifier": "all valid dates and all n", "why_tests_cant": "n is unbounded and the implementation narrows intermediate values to 8 bits; a test with small n cannot see the wrap-around", "anchors": ["calendar/src/date.rs: Date::add_days"]}
{"id": "C04", "title": "Adding hours, minutes or seconds advances the clock by exactly that amount", "statement": "Adding a non-negative duration to a valid date produces a valid date whose position in the year is the original position plus the duration, modulo one year; durations compose additively.", "quantifier": "all valid dates and all non-negative real durations", "why_tests_cant": "continuum of durations, carries across day, month and year ends", "anchors": ["calendar/src/date.rs: Date::add_hours, Date::add_minutes, Date::add_seconds"]}
{"id": "C05", "title": "A simulation period is stepped through without gaps, repeats or overruns", "statement": "Iterating a period yields a finite sequence of dates, each exactly one time step after the previous one (the first one is one step after the start), none later than the end, and the next one would be past the end. This makes the number of simulated steps equal to floor(duration/dt).", "quantifier": "all periods with start before end and all positive time steps", "why_tests_cant": "needs induction over an iteration of arbitrary length", "anchors": ["calendar/src/period.rs: Period::new, Iterator for Period", "src/run_simulation.rs: run"]}
{"id": "C06", "title": "Polynomials evaluate to the sum of their terms and never exceed their capacity silently", "statement": "A polynomial built from any list of at most 12 coefficients evaluates, at every point, to the sum of c_i * x^i; a 13th coefficient aborts instead of being dropped or overwriting another.", "quantifier": "all coefficient lists and all points of any commutative ring", "why_tests_cant": "all coefficient lists and points", "anchors": ["polynomial/src/lib.rs: Polynomial::push, Polynomial::eval, poly!"]}
{"id": "C07", "title": "Matrix elements are independent cells", "statement": "Writing one element of a matrix changes that element only; reading back gives the written value; reading or writing outside the size returns an error and changes nothing; add_to_element and scale_element behave as read-modify-write of one cell.", "quantifier": "all sizes, all index pairs, all element values", "why_tests_cant": "all sizes and index pairs, including the row-major aliasing of out-of-range columns", "anchors": ["matrix/src/generic_matrix.rs: GenericMatrix::get, set, add_to_element, scale_element, index", "rendering/src/image.rs: Index<(usize,usize)> for ImageBuffer"]}
{"id": "C08", "title": "Dense matrix arithmetic is linear algebra", "statement": "Sum, difference, scaling and product of matrices of compatible sizes are element-wise sum/difference/scaling and the row-by-column product; incompatible sizes give an error and not a wrong matrix; the identity matrix is neutral for the product.", "quantifier": "all sizes and contents over any ring", "why_tests_cant": "unbounded sizes; the product has a first-column special case that tests with small squares do not separate", "anchors": ["matrix/src/generic_matrix.rs: prod_into, add_into, sub_into, scale_into, eye, diag"]}
{"id": "C09", "title": "Banded product equals the ordinary product", "statement": "For a matrix whose non-zeros lie within an n-wide diagonal band, multiplying with the band-aware product gives the same result as the ordinary product for any right-hand matrix.", "quantifier": "all sizes, all odd band widths, all banded matrices and right-hand sides", "why_tests_cant": "index arithmetic at the first and last rows for every band width and size", "anchors": ["matrix/src/generic_matrix.rs: prod_n_diag_into, prod_tri_diag_into, from_prod_n_diag"]}
{"id": "C10", "title": "Banded Gaussian elimination solves the system", "statement": "When banded elimination returns a result x for an n-diagonal square system, A*x = b exactly (exact arithmetic, non-zero pivots); the size checks reject incompatible inputs.", "quantifier": "all sizes, all odd band widths, all systems over any field with non-zero pivots", "why_tests_cant": "unbounded sizes; needs an invariant of elimination and back substitution", "anchors": ["matrix/src/matrix.rs: n_diag_gaussian, mut_n_diag_gaussian"]}
{"id": "C11", "title": "The iterative solver returns what it converged to", "statement": "When the Gauss-Seidel solver reports success, the vector it leaves is a solution of the system within the requested tolerance (an exact fixed point is an exact solution).", "quantifier": "all systems and starting vectors", "why_tests_cant": "depends on the number of iterations and on the state left at the early return", "anchors": ["matrix/src/matrix.rs: gauss_seidel"]}
{"id": "C12", "title": "Compact band storage addresses every band element exactly once", "statement": "In the compact n-diagonal storage every (row, column) position inside the band has its own storage cell, writes do not alias, positions outside the band read as zero, and multiplication by a column vector equals the dense product.", "quantifier": "all sizes and odd band widths", "why_tests_cant": "cell-index arithmetic over all rows, columns and widths", "anchors": ["matrix/src/n_diag_generic_matrix.rs: NDiagGenericMatrix::new, index, get, set, column_prod_into"]}
{"id": "C13", "title": "Stacking matrices keeps rows in order", "statement": "Appending the rows of one matrix under another yields a matrix whose first rows are the first operand and whose following rows are the second, with an error when widths differ; stacking per-surface results therefore keeps row i for surface i.", "quantifier": "all sequences of matrices of equal width", "why_tests_cant": "induction over an arbitrary number of stacked matrices", "anchors": ["matrix/src/generic_matrix.rs: concat_rows", "light/src/solar_surface.rs: SolarSurface::calc_solar_dc_matrix", "light/src/optical_info.rs: OpticalInfo::new"]}
{"id": "C14", "title": "State slots are unique and stable", "statement": "Every quantity registered in a simulation state gets its own index, equal to the order of registration; registering the same quantity twice is an error; later registrations never move or overwrite earlier values.", "quantifier": "all sequences of registrations", "why_tests_cant": "arbitrary-length histories", "anchors": ["model/src/simulation_state.rs: SimulationStateHeader::push, take_values"]}
{"id": "C15", "title": "Occupant actions and physics write disjoint parts of the state", "statement": "Copying operational elements from one state to another changes operational elements only, copying physical ones changes physical elements only, and doing both makes the states equal; every kind of element is exactly one of the two.", "quantifier": "all headers and all pairs of states", "why_tests_cant": "all element kinds and histories", "anchors": ["model/src/simulation_state.rs: copy_operational / copy_physical style functions", "model/src/simulation_state_element.rs: is_operational, is_physical, is_personal"]}
{"id": "C16", "title": "The control step cannot corrupt physical state", "statement": "A user control step can only change operational elements: every write to a physical or personal element is rejected with an error, and accepted writes change only the addressed element.", "quantifier": "all controllers, all states", "why_tests_cant": "arbitrary user scripts", "anchors": ["src/occupant_behaviour.rs: control closures", "src/run_simulation.rs: run, run_rhai"]}
{"id": "C17", "title": "Every result row matches the header", "statement": "In the CSV written by a run every row has as many fields as the header, and each value is printed under the column of the output it belongs to.", "quantifier": "all lists of requested outputs, all states, all run lengths", "why_tests_cant": "all combinations of requested outputs, including ones that match nothing", "anchors": ["src/run_simulation.rs: pre_process, run, run_rhai"]}
{"id": "C18", "title": "A run is the composition of its steps", "statement": "A simulation over a period is the fold of (control; march; report) over the dates of the period; running a longer period has the shorter run as a prefix of its output.", "quantifier": "all models of the step functions, all periods", "why_tests_cant": "arbitrary-length runs", "anchors": ["src/run_simulation.rs: run", "src/multiphysics_model.rs: MultiphysicsModel::march"]}
{"id": "C19", "title": "Lookups by name return what was added", "statement": "After adding an object to a model it can be found by its name and by the returned reference, and objects added before it are still found unchanged.", "quantifier": "all histories of additions", "why_tests_cant": "arbitrary-length histories with name collisions", "anchors": ["model/src/model.rs: add_*, get_*"]}
{"id": "C20", "title": "The input-file scanner always terminates", "statement": "Scanning any byte string as an input file ends with a model or an error, in a number of steps bounded by the length of the file.", "quantifier": "all byte strings", "why_tests_cant": "all inputs; the failing ones end in the middle of an object", "anchors": ["model/src/scanner.rs: SimpleScanner"]}
{"id": "C21", "title": "Comments and whitespace do not change the tokens read from an input file", "statement": "Inserting white space or comments between tokens of an input file does not change the sequence of tokens the scanner produces.", "quantifier": "all files and all insertion points between tokens", "why_tests_cant": "unbounded inputs and insertion points", "anchors": ["model/src/scanner.rs: SimpleScanner"]}
{"id": "C22", "title": "Weather look-up interpolates between the records that bracket the date", "statement": "For a date between the first and last record, the looked-up line brackets the date, and every interpolated quantity lies between the two records' values and equals the record exactly at record times.", "quantifier": "all sorted weather files and all dates", "why_tests_cant": "arbitrary files and dates, including wrap-around at the end of the year", "anchors": ["weather/src/lib.rs: Weather::find_weather_line", "weather/src/current_weather.rs", "weather/src/epw/weather_line.rs: interpolate"]}
{"id": "C23", "title": "EPW lines are split into their fields", "statement": "Reading a comma-separated weather line yields exactly its fields in order, for every field content without separators; truncated files give an error, not garbage.", "quantifier": "all lines", "why_tests_cant": "all byte strings", "anchors": ["weather/src/epw/scanner.rs"]}
{"id": "C24", "title": "Inverse of an elementary transform undoes it", "statement": "For every translation, non-zero scale and rotation, transforming a point or vector and then inverse-transforming gives it back.", "quantifier": "all parameters, all points and vectors (exact arithmetic)", "why_tests_cant": "continuum of parameters", "anchors": ["geometry/src/transform.rs: translate, scale, rotate_x, rotate_y, rotate_z, transform_pt, inv_transform_pt"]}
{"id": "C25", "title": "Inverse of a composed transform undoes the composition", "statement": "After composing transforms with *=, inverse-transforming a transformed point gives the point back.", "quantifier": "all sequences of compositions", "why_tests_cant": "tests compose commuting transforms only", "anchors": ["geometry/src/transform.rs: MulAssign, transform_pt, inv_transform_pt"]}
{"id": "C26", "title": "Transformed normals stay perpendicular to transformed surfaces", "statement": "If a vector is tangent to a surface with a given normal, the transformed vector stays perpendicular to the transformed normal; and boxes transformed by a transform contain the transform of everything they contained.", "quantifier": "all elementary transforms, all vectors, points and boxes", "why_tests_cant": "continuum of inputs", "anchors": ["geometry/src/transform.rs: transform_normal, transform_vec, transform_bbox"]}
{"id": "C27", "title": "Bounding boxes form a lattice of point sets", "statement": "The union box contains a point whenever either operand does and is the smallest such box; the intersection box contains exactly the common points; overlap is reported exactly when there is a common point.", "quantifier": "all boxes and points", "why_tests_cant": "continuum of inputs", "anchors": ["geometry/src/bbox3d.rs: from_union, from_union_point, from_intersection, overlaps, point_inside"]}
{"id": "C28", "title": "The ray/box test never loses a hit", "statement": "If a ray passes through a box at a positive distance the ray/box test says so (direction components non-zero); and if it says so the ray comes within the documented rounding margin of the box.", "quantifier": "all boxes and rays", "why_tests_cant": "continuum of inputs, sign cases of every direction component", "anchors": ["geometry/src/bbox3d.rs: BBox3D::intersect"]}
{"id": "C29", "title": "Ray/triangle intersection reports points of the triangle only", "statement": "A reported intersection lies on the ray and inside the triangle; if the ray crosses the triangle's interior ahead of its origin and is not nearly parallel, the intersection is reported.", "quantifier": "all triangles and rays", "why_tests_cant": "continuum of inputs; a missing barycentric condition accepts points outside", "anchors": ["geometry/src/triangle3d.rs: intersect_triangle", "rendering/src/triangle/fallback.rs: baricentric_coordinates"]}
{"id": "C30", "title": "Triangle measures agree with geometry", "statement": "The area of a triangle is half the length of the cross product of its sides, the circumcentre is at the same distance (the circumradius) from its three vertices, and the normal is perpendicular to the sides.", "quantifier": "all non-degenerate triangles", "why_tests_cant": "continuum of inputs", "anchors": ["geometry/src/triangle3d.rs: area, circumcenter, circumradius, normal", "rendering/src/triangle/mod.rs: triangle_area"]}
{"id": "C31", "title": "Merging the holes of a polygon keeps every vertex", "statement": "The single closed outline computed for a polygon with holes visits every outer vertex and every hole vertex in order, with holes traversed from and back to their bridge vertex, so that its vector area is the outer minus the holes.", "quantifier": "all polygons with any number of holes of any number of vertices", "why_tests_cant": "index arithmetic modulo the number of hole vertices with a wrapped negative index", "anchors": ["geometry/src/polygon3d.rs: Polygon3D::get_closed_loop"]}
{"id": "C32", "title": "Triangulation covers the polygon exactly", "statement": "When a polygon outline with n vertices is triangulated successfully the result has n-2 triangles, all of whose corners are vertices of the outline, and the vector areas of the triangles add up to the vector area of the outline.", "quantifier": "all outlines", "why_tests_cant": "unbounded number of vertices; needs induction over ear removal", "anchors": ["geometry/src/triangulation3d.rs: TryFrom<&Polygon3D> for Triangulation3D"]}
{"id": "C33", "title": "Mesh refinement keeps the covered area", "statement": "Flipping a diagonal, splitting an edge or splitting a triangle preserves the total vector area of the mesh and adds exactly 0, 2 (or 1 at the border) and 2 triangles; the slot allocator never overwrites a valid triangle.", "quantifier": "all meshes", "why_tests_cant": "arbitrary sequences of mesh operations", "anchors": ["geometry/src/triangulation3d.rs: flip_diagonal, split_edge, split_triangle, push, invalidate"]}
{"id": "C34", "title": "Building a loop keeps its vertices and rejects bad ones", "statement": "Pushing points to a loop keeps the accepted vertices in order up to removal of middle points of straight runs, never accepts a non-coplanar point, and a closed loop cannot be extended.", "quantifier": "all sequences of points", "why_tests_cant": "arbitrary-length histories", "anchors": ["geometry/src/loop3d.rs: Loop3D::push, close"]}
{"id": "C35", "title": "The acceleration structure is a permutation of the scene", "statement": "Building the ray-tracing accelerator permutes the triangles (with their normals and both material indexes) without losing, duplicating or mixing any, and the returned mapping tells where each came from.", "quantifier": "all scenes of any size", "why_tests_cant": "unbounded number of triangles and recursive splits", "anchors": ["rendering/src/bvh.rs: BoundingVolumeTree::new, Node::recursive_build", "rendering/src/scene.rs: build_accelerator"]}
{"id": "C36", "title": "Accelerated ray casting equals brute force", "statement": "Casting a ray through the accelerator returns a hit exactly when scanning all triangles would, and the hit is at the same minimum distance.", "quantifier": "all scenes, all rays, any tree shape (deep enough auxiliary stack)", "why_tests_cant": "unbounded trees; traversal order and pruning", "anchors": ["rendering/src/bvh.rs: BoundingVolumeTree::intersect, flatten_node", "rendering/src/triangle/fallback.rs: intersect_triangle_slice"]}
{"id": "C37", "title": "Occlusion queries agree with brute force", "statement": "An accelerated distance query says unobstructed exactly when no triangle is hit closer than the given distance.", "quantifier": "all scenes, rays and distances", "why_tests_cant": "unbounded trees", "anchors": ["rendering/src/bvh.rs: BoundingVolumeTree::unobstructed_distance"]}
{"id": "C38", "title": "RGBE colour encoding loses at most one part in 128 of the brightest channel", "statement": "Encoding a non-negative colour as four bytes and decoding it changes each channel downwards only and by less than 1/128 of the brightest channel; encoded mantissas fit in a byte.", "quantifier": "all non-negative colours in the exponent range", "why_tests_cant": "continuum of colours", "anchors": ["rendering/src/image.rs: colour_to_rgbe, rgbe_to_colour"]}
{"id": "C39", "title": "Saved images load with the same size and pixels", "statement": "Loading an image saved in the HDR format gives an image of the same width and height with each pixel the decoded encoding of the original; a pixel count different from width*height in the file is rejected.", "quantifier": "all images and all files", "why_tests_cant": "arbitrary sizes and truncated files", "anchors": ["rendering/src/image.rs: save_hdre, from_file"]}
{"id": "C40", "title": "Falsecolour stays inside the colour map", "statement": "The linear colour map returns the first colour below the range, the last above it and, in between, a colour between two consecutive entries, moving continuously and reaching every entry at its node; it never reaches its unreachable branch.", "quantifier": "all non-empty colour maps, all ranges and values (exact arithmetic)", "why_tests_cant": "continuum of values and arbitrary map lengths", "anchors": ["rendering/src/colourmap/mod.rs: map_linear_colour"]}
{"id": "C41", "title": "Saved matrices load back", "statement": "Reading back a saved (colour) matrix gives the same size and the same elements; files with more or fewer rows than announced are rejected.", "quantifier": "all matrices, all files", "why_tests_cant": "arbitrary sizes and file contents", "anchors": ["rendering/src/colour_matrix.rs: save_matrix, read_matrix, save_colour_matrix, read_colour_matrix"]}
{"id": "C42", "title": "Random samples land where they should", "statement": "Whatever the random numbers in [0,1), sampled points of a triangle lie in the triangle, hemisphere samples have unit length and point to the correct side, sphere samples lie on the sphere.", "quantifier": "all random inputs in [0,1), all triangles and orthonormal frames", "why_tests_cant": "continuum of random inputs", "anchors": ["rendering/src/samplers.rs"]}
{"id": "C43", "title": "Sky patches tile the sphere", "statement": "For every subdivision the sky has 144*mf^2+2 bins, every direction falls in exactly one existing bin, bin numbers and rows are consistent, and the solid angles of all bins add up to the whole sphere.", "quantifier": "all mf >= 1 and all unit directions", "why_tests_cant": "unbounded mf and a continuum of directions", "anchors": ["weather/src/solar/reinhart_sky.rs: ReinhartSky::new, n_bins, dir_to_bin, bins_row, bin_solid_angle"]}
{"id": "C44", "title": "Wall discretization conserves thermal mass", "statement": "The heat capacities of the nodes of a discretized construction add up to the heat capacity per area of its massive layers, whatever the number of sub-layers chosen.", "quantifier": "all constructions and all subdivision choices", "why_tests_cant": "arbitrary number of layers and segments", "anchors": ["heat/src/discretization.rs: Discretization::build, discretize_construction"]}
{"id": "C45", "title": "Mass and no-mass chunks tile the nodes of a wall", "statement": "The node ranges treated as massive and as massless are disjoint, contiguous, alternate, and together cover every node exactly once.", "quantifier": "all lists of node masses", "why_tests_cant": "arbitrary sequences", "anchors": ["heat/src/discretization.rs: Discretization::chunk_segments, get_chunks"]}
{"id": "C46", "title": "Heat exchanged between wall nodes is conserved", "statement": "The conduction matrix of a wall is symmetric, and the net heat entering the wall equals the heat entering through its two faces: conduction inside neither creates nor destroys energy; a wall at the temperature of both sides with no radiation is in equilibrium.", "quantifier": "all wall discretizations, temperatures and boundary conditions", "why_tests_cant": "arbitrary numbers of nodes, real-valued states", "anchors": ["heat/src/discretization.rs: Discretization::get_k_q", "heat/src/surface.rs: rearrange_k"]}
{"id": "C47", "title": "The time integrator keeps equilibria and is exact to fourth order", "statement": "One Runge-Kutta step leaves an equilibrium temperature profile unchanged, and for every linear system it equals the degree-4 Taylor polynomial of the exact solution.", "quantifier": "all linear systems, sizes and step lengths", "why_tests_cant": "all matrices and vectors", "anchors": ["heat/src/surface.rs: rk4"]}
{"id": "C48", "title": "The chosen subdivision respects the step and the stability bound", "statement": "When a number of sub-steps is chosen for a wall every massive layer's segments satisfy the stability inequality for that sub-step; the model's sub-step is at most one that every wall accepts.", "quantifier": "all materials, thicknesses and steps", "why_tests_cant": "unbounded parameter space and search length", "anchors": ["heat/src/discretization.rs: min_dx, nsegments, discretize_construction", "heat/src/heat_model.rs: ThermalModel::new"]}
{"id": "C49", "title": "Solar energy hitting a glazing is conserved", "statement": "For every stack of glazings the absorbed fractions, the reflected fraction and the transmitted fraction add up to one and are each between zero and one.", "quantifier": "all stacks of any length with physical properties", "why_tests_cant": "induction over an arbitrary number of layers", "anchors": ["heat/src/glazing.rs: Glazing::alphas, combine_layers, combined_alphas"]}
{"id": "C50", "title": "Radiation coming from the back sees the stack reversed", "statement": "The optical system used for radiation coming from the back of a construction is the front system mirrored: order reversed and front/back reflectances exchanged.", "quantifier": "all constructions", "why_tests_cant": "asymmetric layers", "anchors": ["heat/src/glazing.rs: get_back_glazing_system", "heat/src/surface.rs: ThermalSurfaceData::new"]}
{"id": "C51", "title": "Zone air temperature moves monotonically towards equilibrium", "statement": "The estimated future zone temperature lies between the current temperature and the equilibrium temperature, and equals the current temperature at time zero; heat input always shows in the temperature.", "quantifier": "all zone states with positive capacity and any step", "why_tests_cant": "continuum of states", "anchors": ["heat/src/heat_model.rs: estimate_zones_future_temperatures, estimate_zones_mean_future_temperatures"]}
{"id": "C52", "title": "Convection coefficients are positive and defined for every documented roughness", "statement": "For every temperature difference, tilt, wind speed and documented roughness index the convection coefficient is computed and is at least the documented minimum.", "quantifier": "all inputs", "why_tests_cant": "continuum plus table bounds", "anchors": ["heat/src/convection.rs: get_tarp_natural, get_tarp_convection"]}
{"id": "C53", "title": "Infiltration rates are non-negative and scale as documented", "statement": "All infiltration models return non-negative flow for non-negative design flows and physical coefficients, and zero design flow gives zero.", "quantifier": "all weather and state inputs", "why_tests_cant": "continuum of inputs", "anchors": ["air/src/eplus.rs", "air/src/resolvers.rs"]}
{"id": "C54", "title": "Interpolated dates", "statement": "Interpolating between two dates at fraction x in [0,1] gives a valid date lying between them, whose distance from the first is x times the distance between the two; x=0 and x=1 give the end points.", "quantifier": "all pairs of valid dates in order and all fractions", "why_tests_cant": "The set of date pairs and fractions is infinite and month boundaries interact with rounding of the fraction.", "anchors": ["calendar/src/date.rs"]}
{"id": "C55", "title": "Declarations of different kinds can come in any order in an input file", "statement": "Swapping two neighbouring declarations of different kinds in an input file does not change the model that is read from it.", "quantifier": "all well formed files, all pairs of neighbouring declarations, all ways of adding objects to the model", "why_tests_cant": "unbounded number of files and permutations", "anchors": ["model/src/scanner.rs: parse_model"]}
{"id": "C56", "title": "Every declaration of an input file is read or reported", "statement": "The model read from an input file is made of exactly the objects of known kinds, kind by kind in a fixed order and in the order of the file within a kind; a declaration of an unknown kind is reported as an error.", "quantifier": "all well formed files", "why_tests_cant": "unbounded number of files; misspelt kinds are not tested", "anchors": ["model/src/scanner.rs: parse_model"]}
{"id": "C57", "title": "The line reported for an object is the line where it ends", "statement": "The line number recorded with each object of an input file, used in error messages, is the first line number plus the number of line breaks before the end of the object, whatever comments come before.", "quantifier": "all well formed files, all objects in them", "why_tests_cant": "unbounded combinations of comments, blanks and objects", "anchors": ["model/src/scanner.rs: SimpleScanner"]}
{"id": "C59", "title": "A point is located correctly in a triangle", "statement": "Testing a point of a triangle's plane answers Inside exactly when its three barycentric weights exceed the tolerance, Outside exactly when one is below minus the tolerance, and otherwise the vertex or edge whose weights vanish.", "quantifier": "all accepted triangles and all points of their planes", "why_tests_cant": "a swapped edge or vertex name is visible only for some of the points; triangulations branch on the answer", "anchors": ["geometry/src/triangle3d.rs: test_point"]}
{"id": "C60", "title": "Segments touch only where they meet", "statement": "When two segments are reported to touch, the reported point lies on both; two segments that share a point, are not parallel and not tiny are reported to touch at that point.", "quantifier": "all pairs of segments", "why_tests_cant": "continuum of inputs; tolerance on coplanarity is absolute", "anchors": ["geometry/src/segment3d.rs: get_intersection_pt, touches"]}
{"id": "C61", "title": "A plane's hit test and point test agree with its equation", "statement": "A reported ray hit is ahead of the origin and on the plane; a ray that meets the plane ahead of its origin and is not nearly parallel is reported with that distance; the point test accepts exactly the points nearer than the tolerance.", "quantifier": "all planes, rays and points", "why_tests_cant": "continuum of inputs", "anchors": ["geometry/src/plane3d.rs: new, test_point, intersect"]}
{"id": "C62", "title": "The local frame at a hit is orthonormal and faces the ray", "statement": "At a hit, normal and two tangents are unit vectors perpendicular to each other and the normal perpendicular to the triangle and against the ray; the side is Front exactly when the ray comes from where the right-handed normal points; the normal is the cross product of the tangents.", "quantifier": "all triangles, points and ray directions", "why_tests_cant": "continuum of inputs; handedness only shows on back faces", "anchors": ["rendering/src/triangle/mod.rs: new_info", "geometry/src/intersection.rs: get_side"]}
{"id": "C63", "title": "A triangle's sampling density does not depend on where the scene is", "statement": "Moving triangle, point and ray origin by the same vector does not change the solid-angle density.", "quantifier": "all triangles, points, rays and shifts", "why_tests_cant": "tests place the scene at one position", "anchors": ["rendering/src/triangle/mod.rs: triangle_solid_angle_pdf"]}
{"id": "C64", "title": "The area of a closed loop is the area of its polygon", "statement": "When a loop is closed its reported area is half of its vector area (the sum of v_i x v_{i+1}) along its normal, is never negative, is the length of the vector area for flat loops, and does not depend on where the loop is, the vertex it starts from or the direction it is walked.", "quantifier": "all loops that can be closed", "why_tests_cant": "a sum over an arbitrary number of vertices, invariances over all translations and rotations of the list", "anchors": ["geometry/src/loop3d.rs: Loop3D::close, set_area, area, reverse"]}
{"id": "C65", "title": "Pixels are addressed independently", "statement": "For coordinates inside the image, reading a pixel gives the pixel of that column and row, writing one changes that pixel only; new images are black; coordinates outside the image are rejected.", "quantifier": "all images whose pixel count matches their size, all coordinates", "why_tests_cant": "arbitrary sizes and coordinates", "anchors": ["rendering/src/image.rs: Index, IndexMut, new"]}
{"id": "C66", "title": "Image differences", "statement": "The difference of two images is symmetric, zero for equal images, holds the absolute radiance difference of each pixel, and is refused for images of different size.", "quantifier": "all images", "why_tests_cant": "arbitrary sizes and contents", "anchors": ["rendering/src/image.rs: diff, from_pixels"]}
{"id": "C67", "title": "Automatic falsecolour ranges reach the brightest pixel", "statement": "Without an explicit maximum, the brightest pixel of an image gets the last colour of the map, in linear and in logarithmic falsecolour.", "quantifier": "all images and colour maps", "why_tests_cant": "depends on the values of the image", "anchors": ["rendering/src/image.rs: save_falsecolour, save_log_falsecolour"]}
{"id": "C68", "title": "Solar radiation absorbed by a pane is given to the nodes of that pane", "statement": "The radiation that each glazing layer absorbs, from either side, is given in full and only to the temperature nodes of that layer: evenly when the layer is transparent, to the node exposed to the radiation when it is opaque.", "quantifier": "all constructions of panes and cavities, all numbers of nodes per layer", "why_tests_cant": "arbitrary numbers of layers and nodes", "anchors": ["heat/src/surface.rs: ThermalSurfaceData::new", "heat/src/discretization.rs: n_elements"]}
{"id": "C69", "title": "Wind speed follows the documented profile with height", "statement": "The factor applied to the measured wind speed is zero at ground level, positive above it, never decreases with height, is one at the height of the station (10 m, open country), and has the documented value for every terrain.", "quantifier": "all terrains and heights", "why_tests_cant": "continuum of heights; formulas with documented constants", "anchors": ["model/src/site_details.rs: TerrainClass::wind_speed_modifier, SiteDetails::wind_speed_modifier"]}
{"id": "C70", "title": "A gas cavity lets through at least what still gas would", "statement": "For every known gas, tilt, size and pair of temperatures, the convection coefficient of a cavity is at least the conduction of still gas; turning the cavity around does not change it; its radiative part is what two grey plates exchange up to the linearization; it is defined for every input.", "quantifier": "for all gases of the library, thicknesses, heights, tilts from 0 to 180 degrees and temperatures above the absolute zero", "why_tests_cant": "The correlations have five regimes of tilt and three of Rayleigh number; a test pins a handful of points and cannot show that no combination falls below pure conduction, loses symmetry or reaches unreachable code.", "anchors": ["heat/src/gas.rs:82-315", "heat/src/cavity.rs:59-69"]}
{"id": "C71", "title": "Massless layers settle where heat in equals heat out", "statement": "In a step, each turn over the massless nodes of a surface solves for the unique temperatures at which the heat entering every node balances, and moves half way there; the march always ends; temperatures that are already balanced stay; and the march ends no farther from the balanced temperatures than it began.", "quantifier": "for all walls of solid massless layers, temperatures, films and solar gains", "why_tests_cant": "Whether the iteration settles, oscillates or runs away depends on the ratio between radiation and convection at every face; tests try one wall and one state.", "anchors": ["heat/src/surface.rs:1031-1154"]}
{"id": "C72", "title": "Both sides of a surface are treated alike", "statement": "Each side of a surface exchanges heat with the air of its own side and from the temperature of its own face, and describing the surface from its other side only exchanges the two border conditions.", "quantifier": "for all surfaces, states, boundaries, tilts and winds", "why_tests_cant": "The combinations of boundaries, tilts, orientations and winds are unbounded, and tests only build surfaces in one direction.", "anchors": ["heat/src/surface.rs:569-738", "heat/src/heat_model.rs:78-138"]}
{"id": "C73", "title": "A surface as warm as its surroundings stays as it is", "statement": "If all nodes of a surface, the air at both sides and the radiant surroundings are at one temperature and the sun does not shine, a step changes nothing and no heat flows; when it shines, each node absorbs its share of the irradiance of each face, and negative irradiance counts as none.", "quantifier": "for all surfaces, boundaries, temperatures above the absolute zero, wind and time steps", "why_tests_cant": "Drift without any driving force shows up only for particular combinations of layers and boundaries.", "anchors": ["heat/src/surface.rs:1253-1354", "heat/src/heat_model.rs:104-214"]}
{"id": "C58", "title": "EPW records become weather of the right date and quantities", "statement": "The date given to a record of an EPW file with month 1-12, a day of that month and an hour 1-24 is a valid calendar date, and records later in the calendar get later dates; every quantity is taken from its own column, in the units of the simulation.", "quantifier": "all EPW records", "why_tests_cant": "every combination of month, day, hour and values", "anchors": ["weather/src/epw/weather_line.rs:159-184"]}
{"id": "C74", "title": "The sun is where it is in the sky", "statement": "While solar time is not negative, sun_position answers exactly when the sun is over the horizon, with its unit direction towards east, north and up, obtained from latitude, declination and the turn of the earth since noon; within a degree of the zenith it answers straight up.", "quantifier": "for all latitudes short of the poles, longitudes, meridians, times of the year, solar or standard", "why_tests_cant": "East and west come from an inverse cosine and the sign of an hour angle taken with the remainder of a division; tests compare a handful of hours of one place.", "anchors": ["weather/src/solar/mod.rs:176-275"]}
{"id": "C75", "title": "Solar and standard time", "statement": "Going from standard to solar time and back gives back the time but for one part in 1920 of the difference; both clocks run forwards and add four minutes for each degree towards the east, plus an equation of time under 21 minutes, the same every year.", "quantifier": "for all places, time zones and times", "why_tests_cant": "The conversion back is not the inverse but another evaluation of the equation of time, close to it at the times tests try.", "anchors": ["weather/src/solar/mod.rs:92-135", "weather/src/location.rs:64-67"]}
{"id": "C76", "title": "Estimated radiation", "statement": "fill_solar_radiation_data never fails, keeps the dates and every measured quantity of all records, writes no radiation at night, radiations that are not negative by day, and a global horizontal radiation that is the direct one on the ground plus the diffuse one.", "quantifier": "for all latitudes, records and lengths of the file", "why_tests_cant": "The coefficients are 1260 numbers picked by four classes, and the not-a-numbers come from exact zeros that the sampled weather files do not produce.", "anchors": ["weather/src/lib.rs:145-202", "weather/src/solar/mod.rs:331-626", "weather/src/solar/mod.rs:629-1050"]}
{"id": "C77", "title": "Radiation under clear skies", "statement": "Radiation outside of the atmosphere stays within 4 % of the solar constant and repeats every year; under a clear sky the transmittance is between zero and one and grows with the height of the sun, and the ground gets less than what arrives at the atmosphere; the diffuse fraction is a fraction.", "quantifier": "for all days, elevations between -1000 and 10000 m, and heights of the sun", "why_tests_cant": "The polynomials and exponentials leave the unit interval only at the ends of their ranges.", "anchors": ["weather/src/solar/mod.rs:165-173", "weather/src/solar/mod.rs:284-325", "weather/src/solar/mod.rs:536-547"]}
{"id": "C78", "title": "The vector of the sky", "statement": "A sky vector has one value per patch of the subdivided sky, and a vector of another size is refused. Without radiation or with the sun below the horizon every patch is zero. By day the vector is the sum of the ground, the sky and the sun, each the same whether the others are asked for or not; the ground reflects the albedo times all that falls on it, and on the coarse sky the patches together send the diffuse radiation.", "quantifier": "for all places, times, radiations, albedos and subdivisions of the sky", "why_tests_cant": "The tests compare six vectors to a reference program; conservation of the radiation that was read is not tested, nor is a second update of the same vector.", "anchors": ["weather/src/solar/perez.rs:277-382", "weather/src/solar/perez.rs:387-527"]}
{"id": "C79", "title": "The sun in the vector of the sky", "statement": "The direct radiation is shared among exactly the four patches closest to the sun, never the ground: each gets some, the closer ones more, and together they send the direct radiation that was read.", "quantifier": "for all places, times of day, radiations and subdivisions of the sky", "why_tests_cant": "A patch that is lost or counted twice is only seen for some positions of the sun.", "anchors": ["weather/src/solar/perez.rs:529-572"]}
{"id": "C80", "title": "No scene creates light", "statement": "Each daylight coefficient is made of light and never negative; the coefficients of a ray add up to at most pi whatever stands around and however it reflects, and to exactly pi under an open sky; each direction that reaches the sky counts for its own patch, with the same weight.", "quantifier": "for all scenes with materials that return at most what they receive, rays, random numbers and subdivisions of the sky", "why_tests_cant": "Random sampling: a test sees one sequence of numbers and one scene, with a tolerance.", "anchors": ["rendering/src/daylight_coefficients.rs:57-229", "rendering/src/colour_matrix.rs:29-46"]}
{"id": "C81", "title": "Points, rays and coefficients of a surface", "statement": "Points are drawn inside the surface, in each triangle in proportion to its area; rays leave a millimetre off the side they belong to; each surface has its own row of coefficients, zero for a side that sees neither outdoors nor a room, and never more than pi in all.", "quantifier": "for all polygons, numbers of points, random numbers, scenes and lists of surfaces", "why_tests_cant": "A triangle that is never drawn or a row that is shifted shows up only in certain shapes and lists.", "anchors": ["light/src/solar_surface.rs:37-158", "light/src/solar_surface.rs:259-292"]}
{"id": "C82", "title": "View factors for infrared radiation", "statement": "View factors are shares: not negative, at most one in all, exactly one when nothing stands before the surface; a horizontal surface in the open sees the sky only or the ground only; what is obstructed is not sky.", "quantifier": "for all surfaces, scenes and random numbers", "why_tests_cant": "Random sampling: a test sees one sequence of numbers, with a tolerance.", "anchors": ["light/src/solar_surface.rs:295-341"]}
{"id": "C83", "title": "Infrared radiation on surfaces", "statement": "Each side receives the radiation of what it faces: its own in a room, that of the given temperature, or that of ground, air and sky outdoors according to its own view factors; nothing else in the state changes; the outdoor radiation lies between that of the air and that of the sky.", "quantifier": "for all buildings, states, view factors and weathers", "why_tests_cant": "Mixing up sides, indices or nodes is invisible in the symmetric buildings of the tests.", "anchors": ["light/src/solar_model.rs:64-203", "weather/src/current_weather.rs:125-137"]}
{"id": "C84", "title": "Sun on surfaces", "statement": "At night every side shows zero; by day the mean of its present irradiance and of what it showed before, with the coefficients of its own row; nothing else in the state changes; under a constant sky the difference halves at each step.", "quantifier": "for all buildings, states, coefficients, dates, places and weathers", "why_tests_cant": "A row, side or window that is mixed up is invisible when all have the same exposure.", "anchors": ["light/src/solar_model.rs:205-320"]}
{"id": "C85", "title": "The solar model as a whole", "statement": "The subdivision of the sky is recovered from the coefficients, and a step succeeds for every date and weather, changing only irradiances.", "quantifier": "for all places, buildings, subdivisions, dates, weathers and states", "why_tests_cant": "Tests run a few steps of a few models with the default subdivision.", "anchors": ["light/src/solar_model.rs:397-457"]}
{"id": "C86", "title": "Scattered light stays on its side", "statement": "Whatever a ray hits, a sampled direction has length one and a positive density, reflections leave on the side of the surface from which the ray came and transmissions on the other one, and the next ray starts a hundredth of a millimetre away from the surface on that same side; the hit itself is not altered.", "quantifier": "for all materials, directions, hits and random numbers", "why_tests_cant": "Tests sample a few directions on a horizontal surface with one seed.", "anchors": ["rendering/src/material/mod.rs:141-187", "rendering/src/material/bsdf_sample.rs"]}
{"id": "C87", "title": "Matte surfaces, mirrors and lamps", "statement": "A diffuse surface multiplies the light by exactly its colour whatever direction is drawn, with the cosine law as density, agreeing with what eval_bsdf and pdf say; a mirror reflects by the law of reflection and multiplies by its colour; lamps scatter nothing; the directional reflectance of a diffuse surface is its colour; its BSDF is reciprocal.", "quantifier": "for all colours, directions, hits, seeds and numbers of samples", "why_tests_cant": "A Monte Carlo test can only compare averages with a tolerance.", "anchors": ["rendering/src/material/diffuse.rs", "rendering/src/material/mirror.rs", "rendering/src/material/light.rs", "rendering/src/material/mat_trait.rs:140-154"]}
{"id": "C88", "title": "Fresnel and Snell", "statement": "Reflectances are between zero and one, symmetric in the two sides, and at normal incidence ((n1-n2)/(n1+n2))^2; a refracted direction has length one, stays in the plane of incidence and follows Snell's law; there is none exactly when reflection is total.", "quantifier": "for all indices, angles and directions", "why_tests_cant": "Tests check a table of angles for two indices.", "anchors": ["rendering/src/material/specular.rs:42-149"]}
{"id": "C89", "title": "Dielectrics", "statement": "Light that meets a dielectric is reflected with Fresnel's probability without loss, or refracted and multiplied by the colour; a ray that goes in and out through parallel faces keeps its direction; no light is created.", "quantifier": "for all colours, indices, directions and random numbers", "why_tests_cant": "Tests check single rays.", "anchors": ["rendering/src/material/dielectric.rs:131-184"]}
{"id": "C90", "title": "Panes of glass", "statement": "A pane reflects and transmits the sums of the infinite series of inner reflections, shares the rays between both in proportion, does so on average for each channel, and a gray pane never multiplies light by more than one.", "quantifier": "for all colours, indices, directions and random numbers", "why_tests_cant": "No finite number of samples shows an average; the series is infinite.", "anchors": ["rendering/src/material/glass.rs:34-159"]}
{"id": "C91", "title": "Plastic and metal", "statement": "A sampled direction is diffuse with the complement of the specularity, in which case light is multiplied by the colour, or glossy; sampling ends; surfaces create no light; the densities and the BSDF agree with the samples.", "quantifier": "for all colours, specularities, roughnesses, directions and random numbers", "why_tests_cant": "Random sampling finds the rare failures only by luck.", "anchors": ["rendering/src/material/ward.rs:39-188", "rendering/src/material/plastic.rs", "rendering/src/material/metal.rs"]}
{"id": "C92", "title": "Light in the scene of a building", "statement": "Every ray of length one either finds nothing or arrives at a side of a triangle that has a material; materials that are matte, mirroring or grey glass never multiply light by more than one, so that in the scene of any building with absorptances between 0 and 1 the daylight coefficients are never negative and never add up to more than pi.", "quantifier": "for all buildings, rays, random numbers, numbers of bounces and of samples", "why_tests_cant": "A finite number of rays in a finite number of buildings cannot show that no path gains light.", "anchors": ["rendering/src/scene.rs:243-270", "rendering/src/daylight_coefficients.rs:159-229", "rendering/src/from_simple_model.rs:193-246"]}
{"id": "C93", "title": "The scene of a building", "statement": "The scene is made of the triangles of every surface and fenestration that is not an opening, each of which belongs to the element written down for it and has the optical properties of the first layer in front and of the last layer behind: an opaque layer scatters what it does not absorb, a pane lets its transmittance through; unknown names and outer layers of gas are reported.", "quantifier": "for all buildings", "why_tests_cant": "There are unboundedly many buildings; the tests compare a handful.", "anchors": ["rendering/src/from_simple_model.rs:36-246", "rendering/src/scene.rs:286-357"]}
{"id": "C94", "title": "Weights and choices of the ray tracer", "statement": "Every light is chosen by the same number of draws; the weights of two ways of sampling are between 0 and 1 and add up to one; Russian roulette leaves the mean unchanged; the weights given to a light by shadow rays and by scattered rays add up to one.", "quantifier": "for all densities, numbers of samples, numbers of lights and random numbers", "why_tests_cant": "Tests sample a few densities; that the weights complete each other for every pair of densities and that roulette is right on average are statements about all of them.", "anchors": ["rendering/src/ray_tracer.rs:54-69", "rendering/src/ray_tracer.rs:165-184", "rendering/src/scene.rs:105-119"]}
{"id": "C95", "title": "The sky through the ray tracer", "statement": "In a scene of passive materials without lights, a ray always returns, whatever the random numbers; what it returns is not negative and not brighter than the brightest part of the sky; a ray that meets nothing shows exactly the sky, and this holds for the scene of any plausible building.", "quantifier": "for all scenes, skies, rays, depths and sequences of random numbers", "why_tests_cant": "The random numbers and the scenes are unbounded; a test renders some images and compares them with references.", "anchors": ["rendering/src/ray_tracer.rs:73-212", "rendering/src/scene.rs:243-270"]}
{"id": "C96", "title": "Light from distant sources", "statement": "A ray meets a distant source if and only if it is within half its angle, every direction drawn towards it is, and lighting a point takes as many shadow rays as asked for; a matte surface in the sun shows the radiance of the sun times its solid angle times the cosine of incidence times the reflectance over pi, and is black in the shade; every path ends.", "quantifier": "for all sources, scenes, rays and sequences of random numbers", "why_tests_cant": "The geometry has to hold for every direction and angle and the loop has to end for every random sequence; tests check some images.", "anchors": ["rendering/src/ray_tracer.rs:86-188", "rendering/src/ray_tracer.rs:218-273", "rendering/src/ray_tracer.rs:327-366", "geometry/src/distant_source3d.rs:63-151", "rendering/src/primitive_samplers.rs:32-126"]}
{"id": "C97", "title": "Cameras and images", "statement": "The axes of a camera are at right angles and the ray of a pixel has length one and goes through the middle of the pixel, with the same scale in both directions; an image has width times height pixels, each in its own place and showing what its ray sees; the pixel of the ray of a pixel is that pixel.", "quantifier": "for all views, films and pixels", "why_tests_cant": "Tests try a few views and films; the relation between pixels and rays has to hold for all of them.", "anchors": ["rendering/src/camera/pinhole.rs:35-135", "rendering/src/camera/view.rs:51-61", "rendering/src/camera/camera_trait.rs:42-46", "rendering/src/ray_tracer.rs:275-321"]}
{"id": "C98", "title": "Intervals around rounded numbers", "statement": "An ApproxFloat is an interval of machine numbers. For all finite ends the exact sum, product, quotient by an interval without zero and square root of numbers in the intervals are in the resulting interval, which is at most two (three for products and quotients) machine numbers wider than necessary on each side. next_float_up and next_float_down give the neighbouring machine number.", "quantifier": "for all binary64 numbers and all intervals of them", "why_tests_cant": "There are 2^256 pairs of intervals and the claim is about real numbers that machine numbers cannot represent; a test compares some rounded results.", "anchors": ["geometry/src/round_error.rs:37-70", "geometry/src/round_error.rs:72-164", "geometry/src/round_error.rs:167-373"]}
{"id": "C99", "title": "Rays and spheres", "statement": "A ray meets a (part of a) sphere at the first point in front of it that is on the part, away from the poles; a whole sphere with a centre at the first point whose distance to the centre is the radius. The area is that of the part, the box holds it, the normal is radial and faces the ray with the outside as the front, the derivatives are those of the surface by longitude and colatitude. At a pole the point is moved off the sphere and the information panics, and so it does for very small spheres.", "quantifier": "for all radii, centres, cuts and rays", "why_tests_cant": "Tests shoot rays along the axes at one or two spheres; the claim compares every ray with every point in front of it and the area with an integral.", "anchors": ["geometry/src/sphere3d.rs:72-166", "geometry/src/sphere3d.rs:168-362", "geometry/src/sphere3d.rs:380-426", "geometry/src/round_error.rs:135-164", "geometry/src/intersection.rs:124-170"]}
{"id": "C100", "title": "Rays and cylinders", "statement": "A ray that is not along the axis meets a (part of a) cylinder at the first point in front of it that is on the part; area, box, normal (the inside is the front) and derivatives are those of the surface. Upright cylinders are where they should be. Other cylinders are not: the rotations and their inverses are combined in the wrong order, so that points off the ray are reported, or no point.", "quantifier": "for all radii, heights, cuts and rays", "why_tests_cant": "Tests use the cylinder around the z axis; a wrong order of rotations does not show in them.", "anchors": ["geometry/src/cylinder3d.rs:59-120", "geometry/src/cylinder3d.rs:124-250", "geometry/src/cylinder3d.rs:299-344", "geometry/src/transform.rs:168-173"]}
{"id": "C101", "title": "Rays and discs", "statement": "A disc is hit exactly where a ray that is not (nearly) along its plane crosses it, between the radii and the angles counted anticlockwise about the normal; its area is right and its front is where its normal points. The derivatives that are reported are not those of the surface and not numbers at the centre.", "quantifier": "for all discs and rays", "why_tests_cant": "Tests shoot a few rays at discs in coordinate planes and do not look at the derivatives.", "anchors": ["geometry/src/disk3d.rs:64-127", "geometry/src/disk3d.rs:132-226", "geometry/src/plane3d.rs:48-80"]}
{"id": "C102", "title": "The triangles that stand for a sphere", "statement": "A sphere of the scene becomes 20 * 4^5 triangles whose corners are on the sphere, with the outward unit normals at the corners. The mesh has no gaps and no folds (every side is shared by exactly two triangles, in opposite directions), every front looks outwards, every ray from the centre meets it once, and it is nowhere more than 0.04 % of the radius inside of the sphere. Spheres of at most 67 mm cannot be hit by any ray; parts of spheres and scaled spheres become whole and unscaled ones; tiny ones panic.", "quantifier": "for all spheres, triangles, directions and rays", "why_tests_cant": "The test looks at the distance of the corners of one sphere; gaps, folds, orientation and the distance of every point of every triangle need all of them and all radii.", "anchors": ["rendering/src/triangle/mod.rs:212-332", "rendering/src/scene.rs:337-348", "rendering/src/triangle/fallback.rs:11-51"]}
{"id": "C103", "title": "Lamps", "statement": "Every direction drawn towards a spherical lamp from outside meets it, with one sample it is that of the nearest point, and the density is one over the solid angle of the lamp, whose directions are exactly those that meet it; a shadow ray finds the lamp's colour unless something is in between, and the lamp's own triangles are never in between; a matte surface shows the lamp's radiance times its solid angle times the cosine of incidence times the reflectance over pi, whatever side it is looked at from; it is black if the lamp is hidden or behind it.", "quantifier": "for all spheres, points, rays, scenes and random numbers", "why_tests_cant": "The directions, the density and the shadow test have to agree for every lamp, point and random number; tests check one direction.", "anchors": ["rendering/src/primitive_samplers.rs:73-106", "rendering/src/primitive.rs:71-128", "rendering/src/scene.rs:299-357", "rendering/src/ray_tracer.rs:218-273", "rendering/src/ray_tracer.rs:327-366"]}
{"id": "C104", "title": "Quick inverse square root", "statement": "The quick inverse square root is within five millionths of the true one for every number from the second smallest binade of single precision to its largest number, and does not overflow; vectors normalized with it have length one within 5.1 millionths and keep their direction, and the perpendicular of a vector is perpendicular to within 1e-15 and of length one within 5.1 millionths, or refused when all the components are negligible. Vectors of 2^70 become infinite and NaN, though the other arithmetic normalizes them exactly.", "quantifier": "for all binary64 numbers and vectors in range, with and without overflow checks", "why_tests_cant": "The result depends on the bits of the argument through an integer subtraction and eight roundings; the repository's test samples equally spaced numbers.", "anchors": ["geometry/src/quick_inverse_sqrt.rs:29-50", "geometry/src/vector3d.rs:148-188", "geometry/src/vector3d.rs:214-226"]}
{"id": "C105", "title": "Triangles in machine arithmetic", "statement": "Creating a triangle never stops the program; it is accepted when its corners are a millimetre apart and its area is above 5e-6, both to one per mille and rounding errors, and refused otherwise. The area that it stores is a finite number within 26 K units of 2^-53 of the true area, K being the perimeter over what two sides exceed the third by, and each component of its normal is within 17 K units of 2^-53, K being one over the sine of the angle at the second corner; the radius of the circle around it is within 30 K units, or 5.1 millionths with the quick inverse square root. Triangles that are accepted though their corners are almost in a line can have an area that is not a number, and so a circumradius that is not a number, negative, or a panic.", "quantifier": "for all triples of points with finite binary64 coordinates up to 2^100", "why_tests_cant": "Rounding errors are relative to the size of the triangle and are magnified by its slenderness; tests use a few well shaped triangles.", "anchors": ["geometry/src/triangle3d.rs:131-160", "geometry/src/triangle3d.rs:177-190", "geometry/src/triangle3d.rs:199-210", "geometry/src/point3d.rs:87-105", "geometry/src/point3d.rs:139-156"]}
{"id": "C106", "title": "Radiance files are words", "statement": "Reading a Radiance file always ends, and what comes out (the scene, the error or the panic) depends only on the words of the file, not on the blanks, tabs and line ends between them.", "quantifier": "for all byte strings, all UTF-8 checks and all ways of parsing numbers that refuse the empty word", "why_tests_cant": "The tests read a handful of files in one layout; termination and independence of the layout are statements about all byte strings, malformed ones included.", "anchors": ["rendering/src/from_radiance.rs:63-147", "rendering/src/from_radiance.rs:150-185", "rendering/src/from_radiance.rs:618-628"]}
{"id": "C107", "title": "What a Radiance file means", "statement": "A file of materials, spheres, sources and polygons is read if and only if each object names a material declared before it and has a good shape. The scene then has the materials in order (plastics and metals of negligible specularity being diffuse, glass having the index 1.52 unless given), the triangles of every object in order with the number of the first material of that name, and the lights and distant lights made of light materials. Comments make the program panic, and of two materials of one name the first is used, unlike in Radiance.", "quantifier": "for all lists of declarations with legible numbers, in any layout", "why_tests_cant": "Each kind of object is tested once with one set of numbers; order, numbering and the combination of any number of objects are not.", "anchors": ["rendering/src/from_radiance.rs:49-59", "rendering/src/from_radiance.rs:188-606", "rendering/src/scene.rs:288-357"]}
{"id": "C108", "title": "Faces of OBJ files", "statement": "Reading the faces of an OBJ file adds to the scene exactly the triangles of the faces of three corners and the two halves of those of four, in order, as far as they are not degenerate, each with its own unit normal and with the given materials, and as lights if a material emits; the program panics exactly when a face of at most four corners has fewer than three or refers to a vertex, normal or texture that does not exist. The halves of a flat convex face cover it and nothing else, and their vector areas always add up. Faces of more than four corners are dropped without a word, and the halves of a face with a reflex corner can look in opposite directions.", "quantifier": "for all scenes, arrays of vertices, normals and textures, and lists of faces of all four kinds", "why_tests_cant": "The test reads two faces and counts triangles.", "anchors": ["rendering/src/from_obj.rs:39-163", "rendering/src/from_obj.rs:180-202"]}
{"id": "C109", "title": "Orientation of surfaces", "statement": "Every surface has an orientation: the program never panics on a unit normal. It is Horizontal exactly when the normal is within 45 degrees of the vertical, up or down; otherwise it is the compass direction, of the eight, nearest to the normal (up to 1e-15, the rounding of the constant in the program), within 22.5 degrees of it. Looked at from behind, turned by a quarter of a turn, or mirrored, a surface has exactly the opposite, turned or mirrored orientation. The outside and inside orientations are given exactly when one side is outdoors and the other in a space, the outside one being that of the outdoor side and the inside one its opposite.", "quantifier": "for all unit normals and all pairs of boundaries", "why_tests_cant": "Tests try a few normals; the branches meet in eight sectors with sharp borders and a panic if any direction is missed.", "anchors": ["model/src/surface_trait.rs:54-100", "model/src/surface_trait.rs:146-183"]}
{"id": "C110", "title": "The sky and the sun of a scene", "statement": "By day, adding a Perez sky to a scene adds the sky of the weather and one distant source of 0.533 degrees in the direction of the sun, and nothing else; unless the sun is within three degrees of the zenith, that source sends as much light as all the patches of the sky vector of the same weather, and the sky has in the centre of each patch the value of that vector, for every subdivision. Nearer to the zenith the sun can come out less than half as bright. By night the program panics although it says that it might be nighttime.", "quantifier": "for all scenes, dates, places with latitudes within 90 degrees, radiations and subdivisions of the sky", "why_tests_cant": "Two pieces of code in different crates compute the same sun; tests compare a few hours with Radiance and never the two with each other.", "anchors": ["rendering/src/scene.rs:121-206", "weather/src/solar/perez.rs:277-576"]}
{"id": "C111", "title": "The heat of heaters, coolers and luminaires", "statement": "The thermal model of a building can be made exactly when every heater, cooler and luminaire is meant for a space that exists, and fails with an error otherwise. Each device heats the first space with the name it is meant for and no other: when names differ, the air of a space gets the sum of the powers of the devices meant for it; all the power goes into the air of the building, and a later space with the same name gets nothing. When a device changes its power, the next temperatures of all other spaces stay the same and that of its space rises by the heat over the conductance of the space times one minus the decay over the step. A power that is missing from the state is an error for a heater and a panic for a luminaire. Against its documentation, a luminaire that is meant for no space, such as one outside, leaves the building without a thermal model.", "quantifier": "for all names of spaces, devices, powers, zones, surfaces and steps", "why_tests_cant": "Tests have one space and one device; which space is found by name matters only with several.", "anchors": ["heat/src/heating_cooling.rs:49-124", "heat/src/luminaire.rs:36-52", "heat/src/heat_model.rs:379-389", "heat/src/heat_model.rs:542-556", "model/src/luminaire.rs:49-58"]}
{"id": "C112", "title": "Which walls face the wind", "statement": "A wall faces the wind when it is nearly horizontal or when its bearing is less than a quarter of a turn from that of the wind, as long as the thermal model gets the direction of the wind in degrees. The weather holds it in radians, as documented, and the thermal model converts it to radians once more: so, whatever the wind, every wall that faces more than 7 degrees north of the east-west line is taken to face it and every wall that faces more than 7 degrees south of it to be in the lee, a south wall in a south wind among them, with half the forced convection. With weather files, the direction of the wind has no effect at all.", "quantifier": "for all walls, tilts, winds and records of weather files", "why_tests_cant": "The conversions are in two crates and each is right on its own; tests of the thermal model make up weather without wind direction.", "anchors": ["heat/src/heat_model.rs:416-420", "heat/src/surface.rs:36-45", "weather/src/epw/weather_line.rs:175", "weather/src/current_weather.rs:50-51"]}
{"id": "C113", "title": "Weather made of schedules", "statement": "At every date, each quantity of the weather made of schedules is that of its own schedule, or its documented default where the schedule has no value (zero; half for the relative humidity; 101300 Pa), and the infrared radiation is missing when its schedule has none. Constant and empty schedules give weather that does not change with the date.", "quantifier": "for all schedules and dates", "why_tests_cant": "Eleven schedules of the same type are easily crossed.", "anchors": ["weather/src/synthetic_weather.rs:31-115", "schedule/src/constant.rs:23-40", "schedule/src/empty_schedule.rs:22-33"]}
{"id": "C114", "title": "A time step of the thermal model of a building", "statement": "In every sub-step each wall and window takes its own step from the temperatures that the spaces had at the beginning, so their order in the model makes no difference; sub-step k sees the weather of k sub-steps after the date given. The heat that goes into the air of a zone at the beginning of its step is what the faces towards it report, times their areas, plus what air streams, heaters and luminaires bring. Without these powers the air ends within the range of its own temperature, those of the faces around it and those of its air streams. Constructions, air streams, powers and radiation are left as they were. A building in equilibrium with its surroundings stays so, exactly, for any number of sub-steps, and its faces report no heat. A wall to the ground stops the program.", "quantifier": "for all buildings, weathers, dates, and numbers and lengths of sub-steps (less than 224 days)", "why_tests_cant": "Tests have one or two rooms; a wrong order of updates or a mixed-up face shows only as slightly wrong temperatures.", "anchors": ["heat/src/heat_model.rs:104-214", "heat/src/heat_model.rs:405-465", "heat/src/heat_model.rs:596-638"]}
{"id": "C115", "title": "The errors that the transforms report", "statement": "The error that comes with a transformed vector covers the rounding error of each coordinate, but for one part in 10^15; that of a point covers at least three quarters of it. Neither is more than 3.4e-16 of the terms that are added. When a point or vector comes with an error, the image of whatever is within it is within the error that goes out (within four thirds of it for points).", "quantifier": "for all affine matrices and all points, vectors and errors of binary64 numbers below 2^500", "why_tests_cant": "Rounding errors depend on the bits of the numbers; a test checks one of them, and with a tolerance.", "anchors": ["geometry/src/transform.rs:52-101", "geometry/src/transform.rs:318-428", "geometry/src/lib.rs:119-126"]}
{"id": "C116", "title": "Cutting a loop gives pieces that make it up", "statement": "Cutting a closed loop with a segment gives closed loops, at most two, whose corners are corners of the loop or one of two points on its edges, and the vector areas of the pieces add up to that of the loop but for the vertices that are dropped when the outlines are cleaned (bounded by the number of vertices and the diameter). No area of a flat loop is lost, and the areas of the pieces of a flat convex loop add up to its area, within such bounds. It does not hold that the pieces are parts of the loop: a loop with a notch is cut along the first two edges met, which may be those of the notch; nor that a segment from edge to edge cuts the loop.", "quantifier": "for all closed loops with any number of vertices and all segments; the bound for every diameter", "why_tests_cant": "The unit tests cut a few rectangles. That no area is lost or made up at any cut of any loop needs an argument about the walk over the vertices, and about the vertices that pushing and closing drop.", "anchors": ["geometry/src/loop3d.rs:1014-1049", "geometry/src/loop3d.rs:1308-1399", "geometry/src/loop3d.rs:1404-1421"]}
{"id": "C117", "title": "The test of points against loops tells inside from outside", "statement": "For a closed convex loop and a point in its plane, the test says that the point is inside when it is on the inner side of all edges and outside when it is on the outer side of one, unless it is within 1.1 mm of an edge. Points on edges are inside, points off the plane are outside, open loops give an error. It does not hold for points in front of the middle of the first edge: the code looks along a line 1000 times as long as their distance to it, and when that line ends inside the loop, the point is taken to be outside.", "quantifier": "for all closed loops with any number of corners that turn left at each of them, and all points in their plane", "why_tests_cant": "The unit tests try a few points of a few loops. That the line crosses the edges exactly once for every inner point, also when it goes through a corner, and never for an outer point, needs an argument about convex loops.", "anchors": ["geometry/src/loop3d.rs:678-705", "geometry/src/loop3d.rs:706-763", "geometry/src/segment3d.rs:88-105", "geometry/src/segment3d.rs:140-178"]}
{"id": "C118", "title": "Intersecting and biting loops gives parts of them", "statement": "When two loops in one plane are intersected and there is a result, it is a closed loop of 3 to 100 corners, all of which are in both loops or near their edges. When a loop is bitten by another, the result is the loop itself, or a closed loop whose corners are all in it or near its edges. It is not true that loops which overlap always have an intersection: two bars that cross each other have none, since neither has a corner in the other. And biting a loop with one that covers all of it gives the loop as it was instead of nothing or an error.", "quantifier": "for all pairs of loops in one plane with any number of corners, convex or not, in either direction", "why_tests_cant": "The unit tests intersect and bite a few pairs of loops. The code walks along one loop, changes to the other one wherever they meet, and stops when it is back or after 99 steps; that no step ever leaves the loops has to hold for all walks.", "anchors": ["geometry/src/loop3d.rs:422-431", "geometry/src/loop3d.rs:1051-1067", "geometry/src/loop3d.rs:1069-1180", "geometry/src/loop3d.rs:1185-1304"]}
{"id": "C119", "title": "Loops and polygons in files are read as they were written", "statement": "A loop is read from a file only when the file has three numbers for each point, and it has no other corners than those points. A flat outline keeps its area, up to what one corner on a nearly straight side makes out. A loop that was read without corners being left out, written and read again is the same loop. A polygon with holes is written as one outline, which is read as a polygon without holes that has the area of the outer loop less those of the holes. It is not true that a loop which was read is always the same after writing and reading it again: each time one corner in a straight side may be left out. And files with missing coordinates are not reported as errors, they make the program panic.", "quantifier": "for all files, all loops and all polygons with any number of holes that can be merged (C31)", "why_tests_cant": "The unit tests write and read a few loops. That points which were accepted once are accepted again in the same order, whatever the loop, depends on all checks that are made when points are added, and for holes on how they are joined to the outline.", "anchors": ["geometry/src/loop3d.rs:121-134", "geometry/src/loop3d.rs:136-185", "geometry/src/polygon3d.rs:49-63", "geometry/src/polygon3d.rs:72-91"]}
{"id": "C120", "title": "Floor areas and set points that a model reports", "statement": "The floor area reported for a space is the sum of the areas of the surfaces marked as floors that have the space on their upper side, each space of the model has exactly one entry, and the total is the sum over the spaces. It does not depend on the order of the surfaces, and there is always an answer when the spaces of all floors are in the model. The set points reported under a name are those of the last system with that name, and there is an entry for every system. It is not true that the set points of all systems are reported: of two systems with one name only the last one is.", "quantifier": "for all lists of spaces, surfaces and heating and cooling systems", "why_tests_cant": "The unit tests look at one model. That the total always agrees with the entries, whatever side of a floor leads to which space and in whatever order surfaces were added, is a statement about all models.", "anchors": ["model/src/model.rs:1327-1354", "model/src/model.rs:1370-1425"]}
{"id": "C121", "title": "Every surface and window has its own place in the state for each irradiance", "statement": "After the solar model was made by computing the optical data, each surface and each window has an index for its front and back solar and infrared irradiance, the index leads to the element of that surface and side, no two share an index, indices that were set before are kept, and as many elements were added as were missing. When all are set nothing changes, and it always succeeds when the outlines can be triangulated and the state was not taken yet. It is not true that this also holds when the optical data are read from a file: then no index is set and writing the irradiances fails. Nor that a second simulation of the same model works: it is made without an error, but uses the indices of the first. And the thermal model cannot be made after the solar model.", "quantifier": "for all headers and all lists of surfaces and windows, of which any may already have some of their indices", "why_tests_cant": "The unit tests make the model once from new surfaces. Sharing of an index shows only as wrong irradiances, and which indices are already set depends on what other models were made before.", "anchors": ["light/src/solar_surface.rs:162-256", "light/src/solar_model.rs:338-395", "light/src/optical_info.rs:78-91", "derive/src/object_struct.rs:277-320"]}
