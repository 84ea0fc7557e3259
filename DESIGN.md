# Design of the formal model of `germolinal/simple`

The Rust sources in `/repo` were read as text.  They were not built or run.
Everything below is a hand-written Gallina model, and theorems about it.

## Layout

* `rocq/theories/<Area>/…Model.v`: executable definitions only.  Each definition
  names the file and lines of `/repo` it mirrors.
* `rocq/theories/<Area>/…Spec.v` (when useful): specification vocabulary that does
  not mention the model's helpers.
* `rocq/theories/<Area>/…Proofs.v`: lemmas.
* `rocq/theories/Properties/*.v`: the theorems, one section per property `Cxx`, each
  with a concrete `Example` next to it.  Specification vocabulary that is used by one
  property only is defined next to it, without reference to the model's helpers.
* `MANIFEST.json`: status and theorem names for every property of `properties.jsonl`.
* `seeded/LOG.jsonl`: wrong programs the theorems were tested against.

Naming: `Cxx_…` are the theorems.  `…_partial` marks a theorem that covers less than
the property (the comment says what is missing).  `…_refuted` proves that the property
is false of the faithful model, with a witness: each is a finding about the code.
A property is `proved` in the manifest when its statement holds for all inputs it
quantifies over, and `partial` when part of it is missing or refuted.

## Conventions

* Floating point.  `Float` (f64) is modelled by exact numbers: an arbitrary
  commutative ring / field (matrices), `Q` (calendar, weather) or Coq's classical
  reals `R` (polynomials, geometry, rendering, heat, air).  Rounding, overflow and NaN
  are outside the model, except where a model is written over the record `Flt`
  (`Common/Flt.v`), which is instantiated with the reals for the theorems and with
  Coq's primitive IEEE doubles for some refutations (`BBoxModel`, `ImageModel`,
  `GlazingModel`, banded product).
* Machine integers.  Where the code narrows (`as u8`, `as i16`, `as usize`, wrapping
  `usize` indices) the model does the reduction explicitly.
* Panics and `Err` are explicit result values, not exceptions.
* Loops become structural recursion.  Where a loop is bounded only by data, the model
  carries fuel and returns an explicit "out of fuel" value; the theorem says how much
  fuel is enough, or holds for every fuel.
* Unspecified library behaviour (unstable sorts, float printing and parsing, JSON
  parsing, UTF-8 checks) is a parameter of the model: the theorems hold for each of its
  possible values, under the hypotheses they state.

## What is modelled

| model file | code in `/repo` | not modelled |
|---|---|---|
| `Calendar/DateModel.v` | `calendar/src/date.rs`, `period.rs` | display, serde |
| `Polynomial/PolynomialModel.v` | `polynomial/src/lib.rs` | macros, display |
| `Matrix/MatrixModel.v` | `matrix/src/generic_matrix.rs`, `matrix.rs`, `n_diag_generic_matrix.rs`, `n_diag_matrix.rs` | display, `f32`/`i32` specifics |
| `Matrix/GaussSeidel.v` | `matrix/src/matrix.rs:140-204` | |
| `State/StateModel.v` | `model/src/simulation_state.rs`, `simulation_state_element.rs` | |
| `State/ControlModel.v` | `src/occupant_behaviour.rs`, `derive/src` (script getters and setters), `src/rhai_script_controller.rs` | the Rhai interpreter |
| `State/RunModel.v` | `src/run_simulation.rs:145-371` | file handling, progress messages |
| `State/BuildingModel.v` | `model/src/model.rs` | data the functions never look at |
| `Scanner/ScannerModel.v` | `model/src/scanner.rs:26-440` | json5 parsing (a parameter) |
| `Weather/EpwModel.v`, `Weather/WeatherModel.v` | `weather/src/epw/*`, `weather/src/lib.rs:90-136`, `weather/src/current_weather.rs` | |
| `Weather/SunModel.v` | `weather/src/solar/mod.rs:30-1050`, `weather/src/location.rs:64-67`, `weather/src/lib.rs:145-202` | rounding; times are real days; a NaN is `None`; pressures are positive |
| `Weather/PerezModel.v` | `weather/src/solar/perez.rs:21-577` | rounding; the direction of a NaN patch is zero |
| `Weather/SkyModel.v` | `weather/src/solar/reinhart_sky.rs` | the tables of `f32` rounding |
| `Geometry/Vec.v`, `BBoxModel.v`, `TransformModel.v`, `TriangleModel.v` | `geometry/src/point3d.rs`, `vector3d.rs`, `bbox3d.rs`, `transform.rs`, `triangle3d.rs`, `ray3d.rs`, `segment3d.rs`, `plane3d.rs`, `intersection.rs`, `rendering/src/triangle/*` | textures |
| `Geometry/TransformMachineModel.v` | `geometry/src/transform.rs` (points and vectors with errors, rays) in IEEE binary64 arithmetic | the transforms of rays that come with errors; the assertion of debug builds |
| `Geometry/QuickInvSqrtModel.v`, `MachineModel.v` | `geometry/src/quick_inverse_sqrt.rs`, `vector3d.rs` (lengths, normalization, perpendiculars), `triangle3d.rs` (`new`, `area`, `circumradius`), `point3d.rs` in IEEE binary64 and binary32 arithmetic | payloads of NaNs |
| `Geometry/LoopModel.v`, `MeshModel.v` | `geometry/src/loop3d.rs`, `polygon3d.rs`, `triangulation3d.rs` | `bite`, `intersection` |
| `Geometry/SplitModel.v` | `geometry/src/loop3d.rs:1014-1049`, `1308-1421` | machine arithmetic |
| `Rendering/BvhModel.v` | `rendering/src/bvh.rs`, `triangle/fallback.rs`, accelerator part of `scene.rs` | SIMD variants |
| `Rendering/DaylightModel.v` | `rendering/src/daylight_coefficients.rs:57-229`, `colour_matrix.rs:29-46` | rounding; the materials, the scene and the random numbers are parameters |
| `Rendering/MaterialModel.v` | `rendering/src/material/*` | rounding, NaN; random numbers are a parameter |
| `Rendering/SceneModel.v` | `rendering/src/from_simple_model.rs`, `scene.rs:70-104, 243-357` | names are compared as they are; triangulation as in `MeshModel`; visible light up to the panic |
| `Rendering/RayTracerModel.v` | `rendering/src/ray_tracer.rs`, `camera/`, `primitive.rs`, `primitive_samplers.rs`, `scene.rs:105-119`, `geometry/src/distant_source3d.rs` | lights are triangles, spheres and distant sources, and cylinders where the program panics; the random numbers and the loops' turns are parameters; textures are off |
| `Geometry/RoundErrorModel.v` | `geometry/src/round_error.rs` | nothing: the floats are the binary64 numbers of IEEE 754 as formalised in Flocq, with their bits; the feature `float` (binary32) is not modelled |
| `Geometry/ShapesModel.v` | `geometry/src/sphere3d.rs`, `cylinder3d.rs`, `disk3d.rs`, `plane3d.rs:48-80`, `intersection.rs:124-190` | arithmetic is exact: intervals of rounding errors are points; results that are not numbers are a value of their own; textures are off |
| `Rendering/SphereMeshModel.v` | `rendering/src/triangle/mod.rs:212-332` | exact arithmetic; the warning for parts of spheres is not printed |
| `Light/LightModel.v` | `light/src/solar_surface.rs`, `optical_info.rs`, `solar_model.rs:61-457` | rounding; the scene and the triangulation are parameters; files of optical data |
| `Rendering/ImageModel.v`, `MatrixFile.v`, `SamplersModel.v` | `rendering/src/image.rs`, `colourmap/mod.rs`, `colour_matrix.rs`, `samplers.rs` | jpeg encoding |
| `Heat/DiscretizationModel.v`, `WallModel.v`, `MarchModel.v` | `heat/src/discretization.rs`, `surface.rs` (border conditions, march of massive and massless nodes, whole march), `heat_model.rs` (time step, `iterate_surfaces`) | patches for NaN; the simulation state is given as data |
| `Heat/GasModel.v`, `ConvectionModel.v`, `GlazingModel.v`, `ZoneModel.v` | `heat/src/gas.rs`, `cavity.rs`, `convection.rs`, `glazing.rs`, `zone.rs`, `heat_model.rs:528-723` | missing values in the state |
| `Rendering/RadianceModel.v` | `rendering/src/from_radiance.rs` | numbers are real; the UTF-8 check and the parsing of numbers are parameters; texts of messages |
| `Rendering/ObjModel.v` | `rendering/src/from_obj.rs` | parsing, which is the work of the crate `obj` |
| `Geometry/OrientationModel.v` | `model/src/surface_trait.rs` (orientations) | the normal is an input |
| `Rendering/SceneSkyModel.v` | `rendering/src/scene.rs:121-206` | the decimal threshold is the cosine of three degrees |
| `Heat/DevicesModel.v` | `heat/src/heating_cooling.rs:49-124`, `heat/src/luminaire.rs:36-52`, `heat/src/heat_model.rs:379-389`, `542-556` | a device is the name of its space and the power that the state holds; texts of errors |
| `Heat/WindModel.v` | `heat/src/heat_model.rs:416-420`, `weather/src/synthetic_weather.rs`, `schedule/src/*` | arithmetic is exact; conversions to radians of the weather are rational |
| `Heat/BuildingHeatModel.v` | `heat/src/heat_model.rs:104-214, 405-465` | arithmetic is exact; powers and air streams are data, as they do not change during a step |
| `Air/AirModel.v` | `air/src/*`, `model/src/site_details.rs`, `infiltration.rs` | |


`Common/REval.v` is not a model: it decides comparisons of closed real expressions by
interval arithmetic and is used only in examples and witnesses.

Not modelled at all: the files of stored optical data in `light/`, the rest of `rendering/`: `backward_metropolis`
(which is commented out in `lib.rs`), the other solvers of massless nodes in `heat/src/surface.rs` (which nothing calls),
`communication/`, the procedural macros of `derive/` (other than the getters and setters
they generate), and the command line programs in `bin/`.

## Plan per property

| id | what is modelled, how it is proved |
|----|------------------------------------|
| C01–C05, C54 | `calendar`: dates over `Q`, month tables, `add_*`, period iterator; induction on months / steps |
| C06 | `polynomial`; induction on coefficient list |
| C07–C13 | `matrix`: row-major lists over any ring/field; loops as folds; invariants |
| C14–C15 | simulation-state header and copies; induction on push history |
| C16–C18 | control step, run loop with abstract step functions; CSV rows as strings |
| C19 | model `add_*` / `get_*` histories |
| C20–C21, C55–C57 | SPL scanner on byte lists with fuel; declaration grammar |
| C74–C79 | position of the sun, solar time, estimated and clear sky radiation, vector of the sky |
| C86–C91 | materials: directions, factors and densities of the samples in the local frame; series of inner reflections with Coquelicot |
| C92–C93 | scene of a building: induction on surfaces; tree walk and materials give a fair scene for the daylight coefficients |
| C94–C97 | heuristics: field arithmetic and an integral; paths: induction on the depth with the invariants of C92; shadow rays: geometry of the cone; cameras: axes and ratios; images: induction on blocks |
| C104–C105 | IEEE binary32/binary64 of Flocq: bits as a piecewise linear logarithm, Newton steps, a calculus of relative errors |
| C106–C108 | files of scenes: simulation of the byte scanner by a reader of words, induction on declarations; faces: induction, convex combinations |
| C109 | orientations: sectors of the unit circle, half-angle identities, the decimal constant by intervals |
| C110 | sky of a scene: the sun of the sky vector summed as in C79, against the source; series for exp and cos near the zenith |
| C111 | `target_index` finds the first space with the name (induction on the names); gains are then the powers by name, put into the closed form of C51 |
| C112–C113 | the two conversions to radians composed with the test of walls (addition theorem, bounds of sine and cosine of small angles); schedules by cases |
| C114 | the steps of surfaces (C71–C73) and of zones (C51) composed: steps are independent, sums do not depend on their order, equilibrium is an invariant |
| C115 | binary64 of Flocq: each sum and product with its rounding error, added up per row; witnesses by computation on the bits |
| C116 | the walk over the vertices gives two outlines whose vector areas add up exactly; each vertex that pushing or closing drops costs a thin triangle; for flat loops the pieces are as flat, and for convex ones both outlines turn the same way |
| C117 | the line from the middle of the first edge through the point leaves a convex loop through exactly one half-open edge (the first it meets; two edges only share a corner), and cannot meet it again from outside |
| C118 | each step of the walk pushes a corner that passed the test or a point where two edges meet, which is near both; so an invariant on the loop built so far goes through; for biting, a point of the bitten loop that is left behind is between the last meeting point and a corner |
| C119 | points that were not kept do not change the loop being built, so the points that were kept can be added again with the same result; joining holes uses the same additions, hence reading a written polygon repeats the last round; area from C31 and from what closing leaves out |
| C120 | maps are lists without repeated keys; induction over the surfaces with the sum over floors given as a relation, so that the order of surfaces cannot matter; the total grows exactly when one entry grows |
| C121 | uses the header of C14; what a header can become is an extension of its list, so an index that was right stays right; two indices that agree lead to one element, and the elements of different surfaces differ |
| C22–C23, C58 | weather look-up, interpolation, EPW field splitter |
| C24–C26 | 4x4 transforms over `R`; ring identities with `sin²+cos²=1` |
| C27–C30, C59–C63 | boxes, slab test, Möller–Trumbore, triangle measures, planes, segments, frames over `R` |
| C31–C34, C64 | closed loop, ear clipping, mesh operations, loop building: vector-area invariants |
| C35–C37 | BVH build, flatten, traversal; permutation and refinement to linear scan |
| C38–C42, C65–C67 | RGBE, image file, colour map, matrix files, samplers |
| C43 | Reinhart sky bins: exact regions, directions and solid angles |
| C44–C48 | wall discretization, K matrix, RK4 as Taylor polynomial, stability |
| C49–C50, C68 | glazing stacks: net-radiation balance, uniqueness, reciprocity |
| C51–C53, C69 | zone temperature (closed form of the ODE), TARP, infiltration, wind profile |


## Trusted base

* Coq 8.16.1 kernel (and `coqchk`, which is run on everything by `vcheck`).
* The correspondence between the Rust text and the Gallina definitions (by reading).
* The axioms below, all of Coq's standard library.  `PrimFloat.*` and `PrimInt63.*` are
  the kernel's primitive floats and integers, which `Print Assumptions` lists too.

### Axioms per theorem (`Print Assumptions`)

**No axioms** (125 theorems):

C01_date_round_trip, C01_number_round_trip, C01_out_of_range, C02_order_is_time, C02_is_earlier, C02_same_day, C02_total_order, C02_difference, C03_add_days_partial, C03_add_days_wrong, C03_add_days_refuted, C03_invalid_date_refuted, C04_add_hours_partial, C04_add_minutes_partial, C04_add_seconds_partial, C04_additive_partial, C04_add_hours_refuted, C04_negative_hours_refuted, C05_period_steps, C05_period_new_year_partial, C05_period_endless_refuted, C54_interpolate, C97_places, C111_made, C111_first, C65_pixels, C87_light, C41_matrix, C41_accepted, C41_extra_rows, C41_components, C41_missing_rows_refuted, C41_colours, C41_colours_refuted, C07_constructors, C07_cells, C08_elements, C08_identity, C08_prod_assoc, C08_distributes, C08_empty_product_refuted, C08_add_into_size_refuted, C09_banded_product, C10_gaussian_partial, C12_cells, C12_new_size, C12_new_ignores_value, C12_new_fill_refuted, C12_column_product, C12_small_product_panics, C12_product_refuted, C12_gaussian_partial, C13_concat_rows, C13_concat_assoc, C94_uniform, C20_terminates_partial, C20_terminates_closed, C20_terminates_refuted, C21_tokens, C21_blanks_irrelevant, C21_comment_inside_object_refuted, C21_brace_in_string_refuted, C55_order_of_kinds, C56_unknown_kind_refuted, C56_known_kinds, C57_lines, C93_named, C120_setpoints, C120_setpoints_names, C14_slots_stable, C14_slots_distinct, C14_rejected_unchanged, C14_duplicates_refuted, C14_failed_push_recorded_refuted, C14_objects_own_their_slots, C14_failed_fenestration_refuted, C15_three_kinds, C15_copies, C15_all_copies_equal, C15_both_copies_refuted, C16_occupants, C16_heater_decision, C16_script_assignment, C16_script_writes_physical_refuted, C17_same_number_of_fields, C17_columns, C17_unknown_outputs_refuted, C17_dropped_output_refuted, C17_comma_in_name_refuted, C17_request_matches, C17_request_with_quotes_refuted, C18_fold, C18_compose, C18_prefix, C18_longer_period, C19_lookups_stable, C19_holes, C19_found, C19_surface_references, C19_duplicates_refuted, C22_exact, C22_between, C22_before_first, C22_after_last_refuted, C22_empty_refuted, C22_single_record_refuted, C23_fields, C23_leading_separator_refuted, C23_records_partial, C23_truncated, C23_wind_direction_refuted, C23_wind_direction_lost, C23_bad_number_refuted, C58_epw_dates, C58_epw_order, C58_columns, C113_values, C113_constant, C121_new, C121_distinct, C121_again, C121_succeeds, C121_thermal_refuted, C121_file_refuted, C121_second_refuted

**`ClassicalDedekindReals.sig_forall_dec`** (7 theorems):

C53_march_start, C97_image, C111_gains, C65_new, C65_column_refuted, C85_new, C85_fine_sky_refuted

**`ClassicalDedekindReals.sig_forall_dec`, `FunctionalExtensionality.functional_extensionality_dep`** (108 theorems):

C53_coefficients, C53_storeys_and_shelter, C53_no_storeys_refuted, C53_reference_tables, C35_permutation, C35_rebuild, C36_nearest, C36_brute_force, C36_cast_ray, C36_coincident_refuted, C36_stack_refuted, C36_grazing_refuted, C37_obstructed_partial, C37_sound, C37_masked_refuted, C97_both_ways, C80_average, C111_conserved, C111_namesake, C44_mass, C44_any_subdivision, C44_nodes, C44_accepted, C44_resistance, C45_chunks, C48_nodes, C24_translate, C24_scale, C27_point_inside, C27_union, C27_union_least, C27_union_point, C27_new, C27_intersection, C27_overlaps, C27_measures, C28_no_lost_hit, C28_no_false_hit, C49_fluxes_unique, C49_net_radiation, C49_energy_conserved, C49_construction, C49_default_absorbtance_refuted, C49_laminated_refuted, C49_rounding_exact, C50_back_system, C50_mirrored_partial, C50_mirrored_refuted, C50_absorbed_from_back_refuted, C50_reciprocity, C68_front, C68_back, C39_no_panic, C39_count_refuted, C40_map, C40_continuous, C40_nodes, C66_symmetric, C66_diff, C66_self, C67_linear, C81_sampler, C81_matrix, C64_vector_area, C64_reverse, C73_absorbed_partial, C73_absorbed_refuted, C88_reflectance, C91_bound, C10_no_pivoting_refuted, C10_small_numbers_refuted, C10_gaussian_real_partial, C10_tiny_entries_refuted, C11_residual, C11_exact_solution_accepted, C108_area, C108_covers, C06_push_eval, C06_push_adds_term, C06_macro, C76_classes_share, C76_entries_never_read, C94_weights, C94_power, C94_choice, C94_roulette, C94_complementary, C94_complementary_refuted, C98_neg_partial, C120_sizes, C120_known, C120_order, C120_names_refuted, C77_diffuse_fraction, C29_sound, C29_complete, C29_small_triangle_refuted, C29_geometry_partial, C29_geometry_refuted, C29_bounds, C60_touch_sound_partial, C60_touch_complete, C60_touch_refuted, C46_rearranged, C47_taylor, C47_equilibrium, C47_single_node_refuted, C51_balance

**`ClassicalDedekindReals.sig_forall_dec`, `ClassicalDedekindReals.sig_not_dec`, `FunctionalExtensionality.functional_extensionality_dep`** (143 theorems):

C35_pushed_scenes, C97_axes, C97_ray, C97_pixel_partial, C97_pixel_refuted, C97_portrait_refuted, C97_behind_refuted, C118_intersection, C118_bite, C118_convex, C118_cross_refuted, C118_covered_refuted, C52_windward, C52_windward_roof, C100_surface, C100_bounds, C111_warms, C111_unpowered, C111_outside_refuted, C45_massive_chunks_have_two_nodes, C48_walls, C48_least, C48_model, C48_short_steps_lose_all_mass, C48_interface_refuted, C101_made, C101_surface, C24_inverse, C24_rotate, C24_changes_hands, C25_order, C25_inverse_partial, C25_inverse_refuted, C26_normals, C26_normals_composed_refuted, C26_boxes, C117_outside, C117_inside, C117_too_near, C117_edge, C117_others, C117_first_edge_refuted, C81_points, C81_rays, C82_factors, C82_horizontal, C82_normal_only, C82_obstruction_refuted, C82_no_points_refuted, C84_bounds, C119_read, C119_again, C119_area, C119_holes, C119_holes_area, C119_twice_refuted, C119_error_refuted, C31_merge_partial, C31_vertices, C31_vector_area, C31_area, C31_triangle_refuted, C34_closed_rejects, C34_push, C34_flat, C34_close, C34_middle_refuted, C34_failed_close_refuted, C64_area, C64_flat, C87_specular, C87_rho, C87_reciprocal, C88_refraction, C91_reciprocity_refuted, C32_triangulate, C32_limit, C33_push, C33_flip, C33_split_edge, C33_split_border, C33_split_triangle, C108_scene, C108_many_refuted, C108_reflex_refuted, C109_total, C109_nearest, C109_symmetry, C109_sides, C96_drawn, C42_triangle, C42_disc, C42_cosine_hemisphere, C42_uniform_hemisphere, C42_tilted_hemisphere, C42_sphere, C42_tilted_disc, C42_triangle_uniform, C42_disc_uniform, C42_hemisphere_uniform, C92_rays, C93_scene, C93_triangle, C93_transmissivity, C93_visible_refuted, C93_back_refuted, C93_count, C93_once_refuted, C43_bins, C43_missing_bin_refuted, C102_mesh, C102_outward, C102_closed, C102_around, C102_near, C102_invisible, C102_tiny, C116_pieces, C116_vector_area, C116_not_lost, C116_area, C116_area_partial, C116_slice, C116_notch_refuted, C116_edge_to_edge_refuted, C75_longitude, C77_extraterrestrial, C30_area, C30_triangle, C30_no_panic, C30_circumcentre, C59_test_point, C61_plane, C62_frame, C62_handedness_refuted, C63_shift_refuted, C47_exact_solution, C112_convention, C112_degrees, C51_at_once, C51_energy, C51_isolated_keeps, C51_heat_shows_refuted

**`ClassicalDedekindReals.sig_forall_dec`, `ClassicalDedekindReals.sig_not_dec`, `Classical_Prop.classic`, `FunctionalExtensionality.functional_extensionality_dep`** (253 theorems):

C53_documented_flow, C53_nonnegative, C53_proportional, C53_zero_design, C53_monotone, C53_march, C69_formula, C69_ground, C69_positive, C69_increases, C69_station, C69_documented_formula_refuted, C114_own_step, C114_order, C114_kept, C114_reported, C114_zone_bounds, C114_weather, C114_equilibrium, C114_ground_refuted, C70_at_least_still_gas, C70_turned_around, C70_radiation, C70_more_buoyancy_more_heat, C70_between, C70_heated_from_above_refuted, C70_panic_refuted, C52_natural_defined, C52_exterior_defined, C52_exterior_formula, C52_stronger_wind, C52_vertical_formula, C52_formulas_exchanged, C52_warm_floor_weaker, C52_documented_formula_refuted, C52_next_factor, C52_very_smooth_panics, C52_every_documented_index_refuted, C52_very_rough_refuted, C100_hit, C100_miss, C100_tangent, C100_parallel_refuted, C100_area, C100_info, C100_upright, C100_world_refuted, C100_moved_refuted, C80_coefficients, C80_energy, C101_hit, C101_miss, C101_answers, C101_area, C101_info, C101_derivatives_refuted, C101_centre_refuted, C101_grazing_refuted, C38_rgbe, C38_stable, C38_overflow_refuted, C39_round_trip, C39_close, C67_log_refuted, C103_drawn, C103_nearest, C103_density, C103_cone, C103_shadow, C103_lit, C103_below, C103_share, C103_spread_refuted, C103_inside, C103_unshaded, C103_cylinder, C103_lost, C103_matte_refuted, C81_energy, C83_infrared, C83_room, C83_outdoor, C83_derived, C83_cover_refuted, C84_day, C84_night, C84_settles, C84_lag_refuted, C85_march, C85_no_walls_refuted, C85_stale_data_refuted, C104_close, C104_unit, C104_perpendicular, C104_huge_refuted, C105_area_refuted, C105_area, C105_accepted, C105_normal, C105_radius, C105_radius_quick, C71_balanced_temperatures, C71_ends_partial, C71_closer_partial, C71_converges_partial, C71_never_worse_partial, C71_steady_kept, C71_steady_exists_partial, C71_pane_moves_away, C71_reaches_steady_refuted, C72_own_side, C72_turned_outdoors_partial, C72_turned_partition_partial, C72_turned_slab_refuted, C72_both_or_neither, C72_ambient_back_refuted, C72_reported_flows, C72_adiabatic_mirror, C72_leeward_refuted, C72_adiabatic_refuted, C73_equilibrium, C86_sides, C87_diffuse, C87_mirror, C89_dielectric, C89_through, C89_gain_refuted, C89_index_refuted, C90_glass, C90_average, C90_gray, C90_coloured_refuted, C91_ward, C91_matte, C91_spread_refuted, C91_panic_refuted, C91_endless_refuted, C91_gain_refuted, C91_density_refuted, C78_size, C78_night, C78_parts, C78_update_adds, C78_ground, C78_diffuse_partial, C78_update_refuted, C78_diffuse_refuted, C79_sun, C106_ends, C106_layout, C107_scene, C107_redefined_refuted, C107_comment_refuted, C76_fill, C76_numbers_partial, C76_numbers_refuted, C76_direct_above_global_refuted, C95_sky, C95_mean, C95_building, C96_cone, C96_total, C96_sun, C96_seen, C96_endless, C96_endless_refuted, C98_up, C98_down, C98_down_zero_refuted, C98_add, C98_mul, C98_div, C98_sqrt, C98_point, C98_value, C98_value_refuted, C98_midpoint_partial, C98_midpoint_refuted, C98_sub_partial, C98_with_float, C98_scale_partial, C98_sub_refuted, C98_neg_refuted, C98_scale_refuted, C98_div_refuted, C98_mul_assign_refuted, C98_roots_refuted, C98_add_tight, C98_sqrt_tight, C98_mul_tight, C98_div_tight, C98_mul_assign_partial, C98_div_assign_partial, C92_passive, C92_energy, C92_building, C92_clear_refuted, C93_opaque, C93_pane, C93_layers_refuted, C110_sun, C110_agrees, C110_night_refuted, C110_zenith_refuted, C99_hit, C99_miss, C99_tangent, C99_area, C99_surface, C99_info, C99_bounds, C99_whole, C99_pole_refuted, C99_tiny_refuted, C43_in_range, C43_ground_and_cap, C43_patch, C43_round_trip, C43_solid_angles, C102_part_refuted, C102_scaled_refuted, C74_sun_direction, C74_unit, C74_new_year_refuted, C75_there_and_back, C75_clocks_run_forwards, C77_clear_sky, C115_point_partial, C115_vector, C115_small, C115_propagate_point_partial, C115_propagate_vector, C115_translation_refuted, C115_point_refuted, C46_symmetric, C46_node_balance, C46_conservation, C46_equilibrium, C46_wall_balance, C46_energy, C47_march_equilibrium, C47_local_error, C112_always_north, C112_south_refuted, C112_file, C112_half, C51_between, C51_monotone, C51_solution, C51_mean, C51_heat_shows, C51_maximum_principle, C51_isolated_exact

**`PrimFloat.add`, `PrimFloat.div`, `PrimFloat.eqb`, `PrimFloat.float`, `PrimFloat.mul`, `PrimFloat.opp`, `PrimFloat.sub`** (1 theorems):

C09_dirty_destination_refuted

**`PrimFloat.add`, `PrimFloat.div`, `PrimFloat.float`, `PrimFloat.leb`, `PrimFloat.ltb`, `PrimFloat.mul`, `PrimFloat.sub`** (2 theorems):

C28_zero_direction_refuted, C49_rounding_refuted

**`PrimFloat.add`, `PrimFloat.div`, `PrimFloat.float`, `PrimFloat.leb`, `PrimFloat.ltb`, `PrimFloat.mul`, `PrimFloat.of_uint63`, `PrimFloat.sub`, `PrimInt63.int`, `PrimInt63.lor`, `PrimInt63.lsl`, `PrimInt63.sub`** (1 theorems):

C40_rounding_refuted
