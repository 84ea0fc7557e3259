{
 "claims": [
  {
   "property": "C01",
   "status": "proved",
   "theorems": [
    "C01_date_round_trip",
    "C01_number_round_trip",
    "C01_out_of_range"
   ],
   "note": "Dates and numbers of hours round-trip for all valid dates and all hours of the year."
  },
  {
   "property": "C02",
   "status": "proved",
   "theorems": [
    "C02_order_is_time",
    "C02_is_earlier",
    "C02_same_day",
    "C02_total_order",
    "C02_difference"
   ],
   "note": "The order is the order of time for all valid dates."
  },
  {
   "property": "C03",
   "status": "partial",
   "theorems": [
    "C03_add_days_partial",
    "C03_add_days_wrong",
    "C03_add_days_refuted",
    "C03_invalid_date_refuted"
   ],
   "note": "Holds for shifts that stay within the 8-bit arithmetic (_partial); beyond it the result is off by exactly 256 days (C03_add_days_wrong), so the general statement is refuted."
  },
  {
   "property": "C04",
   "status": "partial",
   "theorems": [
    "C04_add_hours_partial",
    "C04_add_minutes_partial",
    "C04_add_seconds_partial",
    "C04_additive_partial",
    "C04_add_hours_refuted",
    "C04_negative_hours_refuted"
   ],
   "note": "Hours, minutes and seconds add up for non-negative shifts in range; refuted for larger or negative shifts."
  },
  {
   "property": "C05",
   "status": "partial",
   "theorems": [
    "C05_period_steps",
    "C05_period_new_year_partial",
    "C05_period_endless_refuted"
   ],
   "note": "Steps of a period proved for ranges that do not wrap the year; crossing new year is refuted (endless)."
  },
  {
   "property": "C06",
   "status": "proved",
   "theorems": [
    "C06_push_eval",
    "C06_push_adds_term",
    "C06_macro"
   ],
   "note": "Exact real arithmetic; any list of up to 12 coefficients, any point."
  },
  {
   "property": "C07",
   "status": "proved",
   "theorems": [
    "C07_constructors",
    "C07_cells"
   ],
   "note": "Any element type, any sizes."
  },
  {
   "property": "C08",
   "status": "partial",
   "theorems": [
    "C08_elements",
    "C08_identity",
    "C08_prod_assoc",
    "C08_distributes",
    "C08_empty_product_refuted",
    "C08_add_into_size_refuted"
   ],
   "note": "Element formulas, neutral identity, associativity and distributivity for any ring and sizes with at least one column; with zero columns the product panics (refuted), and add_into does not check the destination (refuted)."
  },
  {
   "property": "C09",
   "status": "partial",
   "theorems": [
    "C09_banded_product",
    "C09_dirty_destination_refuted"
   ],
   "note": "Banded product equals the plain product over any ring; with IEEE floats an infinite old destination value poisons the result (refuted on primitive floats)."
  },
  {
   "property": "C10",
   "status": "partial",
   "theorems": [
    "C10_gaussian_partial",
    "C10_no_pivoting_refuted",
    "C10_small_numbers_refuted",
    "C10_gaussian_real_partial",
    "C10_tiny_entries_refuted"
   ],
   "note": "Success implies the answer is the unique solution, over any field with threshold 0; entries between 0 and 1e-26 are not covered. Invertible systems may be refused (two refutations)."
  },
  {
   "property": "C11",
   "status": "proved",
   "theorems": [
    "C11_residual",
    "C11_exact_solution_accepted"
   ],
   "note": "Residual bound on success; an exact solution is a fixed point. Exact real arithmetic."
  },
  {
   "property": "C12",
   "status": "partial",
   "theorems": [
    "C12_cells",
    "C12_new_size",
    "C12_new_ignores_value",
    "C12_new_fill_refuted",
    "C12_column_product",
    "C12_small_product_panics",
    "C12_product_refuted",
    "C12_gaussian_partial"
   ],
   "note": "Cells independent for all sizes; product exact when the matrix is at least as wide as the band, panics otherwise (refuted); the constructor ignores the fill value (refuted); solver as in C10."
  },
  {
   "property": "C13",
   "status": "proved",
   "theorems": [
    "C13_concat_rows",
    "C13_concat_assoc"
   ],
   "note": "All sizes and element types."
  },
  {
   "property": "C14",
   "status": "partial",
   "theorems": [
    "C14_slots_stable",
    "C14_slots_distinct",
    "C14_rejected_unchanged",
    "C14_duplicates_refuted",
    "C14_failed_push_recorded_refuted",
    "C14_objects_own_their_slots",
    "C14_failed_fenestration_refuted"
   ],
   "note": "Own, stable, ordered slots: proved for every history of registrations. 'Twice is an error' is false of the code: refuted, also through a failed add_fenestration; objects of a building always point to their own quantity."
  },
  {
   "property": "C15",
   "status": "partial",
   "theorems": [
    "C15_three_kinds",
    "C15_copies",
    "C15_all_copies_equal",
    "C15_both_copies_refuted"
   ],
   "note": "Each copy changes exactly its kind, for every reachable header. There are three kinds, so operational+physical copies give equal states only without personal elements (refuted otherwise, all three copies proved equal)."
  },
  {
   "property": "C16",
   "status": "partial",
   "theorems": [
    "C16_occupants",
    "C16_heater_decision",
    "C16_script_assignment",
    "C16_script_writes_physical_refuted"
   ],
   "note": "Built-in behaviour: proved to change HVAC consumption only. Scripts: an assignment changes one slot, but physical slots are writable with research mode off (refuted)."
  },
  {
   "property": "C17",
   "status": "partial",
   "theorems": [
    "C17_same_number_of_fields",
    "C17_columns",
    "C17_unknown_outputs_refuted",
    "C17_dropped_output_refuted",
    "C17_comma_in_name_refuted",
    "C17_request_matches",
    "C17_request_with_quotes_refuted"
   ],
   "note": "Same number of fields in header and rows always (names without commas); values under their names when all requested outputs exist; refuted for unknown outputs, names with commas or quotes."
  },
  {
   "property": "C18",
   "status": "proved",
   "theorems": [
    "C18_fold",
    "C18_compose",
    "C18_prefix",
    "C18_longer_period"
   ],
   "note": "Run loop equals the sequence of steps; splitting, prefix (also with failures), and dates of a longer period extend those of a shorter one (period within a year)."
  },
  {
   "property": "C19",
   "status": "partial",
   "theorems": [
    "C19_lookups_stable",
    "C19_holes",
    "C19_found",
    "C19_surface_references",
    "C19_duplicates_refuted"
   ],
   "note": "Found after adding when the name is new, and stable under any later history; refuted for repeated names (accepted with a warning, never found)."
  },
  {
   "property": "C20",
   "status": "partial",
   "theorems": [
    "C20_terminates_partial",
    "C20_terminates_closed",
    "C20_terminates_refuted"
   ],
   "note": "Every file is either scanned within 9*length+2 loop iterations or never; files without slashes ending in a delimiter are always scanned; refuted for a file that ends after an identifier (usize wrap-around after 2^64 iterations is not modelled)."
  },
  {
   "property": "C21",
   "status": "partial",
   "theorems": [
    "C21_tokens",
    "C21_blanks_irrelevant",
    "C21_comment_inside_object_refuted",
    "C21_brace_in_string_refuted"
   ],
   "note": "For all files following the declaration grammar (matched delimiters, counting those in strings and comments inside objects). Refuted inside objects: a brace in a comment or a quoted string changes the split."
  },
  {
   "property": "C22",
   "status": "partial",
   "theorems": [
    "C22_exact",
    "C22_between",
    "C22_before_first",
    "C22_after_last_refuted",
    "C22_empty_refuted",
    "C22_single_record_refuted"
   ],
   "note": "Between the first and last record and before the first one (wrap-around) the look-up mixes the neighbouring records linearly and convexly, and at record times returns the record (times as exact rationals). Refuted after the last record (extrapolates by a year), without records (panics) and with a single record. The contract of the standard library's binary search is the hypothesis search_contract."
  },
  {
   "property": "C23",
   "status": "partial",
   "theorems": [
    "C23_fields",
    "C23_leading_separator_refuted",
    "C23_records_partial",
    "C23_truncated",
    "C23_wind_direction_refuted",
    "C23_wind_direction_lost",
    "C23_bad_number_refuted"
   ],
   "note": "All fields of any file in order (quoted fields, LF/CRLF, empty fields); records of 35 fields give their numbers; truncated data is never accepted. Text-to-number conversion is an arbitrary function. Refuted: wind direction, leading separator, bad numbers (panic instead of error)."
  },
  {
   "property": "C24",
   "status": "proved",
   "theorems": [
    "C24_inverse",
    "C24_translate",
    "C24_scale",
    "C24_rotate",
    "C24_changes_hands"
   ],
   "note": "Exact arithmetic over the reals; also what each transform does (C24_translate, C24_scale, C24_rotate, C24_changes_hands)."
  },
  {
   "property": "C25",
   "status": "partial",
   "theorems": [
    "C25_order",
    "C25_inverse_partial",
    "C25_inverse_refuted"
   ],
   "note": "Proved for commuting transforms and the order of application for all; refuted in general (inverses multiplied in the wrong order)."
  },
  {
   "property": "C26",
   "status": "partial",
   "theorems": [
    "C26_normals",
    "C26_normals_composed_refuted",
    "C26_boxes"
   ],
   "note": "Elementary transforms for normals, every composition for boxes; normals refuted for composed transforms."
  },
  {
   "property": "C27",
   "status": "proved",
   "theorems": [
    "C27_point_inside",
    "C27_union",
    "C27_union_least",
    "C27_union_point",
    "C27_new",
    "C27_intersection",
    "C27_overlaps",
    "C27_measures"
   ],
   "note": "Exact arithmetic; least upper bounds for boxes with corners in order."
  },
  {
   "property": "C28",
   "status": "partial",
   "theorems": [
    "C28_no_lost_hit",
    "C28_no_false_hit",
    "C28_zero_direction_refuted"
   ],
   "note": "Exact arithmetic, direction components non-zero as stated; refuted on IEEE doubles for a zero component with the origin on a side."
  },
  {
   "property": "C29",
   "status": "partial",
   "theorems": [
    "C29_sound",
    "C29_complete",
    "C29_small_triangle_refuted",
    "C29_geometry_partial",
    "C29_geometry_refuted",
    "C29_bounds"
   ],
   "note": "renderer's test: sound up to machine epsilon in the weights and complete when twice the area times the cosine is at least 1e-5; small triangles refuted; geometry's test only keeps the point in the parallelogram (refuted for the triangle). Exact arithmetic."
  },
  {
   "property": "C30",
   "status": "proved",
   "theorems": [
    "C30_area",
    "C30_triangle",
    "C30_no_panic",
    "C30_circumcentre"
   ],
   "note": "exact arithmetic"
  },
  {
   "property": "C31",
   "status": "partial",
   "theorems": [
    "C31_merge_partial",
    "C31_vertices",
    "C31_vector_area",
    "C31_area",
    "C31_triangle_refuted"
   ],
   "note": "for holes whose vertices are told apart from those of other loops; holes wound like the outline need a vertex count dividing 2^64 (refuted for triangles: C31_triangle_refuted)"
  },
  {
   "property": "C32",
   "status": "proved",
   "theorems": [
    "C32_triangulate",
    "C32_limit"
   ],
   "note": "also proved: outlines with more than 221 vertices are never triangulated (C32_limit)"
  },
  {
   "property": "C33",
   "status": "proved",
   "theorems": [
    "C33_push",
    "C33_flip",
    "C33_split_edge",
    "C33_split_border",
    "C33_split_triangle"
   ],
   "note": "for triangles glued to their neighbours along an exact common edge; push, flip, split_edge (inner and border) and split_triangle"
  },
  {
   "property": "C34",
   "status": "partial",
   "theorems": [
    "C34_closed_rejects",
    "C34_push",
    "C34_flat",
    "C34_close",
    "C34_middle_refuted",
    "C34_failed_close_refuted"
   ],
   "note": "C34_middle_refuted: the vertex dropped need not be in the middle of the straight run; C34_failed_close_refuted: a failed close can leave the loop marked closed"
  },
  {
   "property": "C35",
   "status": "proved",
   "theorems": [
    "C35_permutation",
    "C35_pushed_scenes",
    "C35_rebuild"
   ],
   "note": "For every outcome of the library's unstable sorts: building succeeds, the mapping is a permutation of 0..n-1 and triangles, normals and both material lists are rearranged by it together. Exact arithmetic."
  },
  {
   "property": "C36",
   "status": "partial",
   "theorems": [
    "C36_nearest",
    "C36_brute_force",
    "C36_cast_ray",
    "C36_coincident_refuted",
    "C36_stack_refuted",
    "C36_grazing_refuted"
   ],
   "note": "Nearest of all triangles (and the same point as a scan of them) for rays without a zero direction component, fewer than 2^15 triangles on top of one another, and a large enough stack; exact arithmetic. Refuted: 32768 coincident triangles (16-bit count) and 57 triangles at growing distances (stack of 32) panic; a ray within machine epsilon of an edge is found by the scan only."
  },
  {
   "property": "C37",
   "status": "partial",
   "theorems": [
    "C37_obstructed_partial",
    "C37_sound",
    "C37_masked_refuted"
   ],
   "note": "Agrees with the scan when no triangle is hit at a squared distance between 1e-7 and 1e-6 (same conditions as C36); refuted otherwise: such a hit hides an obstruction in the same leaf."
  },
  {
   "property": "C38",
   "status": "proved",
   "theorems": [
    "C38_rgbe",
    "C38_stable",
    "C38_overflow_refuted"
   ],
   "note": "Exact arithmetic, brightest channel below 2^127 (colours below 1e-19 become black); re-encoding a decoded colour is stable. From 2^127 on the exponent byte wraps and the colour comes back black (refuted witness)."
  },
  {
   "property": "C39",
   "status": "partial",
   "theorems": [
    "C39_round_trip",
    "C39_close",
    "C39_no_panic",
    "C39_count_refuted"
   ],
   "note": "Size and pixels come back for all images and UTF-8 checks that accept ASCII; loading never panics. Refuted: a file with too few pixels is accepted."
  },
  {
   "property": "C40",
   "status": "partial",
   "theorems": [
    "C40_map",
    "C40_continuous",
    "C40_nodes",
    "C40_rounding_refuted"
   ],
   "note": "Proved over exact arithmetic for maps of at least two colours (all the maps of the library have 256). Refuted in double precision: rounding makes the last bin end below the maximum and unreachable!() is reached."
  },
  {
   "property": "C41",
   "status": "partial",
   "theorems": [
    "C41_matrix",
    "C41_accepted",
    "C41_extra_rows",
    "C41_components",
    "C41_missing_rows_refuted",
    "C41_colours",
    "C41_colours_refuted"
   ],
   "note": "Proved: a written matrix of numbers is read back exactly (given that Rust prints a float so that it parses back to itself); which files are accepted; a colour matrix comes back within 5e-6 per channel. Refuted: rows missing from a file are silently filled with zeros; two different colour matrices may be written as the same file."
  },
  {
   "property": "C42",
   "status": "proved",
   "theorems": [
    "C42_triangle",
    "C42_disc",
    "C42_cosine_hemisphere",
    "C42_uniform_hemisphere",
    "C42_tilted_hemisphere",
    "C42_sphere",
    "C42_tilted_disc",
    "C42_triangle_uniform",
    "C42_disc_uniform",
    "C42_hemisphere_uniform"
   ],
   "note": "Positions of all samplers, plus evenness (constant area factor) for triangles, discs and hemispheres. Exact real arithmetic."
  },
  {
   "property": "C43",
   "status": "proved",
   "theorems": [
    "C43_bins",
    "C43_in_range",
    "C43_ground_and_cap",
    "C43_patch",
    "C43_round_trip",
    "C43_solid_angles",
    "C43_missing_bin_refuted"
   ],
   "note": "Number of bins, every direction in range, exact region of each bin, its announced direction and solid angle, round trip, total 4 pi. Refuted: the bin number right after the last one is answered instead of rejected. Exact arithmetic (f32 quotient in bins_in_row taken exactly)."
  },
  {
   "property": "C44",
   "status": "proved",
   "theorems": [
    "C44_mass",
    "C44_any_subdivision",
    "C44_nodes",
    "C44_accepted",
    "C44_resistance"
   ],
   "note": "C44_mass, C44_any_subdivision, C44_nodes, C44_accepted, C44_resistance"
  },
  {
   "property": "C45",
   "status": "proved",
   "theorems": [
    "C45_chunks",
    "C45_massive_chunks_have_two_nodes"
   ],
   "note": "C45_chunks for every list of nodes; C45_massive_chunks_have_two_nodes for walls discretized by the program"
  },
  {
   "property": "C46",
   "status": "proved",
   "theorems": [
    "C46_symmetric",
    "C46_node_balance",
    "C46_conservation",
    "C46_equilibrium",
    "C46_wall_balance",
    "C46_rearranged",
    "C46_energy"
   ],
   "note": "For any chunk of any wall (resolved cavities included): matrix symmetric, each node's right-hand side is the heat from its neighbours, sums telescope to the heat through the ends, equal temperatures without radiation are an equilibrium. has_u excludes only segments whose resistance cannot be computed. Reals instead of floats."
  },
  {
   "property": "C47",
   "status": "partial",
   "theorems": [
    "C47_taylor",
    "C47_equilibrium",
    "C47_march_equilibrium",
    "C47_exact_solution",
    "C47_local_error",
    "C47_single_node_refuted"
   ],
   "note": "Proved for every linear system with two or more nodes: the step is the degree-4 Taylor polynomial of the exact solution (C47_exact_solution, with a fifth-order error bound) and equilibria are kept, also by march_mass as a whole. Refuted for systems of one node, for which the matrix product panics; C45 shows massive chunks of walls have at least two nodes."
  },
  {
   "property": "C48",
   "status": "proved",
   "theorems": [
    "C48_walls",
    "C48_least",
    "C48_model",
    "C48_nodes",
    "C48_short_steps_lose_all_mass",
    "C48_interface_refuted"
   ],
   "note": "C48_walls, C48_least, C48_model, C48_nodes; C48_short_steps_lose_all_mass and C48_interface_refuted record what the per-layer criterion does not give"
  },
  {
   "property": "C49",
   "status": "partial",
   "theorems": [
    "C49_fluxes_unique",
    "C49_net_radiation",
    "C49_energy_conserved",
    "C49_construction",
    "C49_default_absorbtance_refuted",
    "C49_laminated_refuted",
    "C49_rounding_refuted",
    "C49_rounding_exact"
   ],
   "note": "Proved for every stack of physical layers (all but the last transmitting): the code computes the unique solution of the net radiation balance, shares are in [0,1] and add up to one; the stacks built from constructions of panes separated by gases are such stacks. Refuted for constructions whose optics panic: transmittance given without absorbtance, laminated panes, and (on IEEE doubles) panes that reflect nothing, by rounding."
  },
  {
   "property": "C50",
   "status": "partial",
   "theorems": [
    "C50_back_system",
    "C50_mirrored_partial",
    "C50_mirrored_refuted",
    "C50_absorbed_from_back_refuted",
    "C50_reciprocity"
   ],
   "note": "Proved: the back system has the layers in the opposite order; it is the mirrored system when both faces of every pane are alike, and mirrored systems have the same transmittance (reciprocity). Refuted for panes with different faces: the front face is used for radiation from the back."
  },
  {
   "property": "C51",
   "status": "partial",
   "theorems": [
    "C51_balance",
    "C51_at_once",
    "C51_between",
    "C51_monotone",
    "C51_solution",
    "C51_mean",
    "C51_energy",
    "C51_heat_shows",
    "C51_maximum_principle",
    "C51_isolated_keeps",
    "C51_heat_shows_refuted",
    "C51_isolated_exact"
   ],
   "note": "The step solves the balance of the zone exactly for every zone that exchanges heat with something: it stays between the start and the equilibrium, conserves energy, and never leaves the range of its surroundings. Refuted for a perfectly isolated zone, whose heat input is ignored (C51_heat_shows_refuted)."
  },
  {
   "property": "C52",
   "status": "partial",
   "theorems": [
    "C52_natural_defined",
    "C52_exterior_defined",
    "C52_windward",
    "C52_windward_roof",
    "C52_exterior_formula",
    "C52_stronger_wind",
    "C52_vertical_formula",
    "C52_formulas_exchanged",
    "C52_warm_floor_weaker",
    "C52_documented_formula_refuted",
    "C52_next_factor",
    "C52_very_smooth_panics",
    "C52_every_documented_index_refuted",
    "C52_very_rough_refuted"
   ],
   "note": "Proved: defined and at least the minimum for every input with roughness index below 6; documented formulas for vertical surfaces and for the wind. Refuted: index 6 panics, indices 1 to 5 use the factor of the next row, and the formulas for the two signs of the temperature difference are exchanged with respect to the documentation."
  },
  {
   "property": "C53",
   "status": "partial",
   "theorems": [
    "C53_documented_flow",
    "C53_nonnegative",
    "C53_proportional",
    "C53_zero_design",
    "C53_monotone",
    "C53_coefficients",
    "C53_storeys_and_shelter",
    "C53_no_storeys_refuted",
    "C53_reference_tables",
    "C53_march",
    "C53_march_start"
   ],
   "note": "Every resolver writes the documented flow, which is not negative, proportional to the design value and monotone in wind and temperature difference; every space gets its own. Refuted detail: a building of no storeys gets the wind coefficient of three storeys (C53_no_storeys_refuted)."
  },
  {
   "property": "C54",
   "status": "proved",
   "theorems": [
    "C54_interpolate"
   ],
   "note": "Interpolated dates lie between and are proportional, for all pairs of dates."
  },
  {
   "property": "C55",
   "status": "proved",
   "theorems": [
    "C55_order_of_kinds"
   ],
   "note": "For every function that adds objects to the model."
  },
  {
   "property": "C56",
   "status": "partial",
   "theorems": [
    "C56_unknown_kind_refuted",
    "C56_known_kinds"
   ],
   "note": "Exact list of what is read is proved; reporting unknown kinds is refuted (they are dropped)."
  },
  {
   "property": "C57",
   "status": "proved",
   "theorems": [
    "C57_lines"
   ],
   "note": "For all files following the declaration grammar."
  },
  {
   "property": "C59",
   "status": "proved",
   "theorems": [
    "C59_test_point"
   ],
   "note": "exact arithmetic"
  },
  {
   "property": "C60",
   "status": "partial",
   "theorems": [
    "C60_touch_sound_partial",
    "C60_touch_complete",
    "C60_touch_refuted"
   ],
   "note": "completeness proved; soundness only for exactly coplanar segments, refuted otherwise (segments 20 cm apart reported touching). Exact arithmetic."
  },
  {
   "property": "C61",
   "status": "proved",
   "theorems": [
    "C61_plane"
   ],
   "note": "exact arithmetic"
  },
  {
   "property": "C62",
   "status": "partial",
   "theorems": [
    "C62_frame",
    "C62_handedness_refuted"
   ],
   "note": "everything but the handedness on the back side, which is refuted. Exact arithmetic."
  },
  {
   "property": "C63",
   "status": "partial",
   "theorems": [
    "C63_shift_refuted"
   ],
   "note": "The claim is false of the code and that is what is proved (C63 theorems end in _refuted): the cosine of the light sample is computed with the origin of the ray instead of its direction."
  },
  {
   "property": "C64",
   "status": "proved",
   "theorems": [
    "C64_area",
    "C64_vector_area",
    "C64_reverse",
    "C64_flat"
   ],
   "note": "translation, start vertex and reversal invariance; flat case gives the length of the vector area"
  },
  {
   "property": "C65",
   "status": "partial",
   "theorems": [
    "C65_pixels",
    "C65_new",
    "C65_column_refuted"
   ],
   "note": "Proved inside the image; refuted outside: a column beyond the width reads the next row."
  },
  {
   "property": "C66",
   "status": "proved",
   "theorems": [
    "C66_symmetric",
    "C66_diff",
    "C66_self"
   ],
   "note": "Exact arithmetic; images whose pixel count matches their size."
  },
  {
   "property": "C67",
   "status": "partial",
   "theorems": [
    "C67_linear",
    "C67_log_refuted"
   ],
   "note": "Proved for linear falsecolour; refuted for the logarithmic one (0.001 is compared with logarithms)."
  },
  {
   "property": "C68",
   "status": "proved",
   "theorems": [
    "C68_front",
    "C68_back"
   ],
   "note": "For every construction of panes separated by gases, from both sides; the number of nodes is that of the discretization (count_nodes)."
  },
  {
   "property": "C69",
   "status": "partial",
   "theorems": [
    "C69_formula",
    "C69_ground",
    "C69_positive",
    "C69_increases",
    "C69_station",
    "C69_documented_formula_refuted"
   ],
   "note": "Profile is zero at ground, positive and increasing, and one at the station. The documented 240 m layer is refuted: the code uses 270 m (C69_documented_formula_refuted)."
  },
  {
   "property": "C70",
   "status": "partial",
   "theorems": [
    "C70_at_least_still_gas",
    "C70_turned_around",
    "C70_radiation",
    "C70_more_buoyancy_more_heat",
    "C70_between",
    "C70_heated_from_above_refuted",
    "C70_panic_refuted"
   ],
   "note": "Proved: at least still gas (C70_at_least_still_gas), symmetry (C70_turned_around), radiation (C70_radiation), monotony below 59 degrees and bounds between the regimes. False of the code: a horizontal cavity heated from above is treated as heated from below (C70_heated_from_above_refuted), and a Rayleigh number of exactly 50000 panics (C70_panic_refuted)."
  },
  {
   "property": "C71",
   "status": "partial",
   "theorems": [
    "C71_balanced_temperatures",
    "C71_ends_partial",
    "C71_closer_partial",
    "C71_converges_partial",
    "C71_never_worse_partial",
    "C71_steady_kept",
    "C71_steady_exists_partial",
    "C71_pane_moves_away",
    "C71_reaches_steady_refuted"
   ],
   "note": "C71_balanced_temperatures (existence, uniqueness, what the solver returns), C71_steady_kept: for all walls, cavities included, whose conductances lie between 1e-12 and 1e12. C71_ends_partial asks for that at all temperatures. Convergence (C71_closer_partial, C71_converges_partial, C71_never_worse_partial) and the existence of the steady temperatures (C71_steady_exists_partial) are proved for solid layers if radiation at each face is less than three times convection; missing: cavities, whose conductance changes with temperature. Beyond that ratio it is false: C71_pane_moves_away and C71_reaches_steady_refuted, a pane of glass between two rooms at 20 degrees always moves away from 20 degrees."
  },
  {
   "property": "C72",
   "status": "partial",
   "theorems": [
    "C72_own_side",
    "C72_turned_outdoors_partial",
    "C72_turned_partition_partial",
    "C72_turned_slab_refuted",
    "C72_both_or_neither",
    "C72_ambient_back_refuted",
    "C72_reported_flows",
    "C72_adiabatic_mirror",
    "C72_leeward_refuted",
    "C72_adiabatic_refuted"
   ],
   "note": "C72_own_side; C72_turned_outdoors_partial and C72_turned_partition_partial cover surfaces outdoors at both sides if the wind does not tell them apart, and vertical partitions. False in general: C72_turned_slab_refuted (tilt of indoor faces), C72_leeward_refuted (both faces windward), C72_ambient_back_refuted (temperature of the other face), C72_adiabatic_refuted (heat crosses adiabatic backs)."
  },
  {
   "property": "C73",
   "status": "partial",
   "theorems": [
    "C73_equilibrium",
    "C73_absorbed_partial",
    "C73_absorbed_refuted"
   ],
   "note": "C73_equilibrium for every combination of boundaries the code supports, with any number of massive chunks of two or more nodes and of massless chunks with conductances between 1e-12 and 1e12. C73_absorbed_partial needs non-negative irradiance at the back: C73_absorbed_refuted."
  },
  {
   "property": "C58",
   "status": "proved",
   "theorems": [
    "C58_epw_dates",
    "C58_epw_order",
    "C58_columns"
   ],
   "note": "Hours as exact rationals."
  },
  {
   "property": "C74",
   "status": "partial",
   "theorems": [
    "C74_sun_direction",
    "C74_unit",
    "C74_new_year_refuted"
   ],
   "note": "Fails on New Year's Day before solar midnight (C74_new_year_refuted): the remainder of a negative solar time is negative and east and west are exchanged. Everywhere else proved."
  },
  {
   "property": "C75",
   "status": "proved",
   "theorems": [
    "C75_there_and_back",
    "C75_clocks_run_forwards",
    "C75_longitude"
   ],
   "note": "Over the reals."
  },
  {
   "property": "C76",
   "status": "partial",
   "theorems": [
    "C76_fill",
    "C76_numbers_partial",
    "C76_numbers_refuted",
    "C76_direct_above_global_refuted",
    "C76_classes_share",
    "C76_entries_never_read"
   ],
   "note": "All but the last claim hold (C76_fill). The radiation may be a NaN when the estimate is exactly zero (C76_numbers_refuted), and the direct part on the ground can exceed the global radiation (C76_direct_above_global_refuted) because the last two indices of the coefficients are exchanged (C76_classes_share, C76_entries_never_read)."
  },
  {
   "property": "C77",
   "status": "proved",
   "theorems": [
    "C77_extraterrestrial",
    "C77_clear_sky",
    "C77_diffuse_fraction"
   ],
   "note": "Over the reals."
  },
  {
   "property": "C78",
   "status": "partial",
   "theorems": [
    "C78_size",
    "C78_night",
    "C78_parts",
    "C78_update_adds",
    "C78_ground",
    "C78_diffuse_partial",
    "C78_update_refuted",
    "C78_diffuse_refuted"
   ],
   "note": "C78_diffuse_partial: the conservation of the diffuse radiation holds on the coarse sky (subdivision 1) and for the patches that come out positive; negative patches count as zero in the scaling but are stored negative. C78_diffuse_refuted: under a high sun and little radiation, all patches come out negative and the diffuse radiation is lost. C78_update_refuted: updating a vector by day adds to what it held. Size, night, sum of parts and ground are proved."
  },
  {
   "property": "C79",
   "status": "proved",
   "theorems": [
    "C79_sun"
   ],
   "note": "Proved for the solar units; C79_noon is an instance."
  },
  {
   "property": "C80",
   "status": "partial",
   "theorems": [
    "C80_coefficients",
    "C80_energy",
    "C80_average"
   ],
   "note": "Materials are a parameter: the theorems hold for those that scatter into unit directions and multiply the light by at most one in each channel. Exact arithmetic."
  },
  {
   "property": "C81",
   "status": "partial",
   "theorems": [
    "C81_sampler",
    "C81_points",
    "C81_rays",
    "C81_matrix",
    "C81_energy"
   ],
   "note": "The triangles of a polygon and their areas are given (C33 describes the triangulation). Exact arithmetic, with which unreachable!() in the sampler is never reached. With no points asked for, the program stops (second part of C81_energy)."
  },
  {
   "property": "C82",
   "status": "partial",
   "theorems": [
    "C82_factors",
    "C82_horizontal",
    "C82_normal_only",
    "C82_obstruction_refuted",
    "C82_no_points_refuted"
   ],
   "note": "Proved as stated for the shares and the open sky. C82_obstruction_refuted: the program looks for obstacles along the normal only, not along the sampled direction, so what stands around counts for nothing. C82_no_points_refuted: without points the factors are not numbers."
  },
  {
   "property": "C83",
   "status": "partial",
   "theorems": [
    "C83_infrared",
    "C83_room",
    "C83_outdoor",
    "C83_derived",
    "C83_cover_refuted"
   ],
   "note": "Proved as stated. C83_cover_refuted: the formula that replaces missing data takes the sky cover in tenths, but it is kept as a fraction. C83_room: rooms exchange no infrared radiation with their surfaces."
  },
  {
   "property": "C84",
   "status": "partial",
   "theorems": [
    "C84_day",
    "C84_night",
    "C84_bounds",
    "C84_settles",
    "C84_lag_refuted"
   ],
   "note": "Proved as stated. C84_lag_refuted: the first step after night shows half of the irradiance."
  },
  {
   "property": "C85",
   "status": "partial",
   "theorems": [
    "C85_new",
    "C85_fine_sky_refuted",
    "C85_march",
    "C85_no_walls_refuted",
    "C85_stale_data_refuted"
   ],
   "note": "Proved for subdivisions from one to eight. C85_fine_sky_refuted: finer ones are refused after having been computed. C85_no_walls_refuted, C85_stale_data_refuted: models without walls and stored data of another model stop the program. Reading and writing the stored data is not modelled."
  },
  {
   "property": "C86",
   "status": "proved",
   "theorems": [
    "C86_sides"
   ],
   "note": "All materials. Glass has an index above one and a colour within [0, 1]; a dielectric is not met exactly at its critical angle."
  },
  {
   "property": "C87",
   "status": "proved",
   "theorems": [
    "C87_diffuse",
    "C87_mirror",
    "C87_light",
    "C87_specular",
    "C87_rho",
    "C87_reciprocal"
   ],
   "note": "Matte surfaces, mirrors and lamps, with the agreement of sample, eval and pdf."
  },
  {
   "property": "C88",
   "status": "proved",
   "theorems": [
    "C88_reflectance",
    "C88_refraction"
   ],
   "note": "Fresnel's reflectance and the refracted direction."
  },
  {
   "property": "C89",
   "status": "partial",
   "theorems": [
    "C89_dielectric",
    "C89_through",
    "C89_gain_refuted",
    "C89_index_refuted"
   ],
   "note": "C89_gain_refuted: leaving a dense medium multiplies the radiance by more than one (square root instead of the square of the ratio of indices, applied only in one direction). C89_index_refuted: after a reflection on the front the ray is tracked as if inside."
  },
  {
   "property": "C90",
   "status": "partial",
   "theorems": [
    "C90_glass",
    "C90_average",
    "C90_gray",
    "C90_coloured_refuted"
   ],
   "note": "C90_coloured_refuted: a coloured pane may multiply one channel by more than one because the choice is made with the mean over the channels."
  },
  {
   "property": "C91",
   "status": "partial",
   "theorems": [
    "C91_ward",
    "C91_matte",
    "C91_bound",
    "C91_spread_refuted",
    "C91_panic_refuted",
    "C91_endless_refuted",
    "C91_gain_refuted",
    "C91_reciprocity_refuted",
    "C91_density_refuted"
   ],
   "note": "C91_spread_refuted, C91_panic_refuted, C91_endless_refuted, C91_gain_refuted, C91_reciprocity_refuted, C91_density_refuted."
  },
  {
   "property": "C92",
   "status": "partial",
   "theorems": [
    "C92_passive",
    "C92_rays",
    "C92_energy",
    "C92_building",
    "C92_clear_refuted"
   ],
   "note": "Proved for buildings whose transmittances are at most 91.8% (C92_building, with C92_rays, C92_passive, C92_energy); above that the pane creates light (C92_clear_refuted). The stack of the tree walk is taken to be large enough for the number of triangles, or its overflow is the only failure (C92_rays). Random draws are parameters."
  },
  {
   "property": "C93",
   "status": "partial",
   "theorems": [
    "C93_named",
    "C93_scene",
    "C93_triangle",
    "C93_transmissivity",
    "C93_opaque",
    "C93_pane",
    "C93_visible_refuted",
    "C93_back_refuted",
    "C93_count",
    "C93_once_refuted",
    "C93_layers_refuted"
   ],
   "note": "Proved: when and what is built (C93_scene, C93_triangle, C93_count), what opaque layers and panes do (C93_opaque, C93_pane, C93_transmissivity). Refuted: the back face uses the absorptance of the front (C93_back_refuted), substances are added again (C93_once_refuted), only the outer layers count, so that concrete behind glass is transparent (C93_layers_refuted), visible light panics (C93_visible_refuted)."
  },
  {
   "property": "C94",
   "status": "partial",
   "theorems": [
    "C94_weights",
    "C94_power",
    "C94_choice",
    "C94_uniform",
    "C94_roulette",
    "C94_complementary",
    "C94_complementary_refuted"
   ],
   "note": "the weights of shadow rays and scattered rays complete each other exactly when the number of samples times the probability of the light is one; refuted otherwise (two lights, several samples)"
  },
  {
   "property": "C95",
   "status": "partial",
   "theorems": [
    "C95_sky",
    "C95_mean",
    "C95_building"
   ],
   "note": "materials are those of buildings (matte, mirrors, glass); rough specular materials are excluded; arithmetic is exact"
  },
  {
   "property": "C96",
   "status": "partial",
   "theorems": [
    "C96_cone",
    "C96_drawn",
    "C96_total",
    "C96_sun",
    "C96_seen",
    "C96_endless",
    "C96_endless_refuted"
   ],
   "note": "for distant sources; with a light made of a triangle the loop of the shadow rays never ends at points in the plane of the light (refuted)"
  },
  {
   "property": "C97",
   "status": "partial",
   "theorems": [
    "C97_axes",
    "C97_ray",
    "C97_pixel_partial",
    "C97_pixel_refuted",
    "C97_portrait_refuted",
    "C97_both_ways",
    "C97_image",
    "C97_places",
    "C97_behind_refuted"
   ],
   "note": "the way back from a ray to its pixel is right for square films only; refuted for others and for rays that leave backwards"
  },
  {
   "property": "C98",
   "status": "partial",
   "theorems": [
    "C98_up",
    "C98_down",
    "C98_down_zero_refuted",
    "C98_add",
    "C98_mul",
    "C98_div",
    "C98_sqrt",
    "C98_point",
    "C98_value",
    "C98_value_refuted",
    "C98_midpoint_partial",
    "C98_midpoint_refuted",
    "C98_sub_partial",
    "C98_with_float",
    "C98_scale_partial",
    "C98_sub_refuted",
    "C98_neg_refuted",
    "C98_neg_partial",
    "C98_scale_refuted",
    "C98_div_refuted",
    "C98_mul_assign_refuted",
    "C98_roots_refuted",
    "C98_add_tight",
    "C98_sqrt_tight",
    "C98_mul_tight",
    "C98_div_tight",
    "C98_mul_assign_partial",
    "C98_div_assign_partial"
   ],
   "note": "Proved for IEEE binary64 with Flocq: neighbours (C98_up, C98_down), enclosure by +, *, /, sqrt (C98_add, C98_mul, C98_div, C98_sqrt), operations with numbers (C98_with_float) and how tight they are (C98_add_tight, C98_sqrt_tight, C98_mul_tight, C98_div_tight). The rest of the module does not keep the claim and each failure has a witness: the number below zero is zero (C98_down_zero_refuted), subtraction subtracts low from low (C98_sub_refuted; it holds if the interval subtracted is a point, C98_sub_partial), negation gives an empty interval (C98_neg_refuted, C98_neg_partial), a product with a negative number (C98_scale_refuted, C98_scale_partial), a quotient by an interval with zero (C98_div_refuted), from_value_and_error (C98_value_refuted), the midpoint of wide intervals (C98_midpoint_refuted, C98_midpoint_partial), *= and /= after underflow (C98_mul_assign_refuted, C98_mul_assign_partial, C98_div_assign_partial) and both roots of a quadratic with exact coefficients (C98_roots_refuted). Missing: when solve_quadratic does enclose the roots."
  },
  {
   "property": "C99",
   "status": "proved",
   "theorems": [
    "C99_hit",
    "C99_miss",
    "C99_tangent",
    "C99_area",
    "C99_surface",
    "C99_info",
    "C99_bounds",
    "C99_whole",
    "C99_pole_refuted",
    "C99_tiny_refuted"
   ],
   "note": "Arithmetic is exact. C99_pole_refuted and C99_tiny_refuted show where the information panics."
  },
  {
   "property": "C100",
   "status": "proved",
   "theorems": [
    "C100_hit",
    "C100_miss",
    "C100_tangent",
    "C100_parallel_refuted",
    "C100_surface",
    "C100_area",
    "C100_info",
    "C100_bounds",
    "C100_upright",
    "C100_world_refuted",
    "C100_moved_refuted"
   ],
   "note": "Arithmetic is exact. C100_world_refuted and C100_moved_refuted: cylinders that are not upright are misplaced; C100_parallel_refuted: rays along the axis give no number."
  },
  {
   "property": "C101",
   "status": "proved",
   "theorems": [
    "C101_made",
    "C101_hit",
    "C101_miss",
    "C101_answers",
    "C101_surface",
    "C101_area",
    "C101_info",
    "C101_derivatives_refuted",
    "C101_centre_refuted",
    "C101_grazing_refuted"
   ],
   "note": "Arithmetic is exact. C101_derivatives_refuted, C101_centre_refuted and C101_grazing_refuted show what does not hold."
  },
  {
   "property": "C102",
   "status": "partial",
   "theorems": [
    "C102_mesh",
    "C102_outward",
    "C102_closed",
    "C102_around",
    "C102_near",
    "C102_invisible",
    "C102_tiny",
    "C102_part_refuted",
    "C102_scaled_refuted"
   ],
   "note": "proved in exact arithmetic for every radius from 1.3e-10 m; the claim fails for parts of spheres (C102_part_refuted) and for scaled spheres (C102_scaled_refuted), and C102_invisible shows that spheres of at most 67 mm are never hit"
  },
  {
   "property": "C103",
   "status": "partial",
   "theorems": [
    "C103_drawn",
    "C103_nearest",
    "C103_density",
    "C103_cone",
    "C103_shadow",
    "C103_lit",
    "C103_below",
    "C103_share",
    "C103_spread_refuted",
    "C103_inside",
    "C103_unshaded",
    "C103_cylinder",
    "C103_lost",
    "C103_matte_refuted"
   ],
   "note": "Proved: every direction drawn from outside meets the lamp (C103_drawn); with one sample the direction and distance are those of the nearest point (C103_nearest); the density is one over the area of the cap of directions (C103_density) and a ray meets the lamp exactly if its direction is in that cap (C103_cone); what a shadow ray finds (C103_shadow); the lamp's own mesh never hides it, for lamps and distances whose product is at most 10 000 m2 (C103_unshaded); what a matte surface shows with one sample and no bounces, up to a weight that is at least 1/(1+(solid angle/pi)^2) and at most 1, and the exact weight for Diffuse (C103_lit). False of the program: the directions are not spread as the density says, because points are drawn on the whole sphere (C103_share, C103_spread_refuted); inside of a lamp the density is twice too large (C103_inside); the weight depends on where the surface is looked at from (C103_matte_refuted), and what it takes away is never given back by paths that meet the lamp (C103_lost); straight above or below the middle of a lamp the program panics (C103_below); a luminous cylinder is accepted but every path that meets a matte surface then panics (C103_cylinder). Missing: several samples or bounces, the exact real numbers stand for f64, and the stack of the walk is taken as large as the scene."
  },
  {
   "property": "C104",
   "status": "proved",
   "theorems": [
    "C104_close",
    "C104_unit",
    "C104_perpendicular",
    "C104_huge_refuted"
   ],
   "note": "all theorems proved; C104_huge_refuted gives vectors outside the range"
  },
  {
   "property": "C105",
   "status": "proved",
   "theorems": [
    "C105_area_refuted",
    "C105_area",
    "C105_accepted",
    "C105_normal",
    "C105_radius",
    "C105_radius_quick"
   ],
   "note": "C105_area, C105_normal, C105_radius, C105_radius_quick and C105_accepted proved; C105_area_refuted gives an accepted triangle whose area is not a number"
  },
  {
   "property": "C106",
   "status": "proved",
   "theorems": [
    "C106_ends",
    "C106_layout"
   ],
   "note": "parsing of numbers and the UTF-8 check are parameters"
  },
  {
   "property": "C107",
   "status": "proved",
   "theorems": [
    "C107_scene",
    "C107_redefined_refuted",
    "C107_comment_refuted"
   ],
   "note": "C107_scene proved; C107_comment_refuted and C107_redefined_refuted show where the reader departs from the format"
  },
  {
   "property": "C108",
   "status": "proved",
   "theorems": [
    "C108_scene",
    "C108_area",
    "C108_covers",
    "C108_many_refuted",
    "C108_reflex_refuted"
   ],
   "note": "from the arrays that the crate obj hands over; C108_many_refuted: faces of more than four corners are lost; C108_reflex_refuted: halves that look in opposite directions"
  },
  {
   "property": "C109",
   "status": "proved",
   "theorems": [
    "C109_total",
    "C109_nearest",
    "C109_symmetry",
    "C109_sides"
   ],
   "note": "Exact real arithmetic; the 15-digit constant of the program is kept as it is."
  },
  {
   "property": "C110",
   "status": "partial",
   "theorems": [
    "C110_sun",
    "C110_agrees",
    "C110_night_refuted",
    "C110_zenith_refuted"
   ],
   "note": "Refuted by night (the program panics) and within three degrees of the zenith (an inverse cosine of an angle makes the sun too dim). Proved otherwise. The threshold 0.9986295347545738 is taken as the cosine of three degrees."
  },
  {
   "property": "C111",
   "status": "partial",
   "theorems": [
    "C111_made",
    "C111_first",
    "C111_gains",
    "C111_conserved",
    "C111_namesake",
    "C111_warms",
    "C111_unpowered",
    "C111_outside_refuted"
   ],
   "note": "Proved as stated; the documented freedom to leave the space of an exterior luminaire empty is refuted. The names and the powers in the state are data; arithmetic is exact."
  },
  {
   "property": "C112",
   "status": "partial",
   "theorems": [
    "C112_convention",
    "C112_degrees",
    "C112_always_north",
    "C112_south_refuted",
    "C112_file",
    "C112_half"
   ],
   "note": "The rule holds for directions in degrees; with the documented radians it is refuted, and what the program does instead is proved. Arithmetic is exact."
  },
  {
   "property": "C113",
   "status": "proved",
   "theorems": [
    "C113_values",
    "C113_constant"
   ],
   "note": ""
  },
  {
   "property": "C114",
   "status": "partial",
   "theorems": [
    "C114_own_step",
    "C114_order",
    "C114_kept",
    "C114_reported",
    "C114_zone_bounds",
    "C114_weather",
    "C114_equilibrium",
    "C114_ground_refuted"
   ],
   "note": "Proved over exact reals; the conductances of massless layers in equilibrium are assumed to be between 1e-12 and 1e12. Refuted for walls to the ground, which panic."
  },
  {
   "property": "C115",
   "status": "partial",
   "theorems": [
    "C115_point_partial",
    "C115_vector",
    "C115_small",
    "C115_propagate_point_partial",
    "C115_propagate_vector",
    "C115_translation_refuted",
    "C115_point_refuted"
   ],
   "note": "In binary64 arithmetic. Refuted: the error of a point can be 1.32 times what is reported, as four roundings are counted as three; and the error that goes out is at least the translation of the transform, even for points and vectors that are known exactly."
  },
  {
   "property": "C116",
   "status": "partial",
   "theorems": [
    "C116_pieces",
    "C116_vector_area",
    "C116_not_lost",
    "C116_area",
    "C116_area_partial",
    "C116_slice",
    "C116_notch_refuted",
    "C116_edge_to_edge_refuted"
   ],
   "note": "The vector areas add up for every loop and segment, within a bound that comes from cleaning the outlines. For flat loops no area is lost (C116_not_lost), and for flat convex loops the areas of the pieces add up to that of the loop (C116_area). For other loops the areas add up when the pieces keep the direction of the loop, which is assumed: it fails when the loop has a notch (C116_notch_refuted gives pieces of 27 and 3 square metres of a loop of 24). Segments that only reach from edge to edge do not cut (C116_edge_to_edge_refuted). In exact arithmetic."
  },
  {
   "property": "C117",
   "status": "partial",
   "theorems": [
    "C117_outside",
    "C117_inside",
    "C117_too_near",
    "C117_edge",
    "C117_others",
    "C117_first_edge_refuted"
   ],
   "note": "For loops that turn left at every corner, with the point in their plane; loops with notches are not covered. Points inside need to be as far from the middle of the first edge as a thousandth of the diameter of the loop: those nearer are taken to be outside (C117_too_near, with a witness in C117_first_edge_refuted). The line from that middle through the point has to be clearly across the edges or exactly along them; lines nearly along an edge are not covered. In exact arithmetic."
  },
  {
   "property": "C118",
   "status": "partial",
   "theorems": [
    "C118_intersection",
    "C118_bite",
    "C118_convex",
    "C118_cross_refuted",
    "C118_covered_refuted"
   ],
   "note": "Which corners a result can have: corners and points inside by the test of C117, or within 1.1 mm of an edge (2.1 mm when biting) and 0.3 micrometres per metre of size. For convex loops this is restated without the test in C118_convex. That the edges of the result stay inside, and that nothing of the common part is left out, is not shown. Whole overlaps are left out (C118_cross_refuted) and loops that are covered are not eaten (C118_covered_refuted). In exact arithmetic."
  },
  {
   "property": "C119",
   "status": "partial",
   "theorems": [
    "C119_read",
    "C119_again",
    "C119_area",
    "C119_holes",
    "C119_holes_area",
    "C119_twice_refuted",
    "C119_error_refuted"
   ],
   "note": "The area is kept up to 1 mm times the size of the loop (C119_area for outlines whose successive points are more than 1 mm apart; C119_holes_area under the conditions of C31). Reading again gives the same loop when closing it left out no corner; otherwise corners can be lost (C119_twice_refuted). Missing or wrong coordinates panic (C119_error_refuted). Numbers are taken to be written and read exactly. In exact arithmetic."
  },
  {
   "property": "C120",
   "status": "partial",
   "theorems": [
    "C120_sizes",
    "C120_known",
    "C120_order",
    "C120_setpoints",
    "C120_setpoints_names",
    "C120_names_refuted"
   ],
   "note": "Systems that share a name with a later one are not reported (C120_names_refuted). Areas are taken as given (see C31 for how they are found) and added in exact arithmetic; in machine arithmetic the sums depend on the order."
  },
  {
   "property": "C121",
   "status": "partial",
   "theorems": [
    "C121_new",
    "C121_distinct",
    "C121_again",
    "C121_succeeds",
    "C121_thermal_refuted",
    "C121_file_refuted",
    "C121_second_refuted"
   ],
   "note": "Does not hold when optical data are read from a file and no other model has set the indices (C121_file_refuted), nor for a second header (C121_second_refuted); the thermal model is refused after the solar model (C121_thermal_refuted). Whether the outlines can be triangulated is an input (see C32 for triangulation). No wrong programs were tried against these theorems.."
  }
 ]
}
