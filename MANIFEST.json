{
 "claims": [
  {
   "property": "C01",
   "status": "proved",
   "theorems": [
    "C01_orientation",
    "C01_symmetries",
    "C01_parallel"
   ],
   "note": ""
  },
  {
   "property": "C02",
   "status": "proved",
   "theorems": [
    "C02_in_circle",
    "C02_counterclockwise",
    "C02_symmetries",
    "C02_encircles"
   ],
   "note": ""
  },
  {
   "property": "C03",
   "status": "proved",
   "theorems": [
    "C03_circumcenter"
   ],
   "note": ""
  },
  {
   "property": "C04",
   "status": "proved",
   "theorems": [
    "C04_encroachment",
    "C04_symmetry_and_midpoint"
   ],
   "note": ""
  },
  {
   "property": "C05",
   "status": "proved",
   "theorems": [
    "C05_intersection_sound"
   ],
   "note": ""
  },
  {
   "property": "C06",
   "status": "proved",
   "theorems": [
    "C06_intersection_complete",
    "C06_order_irrelevant"
   ],
   "note": ""
  },
  {
   "property": "C07",
   "status": "proved",
   "theorems": [
    "C07_from_vertices",
    "C07_contains",
    "C07_intersection",
    "C07_union",
    "C07_union_list"
   ],
   "note": ""
  },
  {
   "property": "C08",
   "status": "proved",
   "theorems": [
    "C08_winding",
    "C08_on_side"
   ],
   "note": ""
  },
  {
   "property": "C09",
   "status": "proved",
   "theorems": [
    "C09_triangle"
   ],
   "note": ""
  },
  {
   "property": "C10",
   "status": "proved",
   "theorems": [
    "C10_any_start",
    "C10_any_direction"
   ],
   "note": ""
  },
  {
   "property": "C11",
   "status": "proved",
   "theorems": [
    "C11_quality",
    "C11_rotation",
    "C11_ghost"
   ],
   "note": ""
  },
  {
   "property": "C12",
   "status": "proved",
   "theorems": [
    "C12_triangle_area",
    "C12_polygon_area",
    "C12_rotation",
    "C12_reversal",
    "C12_triangle_sides"
   ],
   "note": ""
  },
  {
   "property": "C13",
   "status": "proved",
   "theorems": [
    "C13_angle",
    "C13_side"
   ],
   "note": ""
  },
  {
   "property": "C14",
   "status": "proved",
   "theorems": [
    "C14_midpoint",
    "C14_edge_midpoint"
   ],
   "note": ""
  },
  {
   "property": "C15",
   "status": "proved",
   "theorems": [
    "C15_hash_contract_refuted",
    "C15_transitive_refuted"
   ],
   "note": "the claim is false of the code; the refutation is proved with a concrete witness"
  },
  {
   "property": "C16",
   "status": "proved",
   "theorems": [
    "C16_sort_refuted",
    "C16_keeps",
    "C16_returns",
    "C16_column"
   ],
   "note": "the claim is false of the code; the refutation is proved with a concrete witness; what does hold is proved beside it"
  },
  {
   "property": "C17",
   "status": "proved",
   "theorems": [
    "C17_lexicographic",
    "C17_total_order"
   ],
   "note": ""
  },
  {
   "property": "C18",
   "status": "proved",
   "theorems": [
    "C18_split_intersections",
    "C18_split_identity"
   ],
   "note": ""
  },
  {
   "property": "C19",
   "status": "proved",
   "theorems": [
    "C19_continence_no_panic",
    "C19_continence_opened"
   ],
   "note": ""
  },
  {
   "property": "C20",
   "status": "proved",
   "theorems": [
    "C20_union_result",
    "C20_union_opened",
    "C20_union_far"
   ],
   "note": ""
  },
  {
   "property": "C21",
   "status": "proved",
   "theorems": [
    "C21_continence_direction_refuted"
   ],
   "note": "the claim is false of the code; the refutation is proved with a concrete witness"
  },
  {
   "property": "C22",
   "status": "proved",
   "theorems": [
    "C22_crossings"
   ],
   "note": ""
  },
  {
   "property": "C23",
   "status": "proved",
   "theorems": [
    "C23_arrange",
    "C23_merged_is_a_chain"
   ],
   "note": ""
  },
  {
   "property": "C24",
   "status": "proved",
   "theorems": [
    "C24_decompose"
   ],
   "note": ""
  },
  {
   "property": "C25",
   "status": "proved",
   "theorems": [
    "C25_edge_contains",
    "C25_ends_and_reversal"
   ],
   "note": ""
  },
  {
   "property": "C26",
   "status": "proved",
   "theorems": [
    "C26_adjacency_sound",
    "C26_triangles"
   ],
   "note": ""
  },
  {
   "property": "C27",
   "status": "proved",
   "theorems": [
    "C27_vertices",
    "C27_edges",
    "C27_no_repetition",
    "C27_include",
    "C27_remove"
   ],
   "note": ""
  },
  {
   "property": "C28",
   "status": "proved",
   "theorems": [
    "C28_adjacency_complete",
    "C28_arbitrary_refuted"
   ],
   "note": "the claim is false of the code; the refutation is proved with a concrete witness; what does hold is proved beside it"
  },
  {
   "property": "C29",
   "status": "proved",
   "theorems": [
    "C29_constrained_sides_survive"
   ],
   "note": ""
  },
  {
   "property": "C30",
   "status": "proved",
   "theorems": [
    "C30_no_vertex_invented"
   ],
   "note": ""
  },
  {
   "property": "C31",
   "status": "proved",
   "theorems": [
    "C31_reinsertion"
   ],
   "note": ""
  },
  {
   "property": "C32",
   "status": "proved",
   "theorems": [
    "C32_split",
    "C32_distribute",
    "C32_walk",
    "C32_whole_run"
   ],
   "note": ""
  },
  {
   "property": "C33",
   "status": "proved",
   "theorems": [
    "C33_insertion",
    "C33_initial_segment",
    "C33_integer_points",
    "C33_integer_points_resolved"
   ],
   "note": ""
  },
  {
   "property": "C34",
   "status": "proved",
   "theorems": [
    "C34_closed_surface"
   ],
   "note": ""
  },
  {
   "property": "C35",
   "status": "proved",
   "theorems": [
    "C35_returns"
   ],
   "note": ""
  },
  {
   "property": "C36",
   "status": "proved",
   "theorems": [
    "C36_boundary",
    "C36_boundary_terminates"
   ],
   "note": ""
  },
  {
   "property": "C37",
   "status": "proved",
   "theorems": [
    "C37_hole",
    "C37_hole_terminates"
   ],
   "note": ""
  },
  {
   "property": "C38",
   "status": "proved",
   "theorems": [
    "C38_insert_vertices",
    "C38_insert_vertices_answers"
   ],
   "note": ""
  },
  {
   "property": "C39",
   "status": "proved",
   "theorems": [
    "C39_insert_segments"
   ],
   "note": ""
  },
  {
   "property": "C40",
   "status": "proved",
   "theorems": [
    "C40_insert_hole"
   ],
   "note": ""
  },
  {
   "property": "C41",
   "status": "proved",
   "theorems": [
    "C41_inserted_vertices_kept"
   ],
   "note": ""
  },
  {
   "property": "C42",
   "status": "proved",
   "theorems": [
    "C42_zero_length_refuted"
   ],
   "note": "the claim is false of the code; the refutation is proved with a concrete witness"
  },
  {
   "property": "C43",
   "status": "proved",
   "theorems": [
    "C43_triangulate_frame",
    "C43_triangulate_fresh",
    "C43_refine_frame"
   ],
   "note": ""
  },
  {
   "property": "C44",
   "status": "proved",
   "theorems": [
    "C44_hole_over_vertex_refuted"
   ],
   "note": "the claim is false of the code; the refutation is proved with a concrete witness"
  },
  {
   "property": "C45",
   "status": "proved",
   "theorems": [
    "C45_segment_direction_refuted"
   ],
   "note": "the claim is false of the code; the refutation is proved with a concrete witness"
  },
  {
   "property": "C46",
   "status": "proved",
   "theorems": [
    "C46_every_hole_blocks_refuted"
   ],
   "note": "the claim is false of the code; the refutation is proved with a concrete witness"
  },
  {
   "property": "C47",
   "status": "proved",
   "theorems": [
    "C47_dyadic_pieces",
    "C47_total_length",
    "C47_unencroach_tiles"
   ],
   "note": ""
  },
  {
   "property": "C48",
   "status": "proved",
   "theorems": [
    "C48_distribution"
   ],
   "note": ""
  },
  {
   "property": "C49",
   "status": "proved",
   "theorems": [
    "C49_no_self_encircling",
    "C49_rejected_centre"
   ],
   "note": ""
  },
  {
   "property": "C50",
   "status": "proved",
   "theorems": [
    "C50_refine_targets_refuted"
   ],
   "note": "the claim is false of the code; the refutation is proved with a concrete witness"
  },
  {
   "property": "C51",
   "status": "proved",
   "theorems": [
    "C51_unencroach_report_refuted"
   ],
   "note": "the claim is false of the code; the refutation is proved with a concrete witness"
  },
  {
   "property": "C52",
   "status": "proved",
   "theorems": [
    "C52_output_lists",
    "C52_output_index_refuted"
   ],
   "note": "the claim is false of the code; the refutation is proved with a concrete witness; what does hold is proved beside it"
  },
  {
   "property": "C53",
   "status": "proved",
   "theorems": [
    "C53_wireframe",
    "C53_counts"
   ],
   "note": ""
  },
  {
   "property": "C54",
   "status": "proved",
   "theorems": [
    "C54_accepted_exactly",
    "C54_collected",
    "C54_segments_body",
    "C54_polyline_body",
    "C54_polyline_accepted"
   ],
   "note": ""
  },
  {
   "property": "C55",
   "status": "proved",
   "theorems": [
    "C55_parsers_panic_refuted"
   ],
   "note": "the claim is false of the code; the refutation is proved with a concrete witness"
  },
  {
   "property": "C56",
   "status": "proved",
   "theorems": [
    "C56_removals_merged_refuted"
   ],
   "note": "the claim is false of the code; the refutation is proved with a concrete witness"
  },
  {
   "property": "C57",
   "status": "proved",
   "theorems": [
    "C57_circle"
   ],
   "note": ""
  },
  {
   "property": "C58",
   "status": "proved",
   "theorems": [
    "C58_domain"
   ],
   "note": ""
  },
  {
   "property": "C59",
   "status": "proved",
   "theorems": [
    "C59_absorption"
   ],
   "note": ""
  },
  {
   "property": "C60",
   "status": "proved",
   "theorems": [
    "C60_edge_length",
    "C60_triangle_equality",
    "C60_sides",
    "C60_opposites",
    "C60_from_vertices"
   ],
   "note": ""
  },
  {
   "property": "C61",
   "status": "proved",
   "theorems": [
    "C61_batch_insertion_refuted"
   ],
   "note": "the claim is false of the code; the refutation is proved with a concrete witness"
  },
  {
   "property": "C62",
   "status": "proved",
   "theorems": [
    "C62_edge_arrange",
    "C62_decompose",
    "C62_split_intersections",
    "C62_poly_arrange",
    "C62_poly_continence",
    "C62_poly_union",
    "C62_poly_intersection",
    "C62_poly_subtraction",
    "C62_triangles_hull",
    "C62_vertices_include",
    "C62_boundary_include",
    "C62_segment_include",
    "C62_hole_include",
    "C62_unencroach_segment",
    "C62_unencroach",
    "C62_try_circumcenter",
    "C62_split_irregular",
    "C62_insert_segments",
    "C62_insert_hole",
    "C62_refine",
    "C62_triangulate",
    "C62_interpret",
    "C62_domain_boundary",
    "C62_domain_holes",
    "C62_parse",
    "C62_run_main"
   ],
   "note": "one theorem per function of the model that takes a step budget"
  },
  {
   "property": "C63",
   "status": "proved",
   "theorems": [
    "C63_requested_vertices_refuted"
   ],
   "note": "the claim is false of the code; the refutation is proved with a concrete witness"
  },
  {
   "property": "C64",
   "status": "proved",
   "theorems": [
    "C64_unencroached_refuted"
   ],
   "note": "the claim is false of the code; the refutation is proved with a concrete witness"
  },
  {
   "property": "C65",
   "status": "proved",
   "theorems": [
    "C65_inserted_segments_kept"
   ],
   "note": ""
  },
  {
   "property": "C66",
   "status": "proved",
   "theorems": [
    "C66_reported_changes"
   ],
   "note": ""
  },
  {
   "property": "C67",
   "status": "proved",
   "theorems": [
    "C67_alone",
    "C67_one_by_one"
   ],
   "note": ""
  },
  {
   "property": "C68",
   "status": "proved",
   "theorems": [
    "C68_order_independent",
    "C68_unique"
   ],
   "note": ""
  },
  {
   "property": "C69",
   "status": "proved",
   "theorems": [
    "C69_tiling"
   ],
   "note": ""
  },
  {
   "property": "C70",
   "status": "proved",
   "theorems": [
    "C70_outline"
   ],
   "note": ""
  },
  {
   "property": "C71",
   "status": "proved",
   "theorems": [
    "C71_closed",
    "C71_opened",
    "C71_panics"
   ],
   "note": ""
  },
  {
   "property": "C72",
   "status": "proved",
   "theorems": [
    "C72_triangle_split",
    "C72_refine"
   ],
   "note": ""
  },
  {
   "property": "C73",
   "status": "proved",
   "theorems": [
    "C73_fixed_edges_stay"
   ],
   "note": ""
  },
  {
   "property": "C74",
   "status": "proved",
   "theorems": [
    "C74_no_new_vertex"
   ],
   "note": ""
  },
  {
   "property": "C75",
   "status": "proved",
   "theorems": [
    "C75_intersection",
    "C75_intersection_far",
    "C75_subtraction"
   ],
   "note": ""
  },
  {
   "property": "C76",
   "status": "proved",
   "theorems": [
    "C76_intersection_nested",
    "C76_union_nested",
    "C76_union_nested_exact"
   ],
   "note": ""
  },
  {
   "property": "C77",
   "status": "proved",
   "theorems": [
    "C77_polygon_filled",
    "C77_contains_agrees"
   ],
   "note": ""
  },
  {
   "property": "C78",
   "status": "proved",
   "theorems": [
    "C78_free_sides_filled",
    "C78_convex_filled"
   ],
   "note": ""
  },
  {
   "property": "C79",
   "status": "proved",
   "theorems": [
    "C79_quadrilateral_filled",
    "C79_convex_quadrilateral_filled"
   ],
   "note": ""
  },
  {
   "property": "C80",
   "status": "proved",
   "theorems": [
    "C80_polygon_returns"
   ],
   "note": ""
  },
  {
   "property": "C81",
   "status": "proved",
   "theorems": [
    "C81_winding_constant"
   ],
   "note": ""
  },
  {
   "property": "C82",
   "status": "proved",
   "theorems": [
    "C82_counterclockwise_tiling_refuted"
   ],
   "note": "the claim is false of the code; the refutation is proved with a concrete witness"
  },
  {
   "property": "C83",
   "status": "proved",
   "theorems": [
    "C83_insert_between_constraints",
    "C83_polygon_is_constrained",
    "C83_insert_in_convex"
   ],
   "note": ""
  },
  {
   "property": "C84",
   "status": "proved",
   "theorems": [
    "C84_convex_with_vertices",
    "C84_convex_with_one_vertex",
    "C84_integer_spread",
    "C84_quadrilateral_with_vertex"
   ],
   "note": ""
  },
  {
   "property": "C85",
   "status": "proved",
   "theorems": [
    "C85_visible_vertices_outside",
    "C85_convex_empty_circles"
   ],
   "note": ""
  },
  {
   "property": "C86",
   "status": "proved",
   "theorems": [
    "C86_every_segment_kept_refuted",
    "C86_segments_never_panic_refuted"
   ],
   "note": "the claim is false of the code; the refutation is proved with a concrete witness"
  },
  {
   "property": "C87",
   "status": "proved",
   "theorems": [
    "C87_refine_keeps_segments_refuted",
    "C87_refine_never_panics_refuted"
   ],
   "note": "the claim is false of the code; the refutation is proved with a concrete witness"
  },
  {
   "property": "C88",
   "status": "proved",
   "theorems": [
    "C88_side_parts_are_edges",
    "C88_middle_of_a_side"
   ],
   "note": ""
  },
  {
   "property": "C89",
   "status": "proved",
   "theorems": [
    "C89_centre_of_a_triangle"
   ],
   "note": ""
  },
  {
   "property": "C90",
   "status": "proved",
   "theorems": [
    "C90_unencroach_keeps_the_parts"
   ],
   "note": ""
  },
  {
   "property": "C91",
   "status": "proved",
   "theorems": [
    "C91_refined_convex_polygon"
   ],
   "note": ""
  },
  {
   "property": "C92",
   "status": "proved",
   "theorems": [
    "C92_convex_polygon_end_to_end"
   ],
   "note": ""
  },
  {
   "property": "C93",
   "status": "proved",
   "theorems": [
    "C93_middle_of_a_side_ends",
    "C93_centre_of_a_triangle_ends",
    "C93_refinement_of_a_convex_polygon_ends",
    "C93_convex_polygon_end_to_end"
   ],
   "note": ""
  },
  {
   "property": "C94",
   "status": "proved",
   "theorems": [
    "C94_segment_touches_what_gives_way",
    "C94_missing_sides"
   ],
   "note": ""
  },
  {
   "property": "C95",
   "status": "proved",
   "theorems": [
    "C95_arrange_covers_the_same_points",
    "C95_decomposition_covers_the_edge"
   ],
   "note": ""
  },
  {
   "property": "C96",
   "status": "proved",
   "theorems": [
    "C96_two_holes_refuted"
   ],
   "note": "the claim is false of the code; the refutation is proved with a concrete witness"
  },
  {
   "property": "C97",
   "status": "proved",
   "theorems": [
    "C97_hole_in_a_bent_polygon_refuted"
   ],
   "note": "the claim is false of the code; the refutation is proved with a concrete witness"
  },
  {
   "property": "C98",
   "status": "proved",
   "theorems": [
    "C98_hole_cut_out",
    "C98_hole_between_vertices",
    "C98_hole_with_one_new_corner"
   ],
   "note": "the general theorem supposes that inserting the corners of the hole leaves none out (C61 shows that a batch may); the other two have no such condition"
  },
  {
   "property": "C99",
   "status": "proved",
   "theorems": [
    "C99_polygon_with_hole"
   ],
   "note": "supposes that no corner is left out by the batch insertions (C61 shows that a batch may)"
  },
  {
   "property": "C100",
   "status": "proved",
   "theorems": [
    "C100_intersection_surrounds_common_points",
    "C100_on_a_grid",
    "C100_rectangles"
   ],
   "note": "sides of the two polygons that lie along each other are outside of the conditions"
  },
  {
   "property": "C101",
   "status": "proved",
   "theorems": [
    "C101_subtraction_surrounds_the_difference",
    "C101_on_a_grid"
   ],
   "note": "same conditions as C100"
  },
  {
   "property": "C102",
   "status": "proved",
   "theorems": [
    "C102_union_surrounds_all_points"
   ],
   "note": "same conditions as C100; describes all outcomes of the union, the panic included"
  },
  {
   "property": "C103",
   "status": "proved",
   "theorems": [
    "C103_domain_holes"
   ],
   "note": ""
  },
  {
   "property": "C104",
   "status": "proved",
   "theorems": [
    "C104_parse"
   ],
   "note": ""
  },
  {
   "property": "C105",
   "status": "proved",
   "theorems": [
    "C105_convex_position_inserted",
    "C105_convex_polygon_filled"
   ],
   "note": ""
  },
  {
   "property": "C106",
   "status": "proved",
   "theorems": [
    "C106_input_accepted",
    "C106_whole_program"
   ],
   "note": ""
  },
  {
   "property": "C107",
   "status": "proved",
   "theorems": [
    "C107_orientation",
    "C107_encroachment",
    "C107_parallel",
    "C107_dot",
    "C107_area",
    "C107_equality",
    "C107_midpoint",
    "C107_edge_contains",
    "C107_contains",
    "C107_insert_vertices",
    "C107_readable"
   ],
   "note": "In binary64 itself (SpecFloat), on grids of spacing 2^k with factors up to 2^24; no tolerance is left."
  },
  {
   "property": "C108",
   "status": "proved",
   "theorems": [
    "C108_cocircular_refuted"
   ],
   "note": "Refuted by a witness."
  },
  {
   "property": "C109",
   "status": "proved",
   "theorems": [
    "C109_incircle",
    "C109_incircle_clockwise"
   ],
   "note": "In binary64 itself, LU with partial pivoting as in nalgebra: forward error analysis against the determinant; grids of spacing 2^k with factors up to 2^10."
  },
  {
   "property": "C110",
   "status": "proved",
   "theorems": [
    "C110_insertion",
    "C110_start",
    "C110_one",
    "C110_one_by_one"
   ],
   "note": "In binary64 itself; excludes four points on a circle (C108 shows what the in-circle test does there) and repeated points."
  },
  {
   "property": "C111",
   "status": "proved",
   "theorems": [
    "C111_convex",
    "C111_any"
   ],
   "note": "In binary64 itself; excludes four corners on a circle. For polygons that are not convex, that every corner is used is an assumption on the result."
  },
  {
   "property": "C112",
   "status": "proved",
   "theorems": [
    "C112_triangles_drawn",
    "C112_edges_drawn"
   ],
   "note": ""
  },
  {
   "property": "C113",
   "status": "proved",
   "theorems": [
    "C113_vertices_read",
    "C113_edges_read",
    "C113_odd_refused",
    "C113_positions_read",
    "C113_odd_positions_refused",
    "C113_ends"
   ],
   "note": ""
  },
  {
   "property": "C114",
   "status": "proved",
   "theorems": [
    "C114_intersection_turns_least",
    "C114_subtraction_turns_least",
    "C114_union_turns_most"
   ],
   "note": "For a union only the sides of the outline itself are compared: those tried and dropped earlier are not known to the result."
  },
  {
   "property": "C115",
   "status": "proved",
   "theorems": [
    "C115_intersection_cancels",
    "C115_subtraction_cancels"
   ],
   "note": ""
  },
  {
   "property": "C116",
   "status": "proved",
   "theorems": [
    "C116_removal_refuted",
    "C116_subtraction_refuted"
   ],
   "note": "the claim is false of the code; the refutation is proved with a concrete witness"
  },
  {
   "property": "C117",
   "status": "proved",
   "theorems": [
    "C117_unencroach_map",
    "C117_split_map"
   ],
   "note": ""
  },
  {
   "property": "C118",
   "status": "proved",
   "theorems": [
    "C118_reads_what_it_says",
    "C118_same_content",
    "C118_same_output",
    "C118_output_reads_what_it_says",
    "C118_output_same_content"
   ],
   "note": ""
  },
  {
   "property": "C119",
   "status": "proved",
   "theorems": [
    "C119_input_back",
    "C119_output_back",
    "C119_output_lost"
   ],
   "note": ""
  },
  {
   "property": "C120",
   "status": "proved",
   "theorems": [
    "C120_program_output",
    "C120_program_panics",
    "C120_whole_program"
   ],
   "note": ""
  },
  {
   "property": "C121",
   "status": "proved",
   "theorems": [
    "C121_at_rest"
   ],
   "note": ""
  },
  {
   "property": "C122",
   "status": "proved",
   "theorems": [
    "C122_circle_polygon",
    "C122_circle_program"
   ],
   "note": ""
  },
  {
   "property": "C123",
   "status": "proved",
   "theorems": [
    "C123_mesh",
    "C123_insertion",
    "C123_doubles",
    "C123_polygon",
    "C123_written",
    "C123_program",
    "C123_circle"
   ],
   "note": ""
  },
  {
   "property": "C124",
   "status": "proved",
   "theorems": [
    "C124_refined_hole_refuted",
    "C124_refine_never_panics_refuted",
    "C124_triangulate_never_panics_refuted"
   ],
   "note": "the claim is false of the code; the refutation is proved with a concrete witness"
  },
  {
   "property": "C125",
   "status": "proved",
   "theorems": [
    "C125_boundary_takes_the_inside_out",
    "C125_convex_clockwise",
    "C125_program_writes_no_triangle",
    "C125_never_panics_refuted"
   ],
   "note": "the claim is false of the code; the refutation is proved with a concrete witness; what does hold is proved beside it"
  },
  {
   "property": "C126",
   "status": "proved",
   "theorems": [
    "C126_simple_polygon_filled_refuted"
   ],
   "note": "the claim is false of the code; the refutation is proved with a concrete witness"
  },
  {
   "property": "C127",
   "status": "proved",
   "theorems": [
    "C127_changes_only_what_is_asked",
    "C127_finishes",
    "C127_result",
    "C127_panics",
    "C127_output_over_input",
    "C127_file_tells_the_mesh"
   ],
   "note": ""
  },
  {
   "property": "C128",
   "status": "proved",
   "theorems": [
    "C128_filled_iff",
    "C128_blocked_side"
   ],
   "note": ""
  },
  {
   "property": "C129",
   "status": "proved",
   "theorems": [
    "C129_always_ends_refuted",
    "C129_program_ends_refuted",
    "C129_never_panics_refuted"
   ],
   "note": "the claim is false of the code: proved with a concrete input that no number of steps is enough"
  },
  {
   "property": "C130",
   "status": "proved",
   "theorems": [
    "C130_returns",
    "C130_steps",
    "C130_result",
    "C130_ring_recovered",
    "C130_only_rings",
    "C130_sides",
    "C130_open_chain_closed"
   ],
   "note": ""
  },
  {
   "property": "C131",
   "status": "proved",
   "theorems": [
    "C131_removed_was_seen",
    "C131_blind_changes_nothing",
    "C131_alone_goes_in",
    "C131_alone_one_hole"
   ],
   "note": ""
  },
  {
   "property": "C132",
   "status": "proved",
   "theorems": [
    "C132_vertex",
    "C132_edge",
    "C132_triangle",
    "C132_triangulation",
    "C132_triangulation_same",
    "C132_data_returns",
    "C132_data",
    "C132_data_exactly",
    "C132_order"
   ],
   "note": ""
  },
  {
   "property": "C133",
   "status": "proved",
   "theorems": [
    "C133_insertion",
    "C133_polygon"
   ],
   "note": ""
  },
  {
   "property": "C134",
   "status": "proved",
   "theorems": [
    "C134_same_vertices_same_mesh",
    "C134_polygon",
    "C134_one_vertex"
   ],
   "note": ""
  },
  {
   "property": "C135",
   "status": "proved",
   "theorems": [
    "C135_sum",
    "C135_quality",
    "C135_refined"
   ],
   "note": ""
  },
  {
   "property": "C136",
   "status": "proved",
   "theorems": [
    "C136_refined_polygon_refuted",
    "C136_line_inside_refuted",
    "C136_same_input_refuted"
   ],
   "note": "Refuted in binary64 by a concrete input; over the reals C91, C92 and C134 hold for convex polygons."
  },
  {
   "property": "C137",
   "status": "proved",
   "theorems": [
    "C137_balance",
    "C137_polygon",
    "C137_drawn",
    "C137_refined"
   ],
   "note": "C137_balance for all arithmetics; the counts in a convex polygon over the reals."
  },
  {
   "property": "C138",
   "status": "proved",
   "theorems": [
    "C138_triangulate",
    "C138_refine",
    "C138_neighbours",
    "C138_written"
   ],
   "note": ""
  },
  {
   "property": "C139",
   "status": "proved",
   "theorems": [
    "C139_program",
    "C139_same",
    "C139_one_filling"
   ],
   "note": "In binary64 itself. That the reader accepts the input is a hypothesis, shown in C140; polygons with four corners on a circle, or that need refinement, are excluded (C108, C136)."
  },
  {
   "property": "C140",
   "status": "proved",
   "theorems": [
    "C140_apart",
    "C140_meet",
    "C140_reader",
    "C140_program"
   ],
   "note": "In binary64 itself, with nothing assumed of the reader."
  },
  {
   "property": "C141",
   "status": "proved",
   "theorems": [
    "C141_crossing_refuted",
    "C141_reader_refuted"
   ],
   "note": "the claim is false of the code; the refutation is proved with a concrete witness"
  },
  {
   "property": "C142",
   "status": "proved",
   "theorems": [
    "C142_simple",
    "C142_program",
    "C142_same"
   ],
   "note": "In binary64 itself. That every corner is in a triangle of the mesh is a hypothesis (C63)."
  },
  {
   "property": "C143",
   "status": "proved",
   "theorems": [
    "C143_polygon_meshed_refuted"
   ],
   "note": "the claim is false of the code; the refutation is proved with a concrete witness"
  },
  {
   "property": "C144",
   "status": "proved",
   "theorems": [
    "C144_convex",
    "C144_clear"
   ],
   "note": ""
  },
  {
   "property": "C145",
   "status": "proved",
   "theorems": [
    "C145_batch",
    "C145_double",
    "C145_same",
    "C145_real"
   ],
   "note": ""
  },
  {
   "property": "C146",
   "status": "proved",
   "theorems": [
    "C146_refused",
    "C146_panics",
    "C146_program"
   ],
   "note": ""
  },
  {
   "property": "C147",
   "status": "proved",
   "theorems": [
    "C147_no_include",
    "C147_ring",
    "C147_constraints"
   ],
   "note": ""
  }
 ]
}