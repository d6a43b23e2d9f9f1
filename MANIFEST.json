{
 "claims": [
  {
   "property": "C01",
   "status": "proved",
   "theorems": [
    "C01_uniquelist_refines_set"
   ],
   "note": ""
  },
  {
   "property": "C02",
   "status": "proved",
   "theorems": [
    "C02_pop_front_stale_indices"
   ],
   "note": ""
  },
  {
   "property": "C03",
   "status": "proved",
   "theorems": [
    "C03_force_push_back_hidden"
   ],
   "note": ""
  },
  {
   "property": "C04",
   "status": "proved",
   "theorems": [
    "C04_point_trichotomy",
    "C04_point_trichotomy_binary64"
   ],
   "note": ""
  },
  {
   "property": "C05",
   "status": "proved",
   "theorems": [
    "C05_point_order_on_separated_sets",
    "C05_point_order_refuted"
   ],
   "note": ""
  },
  {
   "property": "C06",
   "status": "proved",
   "theorems": [
    "C06_equality_is_unordered",
    "C06_lookup_independent_of_orientation_and_buckets",
    "C06_segment_order"
   ],
   "note": ""
  },
  {
   "property": "C07",
   "status": "proved",
   "theorems": [
    "C07_hash32_undefined",
    "C07_hash32_wrap"
   ],
   "note": ""
  },
  {
   "property": "C08",
   "status": "proved",
   "theorems": [
    "C08_segment_map_history",
    "C08_first_and_latest_polygon"
   ],
   "note": ""
  },
  {
   "property": "C09",
   "status": "proved",
   "theorems": [
    "C09_lookup_inserts"
   ],
   "note": ""
  },
  {
   "property": "C10",
   "status": "proved",
   "theorems": [
    "C10_point_map_history"
   ],
   "note": ""
  },
  {
   "property": "C11",
   "status": "proved",
   "theorems": [
    "C11_segments_form_a_closed_chain"
   ],
   "note": ""
  },
  {
   "property": "C12",
   "status": "proved",
   "theorems": [
    "C12_area_is_shoelace",
    "C12_area_invariances",
    "C12_out_of_range_is_undefined"
   ],
   "note": ""
  },
  {
   "property": "C13",
   "status": "proved",
   "theorems": [
    "C13_isClockwise_is_negative_area",
    "C13_fixCCW_normalises"
   ],
   "note": ""
  },
  {
   "property": "C14",
   "status": "proved",
   "theorems": [
    "C14_area_is_cached",
    "C14_diameter_is_cached"
   ],
   "note": ""
  },
  {
   "property": "C15",
   "status": "proved",
   "theorems": [
    "C15_getCentroid_is_the_origin",
    "C15_centroid_formula",
    "C15_centroid_invariances"
   ],
   "note": ""
  },
  {
   "property": "C16",
   "status": "proved",
   "theorems": [
    "C16_constructors_never_throw",
    "C16_guard_refuted"
   ],
   "note": ""
  },
  {
   "property": "C17",
   "status": "proved",
   "theorems": [
    "C17_mutate",
    "C17_refuted"
   ],
   "note": ""
  },
  {
   "property": "C18",
   "status": "proved",
   "theorems": [
    "C18_isSelfIntersecting_iff",
    "C18_crossing_pair_exact",
    "C18_small_and_rotated"
   ],
   "note": ""
  },
  {
   "property": "C19",
   "status": "proved",
   "theorems": [
    "C19_intersection_correct"
   ],
   "note": ""
  },
  {
   "property": "C20",
   "status": "proved",
   "theorems": [
    "C20_parallel_never_intersect",
    "C20_infinite_is_bounded",
    "C20_lines_meet",
    "C20_guard_matches_ieee"
   ],
   "note": ""
  },
  {
   "property": "C21",
   "status": "proved",
   "theorems": [
    "C21_segment_contains",
    "C21_not_a_distance_test"
   ],
   "note": ""
  },
  {
   "property": "C22",
   "status": "proved",
   "theorems": [
    "C22_even_odd_or_border",
    "C22_container_edge",
    "C22_border_contained",
    "C22_outside_box",
    "C22_crossing_rule",
    "C22_convex"
   ],
   "note": ""
  },
  {
   "property": "C23",
   "status": "proved",
   "theorems": [
    "C23_gap",
    "C23_far_points_accepted",
    "C23_refuted"
   ],
   "note": ""
  },
  {
   "property": "C24",
   "status": "proved",
   "theorems": [
    "C24_isConvex_is_the_first_turn_test",
    "C24_isConvex_refuted"
   ],
   "note": ""
  },
  {
   "property": "C25",
   "status": "proved",
   "theorems": [
    "C25_containsEdge_iff_segment"
   ],
   "note": ""
  },
  {
   "property": "C26",
   "status": "proved",
   "theorems": [
    "C26_same_vertices_are_equal",
    "C26_order_is_strict_weak",
    "C26_equality_refuted"
   ],
   "note": ""
  },
  {
   "property": "C27",
   "status": "proved",
   "theorems": [
    "C27_hull",
    "C27_extreme_points"
   ],
   "note": ""
  },
  {
   "property": "C28",
   "status": "proved",
   "theorems": [
    "C28_diameter",
    "C28_calipers_terminate",
    "C28_small_polygons"
   ],
   "note": ""
  },
  {
   "property": "C29",
   "status": "proved",
   "theorems": [
    "C29_getMaxDistance_is_the_longest_edge",
    "C29_documented_value_refuted"
   ],
   "note": ""
  },
  {
   "property": "C30",
   "status": "proved",
   "theorems": [
    "C30_circumcenter",
    "C30_triangle_stores_it"
   ],
   "note": ""
  },
  {
   "property": "C31",
   "status": "proved",
   "theorems": [
    "C31_thirdPoint",
    "C31_nextEdge"
   ],
   "note": ""
  },
  {
   "property": "C32",
   "status": "proved",
   "theorems": [
    "C32_center_triangulation",
    "C32_rejects_non_convex"
   ],
   "note": ""
  },
  {
   "property": "C33",
   "status": "proved",
   "theorems": [
    "C33_ear_triangulation"
   ],
   "note": ""
  },
  {
   "property": "C34",
   "status": "proved",
   "theorems": [
    "C34_every_triangle_passes",
    "C34_first_corner_is_cut",
    "C34_tiling_refuted"
   ],
   "note": ""
  },
  {
   "property": "C35",
   "status": "proved",
   "theorems": [
    "C35_box"
   ],
   "note": ""
  },
  {
   "property": "C36",
   "status": "proved",
   "theorems": [
    "C36_seeding",
    "C36_domain_in_the_plane",
    "C36_seeds_not_cleaned",
    "C36_refuted"
   ],
   "note": ""
  },
  {
   "property": "C37",
   "status": "proved",
   "theorems": [
    "C37_addSeedPoints_replaces",
    "C37_others_append"
   ],
   "note": ""
  },
  {
   "property": "C38",
   "status": "proved",
   "theorems": [
    "C38_copy",
    "C38_copy_answers",
    "C38_refuted"
   ],
   "note": ""
  },
  {
   "property": "C39",
   "status": "proved",
   "theorems": [
    "C39_segments"
   ],
   "note": ""
  },
  {
   "property": "C40",
   "status": "proved",
   "theorems": [
    "C40_outline_only",
    "C40_on_outline",
    "C40_interior_hole",
    "C40_refuted"
   ],
   "note": ""
  },
  {
   "property": "C41",
   "status": "proved",
   "theorems": [
    "C41_outcomes",
    "C41_out_of_range",
    "C41_disjoint_hole",
    "C41_refuted"
   ],
   "note": ""
  },
  {
   "property": "C42",
   "status": "proved",
   "theorems": [
    "C42_on_doubles",
    "C42_roundtrip",
    "C42_binary64_refuted"
   ],
   "note": ""
  },
  {
   "property": "C43",
   "status": "proved",
   "theorems": [
    "C43_discretizeCircle"
   ],
   "note": ""
  },
  {
   "property": "C44",
   "status": "proved",
   "theorems": [
    "C44_center",
    "C44_decides_addHole",
    "C44_refuted"
   ],
   "note": ""
  },
  {
   "property": "C45",
   "status": "proved",
   "theorems": [
    "C45_row_major_grid",
    "C45_nothing_for_empty_grids",
    "C45_constant_rule_grid",
    "C45_single_row_or_column",
    "C45_single_column_nan",
    "C45_functors_applied",
    "C45_stateless_functors"
   ],
   "note": ""
  },
  {
   "property": "C46",
   "status": "proved",
   "theorems": [
    "C46_displace_points_alternates"
   ],
   "note": ""
  },
  {
   "property": "C47",
   "status": "proved",
   "theorems": [
    "C47_displaced_in_blocks",
    "C47_first_three_rows"
   ],
   "note": ""
  },
  {
   "property": "C48",
   "status": "proved",
   "theorems": [
    "C48_configuration_history"
   ],
   "note": ""
  },
  {
   "property": "C49",
   "status": "proved",
   "theorems": [
    "C49_planar_graph",
    "C49_polygonal_hole_marker"
   ],
   "note": ""
  },
  {
   "property": "C50",
   "status": "proved",
   "theorems": [
    "C50_edges_know_triangles",
    "C50_output_is_read"
   ],
   "note": ""
  },
  {
   "property": "C51",
   "status": "proved",
   "theorems": [
    "C51_one_triangulation",
    "C51_constrained_refuted",
    "C51_restricted_refuted"
   ],
   "note": ""
  },
  {
   "property": "C52",
   "status": "proved",
   "theorems": [
    "C52_mesh_index_consistent",
    "C52_coinciding_points",
    "C52_coinciding_points_refuted"
   ],
   "note": ""
  },
  {
   "property": "C53",
   "status": "proved",
   "theorems": [
    "C53_cells"
   ],
   "note": ""
  },
  {
   "property": "C54",
   "status": "proved",
   "theorems": [
    "C54_walk_around"
   ],
   "note": ""
  },
  {
   "property": "C55",
   "status": "proved",
   "theorems": [
    "C55_six_digit_mesh_is_read",
    "C55_printed_mesh_is_misread",
    "C55_points_and_polygons_are_read",
    "C55_second_file_restarts_numbering"
   ],
   "note": ""
  },
  {
   "property": "C56",
   "status": "proved",
   "theorems": [
    "C56_coordinates_have_six_digits",
    "C56_index_is_printed_as_a_double",
    "C56_reading_is_nearest",
    "C56_reread_coordinate",
    "C56_six_digit_coordinates_survive",
    "C56_small_indices_survive",
    "C56_large_indices_are_lost"
   ],
   "note": ""
  },
  {
   "property": "C57",
   "status": "proved",
   "theorems": [
    "C57_copies_share_their_maps",
    "C57_reading_into_a_copy",
    "C57_copy_is_independent_refuted"
   ],
   "note": ""
  },
  {
   "property": "C58",
   "status": "proved",
   "theorems": [
    "C58_radian_degrees",
    "C58_cartesianAngle",
    "C58_Angle",
    "C58_Angle_overflow",
    "C58_Angle_order",
    "C58_Angle_weak_order_refuted"
   ],
   "note": ""
  },
  {
   "property": "C59",
   "status": "proved",
   "theorems": [
    "C59_arc_points"
   ],
   "note": ""
  },
  {
   "property": "C60",
   "status": "proved",
   "theorems": [
    "C60_bounding_box",
    "C60_bounding_box_segments"
   ],
   "note": ""
  },
  {
   "property": "C61",
   "status": "proved",
   "theorems": [
    "C61_length_is_a_metric",
    "C61_middle_point",
    "C61_normalize",
    "C61_orderCCW"
   ],
   "note": ""
  },
  {
   "property": "C62",
   "status": "proved",
   "theorems": [
    "C62_split_fields"
   ],
   "note": ""
  },
  {
   "property": "C63",
   "status": "proved",
   "theorems": [
    "C63_dangling_reference",
    "C63_usable_refuted"
   ],
   "note": ""
  },
  {
   "property": "C64",
   "status": "proved",
   "theorems": [
    "C64_difference"
   ],
   "note": ""
  },
  {
   "property": "C65",
   "status": "proved",
   "theorems": [
    "C65_diagram_is_built"
   ],
   "note": ""
  },
  {
   "property": "C66",
   "status": "proved",
   "theorems": [
    "C66_fixed_notation"
   ],
   "note": ""
  },
  {
   "property": "C67",
   "status": "proved",
   "theorems": [
    "C67_queries"
   ],
   "note": ""
  },
  {
   "property": "C68",
   "status": "proved",
   "theorems": [
    "C68_segment_in_segment",
    "C68_index_segment_in_segment",
    "C68_collinear_segments",
    "C68_collinear_is_not_symmetric",
    "C68_segment_equality"
   ],
   "note": ""
  },
  {
   "property": "C69",
   "status": "proved",
   "theorems": [
    "C69_sign_of_int",
    "C69_sign_of_double",
    "C69_pair_order",
    "C69_pair_arithmetic"
   ],
   "note": ""
  },
  {
   "property": "C70",
   "status": "proved",
   "theorems": [
    "C70_region_as_seed_file",
    "C70_six_digit_seeds",
    "C70_short_file"
   ],
   "note": ""
  },
  {
   "property": "C71",
   "status": "proved",
   "theorems": [
    "C71_polygon_triangulation"
   ],
   "note": ""
  },
  {
   "property": "C72",
   "status": "proved",
   "theorems": [
    "C72_noise"
   ],
   "note": ""
  },
  {
   "property": "C73",
   "status": "proved",
   "theorems": [
    "C73_sine_and_cosine",
    "C73_documented_form_refuted"
   ],
   "note": ""
  },
  {
   "property": "C74",
   "status": "proved",
   "theorems": [
    "C74_area_exact",
    "C74_clockwise_exact",
    "C74_fixCCW_exact",
    "C74_convexity_exact"
   ],
   "note": ""
  },
  {
   "property": "C75",
   "status": "proved",
   "theorems": [
    "C75_hull_exact",
    "C75_extreme_points",
    "C75_diameter_correctly_rounded"
   ],
   "note": ""
  },
  {
   "property": "C76",
   "status": "proved",
   "theorems": [
    "C76_contains_even_odd",
    "C76_contains_border",
    "C76_contains_convex"
   ],
   "note": ""
  },
  {
   "property": "C77",
   "status": "proved",
   "theorems": [
    "C77_ear_triangulation_exact"
   ],
   "note": ""
  },
  {
   "property": "C78",
   "status": "proved",
   "theorems": [
    "C78_intersection_on_doubles",
    "C78_infinite_on_doubles"
   ],
   "note": ""
  },
  {
   "property": "C79",
   "status": "proved",
   "theorems": [
    "C79_selfintersection_on_doubles",
    "C79_mutate_on_doubles"
   ],
   "note": ""
  },
  {
   "property": "C80",
   "status": "proved",
   "theorems": [
    "C80_point_order_exact",
    "C80_unique_list_of_points"
   ],
   "note": ""
  },
  {
   "property": "C81",
   "status": "proved",
   "theorems": [
    "C81_order_on_doubles",
    "C81_unique_list_on_doubles",
    "C81_point_map_on_doubles",
    "C81_grids_qualify"
   ],
   "note": ""
  },
  {
   "property": "C82",
   "status": "proved",
   "theorems": [
    "C82_planar_graph_on_doubles"
   ],
   "note": ""
  },
  {
   "property": "C83",
   "status": "proved",
   "theorems": [
    "C83_circumcenter_is_nearest",
    "C83_flat_triangles_only"
   ],
   "note": ""
  },
  {
   "property": "C84",
   "status": "proved",
   "theorems": [
    "C84_output_is_read_on_doubles",
    "C84_mesh_on_doubles",
    "C84_coinciding_points_on_doubles"
   ],
   "note": ""
  },
  {
   "property": "C85",
   "status": "proved",
   "theorems": [
    "C85_inner_cells_are_regions",
    "C85_inner_cells_exactly"
   ],
   "note": ""
  },
  {
   "property": "C86",
   "status": "proved",
   "theorems": [
    "C86_border_cells"
   ],
   "note": ""
  },
  {
   "property": "C87",
   "status": "proved",
   "theorems": [
    "C87_nonobtuse_cells_stay_inside",
    "C87_cells_inside_refuted"
   ],
   "note": ""
  },
  {
   "property": "C88",
   "status": "proved",
   "theorems": [
    "C88_dual_edges",
    "C88_sources_apart"
   ],
   "note": ""
  },
  {
   "property": "C89",
   "status": "proved",
   "theorems": [
    "C89_segment_map_file",
    "C89_texts_determine_numbers",
    "C89_point_map_file",
    "C89_triangle_input_file",
    "C89_edge_text",
    "C89_neighbours_text",
    "C89_point_segment_text"
   ],
   "note": ""
  },
  {
   "property": "C90",
   "status": "proved",
   "theorems": [
    "C90_circumcenter_vector",
    "C90_built_triangles_are_not_null"
   ],
   "note": ""
  },
  {
   "property": "C91",
   "status": "proved",
   "theorems": [
    "C91_cells_not_clockwise",
    "C91_inner_cells_convex"
   ],
   "note": ""
  },
  {
   "property": "C92",
   "status": "proved",
   "theorems": [
    "C92_nearest_site"
   ],
   "note": ""
  },
  {
   "property": "C93",
   "status": "proved",
   "theorems": [
    "C93_border_cells_convex",
    "C93_wide_edges_refuted"
   ],
   "note": ""
  },
  {
   "property": "C94",
   "status": "proved",
   "theorems": [
    "C94_nearest_corner_site"
   ],
   "note": ""
  },
  {
   "property": "C95",
   "status": "proved",
   "theorems": [
    "C95_cells_at_a_vertex",
    "C95_cells_at_a_vertex_doubles",
    "C95_once_refuted"
   ],
   "note": ""
  },
  {
   "property": "C96",
   "status": "proved",
   "theorems": [
    "C96_region_histories",
    "C96_only_generation_fails"
   ],
   "note": ""
  },
  {
   "property": "C97",
   "status": "proved",
   "theorems": [
    "C97_generator"
   ],
   "note": ""
  },
  {
   "property": "C98",
   "status": "proved",
   "theorems": [
    "C98_file_histories",
    "C98_calls_succeed",
    "C98_home_unset",
    "C98_mesh_through_a_file",
    "C98_mesh_files_are_read",
    "C98_map_files"
   ],
   "note": ""
  },
  {
   "property": "C99",
   "status": "proved",
   "theorems": [
    "C99_random_integers",
    "C99_random_integers_on_doubles",
    "C99_random_doubles",
    "C99_outside_the_bounds_refuted",
    "C99_random_points",
    "C99_random_integer_points"
   ],
   "note": ""
  },
  {
   "property": "C100",
   "status": "proved",
   "theorems": [
    "C100_inner_cells_on_doubles",
    "C100_inner_cells_exactly_on_doubles"
   ],
   "note": ""
  },
  {
   "property": "C101",
   "status": "proved",
   "theorems": [
    "C101_border_cells_on_doubles"
   ],
   "note": ""
  },
  {
   "property": "C102",
   "status": "proved",
   "theorems": [
    "C102_bounding_box_on_doubles",
    "C102_region_box_on_doubles",
    "C102_length_on_doubles",
    "C102_middle_on_doubles",
    "C102_longest_edge_on_doubles",
    "C102_turn_on_doubles"
   ],
   "note": ""
  },
  {
   "property": "C103",
   "status": "proved",
   "theorems": [
    "C103_segment_contains_on_doubles",
    "C103_contained_in_point_segment_on_doubles",
    "C103_contains_segment_on_doubles",
    "C103_collinear_segments_on_doubles",
    "C103_equal_segments_on_doubles",
    "C103_container_edge_on_doubles"
   ],
   "note": ""
  },
  {
   "property": "C104",
   "status": "proved",
   "theorems": [
    "C104_region_contains_on_doubles",
    "C104_domain_on_doubles",
    "C104_seeding_on_doubles",
    "C104_generated_seeds_on_doubles",
    "C104_histories_on_doubles"
   ],
   "note": ""
  },
  {
   "property": "C105",
   "status": "proved",
   "theorems": [
    "C105_nodes_close_on_doubles",
    "C105_nodes_exact_on_doubles",
    "C105_refuted"
   ],
   "note": ""
  },
  {
   "property": "C106",
   "status": "proved",
   "theorems": [
    "C106_add_hole_on_doubles",
    "C106_out_of_range_on_doubles"
   ],
   "note": ""
  },
  {
   "property": "C107",
   "status": "proved",
   "theorems": [
    "C107_generator_on_doubles"
   ],
   "note": ""
  },
  {
   "property": "C108",
   "status": "proved",
   "theorems": [
    "C108_center_triangulation_on_doubles"
   ],
   "note": ""
  },
  {
   "property": "C109",
   "status": "proved",
   "theorems": [
    "C109_voronoi_program",
    "C109_triangulation_program",
    "C109_square_program"
   ],
   "note": ""
  },
  {
   "property": "C110",
   "status": "proved",
   "theorems": [
    "C110_cells_are_regions_of_domain",
    "C110_cells_tile_domain",
    "C110_areas_add_up"
   ],
   "note": ""
  },
  {
   "property": "C111",
   "status": "proved",
   "theorems": [
    "C111_generator_tiles_convex_region"
   ],
   "note": ""
  },
  {
   "property": "C112",
   "status": "proved",
   "theorems": [
    "C112_cells_seen_from_sites",
    "C112_cells_do_not_overlap",
    "C112_areas_add_up_any_shape",
    "C112_generator_any_region"
   ],
   "note": ""
  },
  {
   "property": "C113",
   "status": "proved",
   "theorems": [
    "C113_cells_cover_triangles",
    "C113_cells_within_triangles",
    "C113_generator_covers_region"
   ],
   "note": ""
  },
  {
   "property": "C114",
   "status": "proved",
   "theorems": [
    "C114_windings_add_up",
    "C114_generator_point_location"
   ],
   "note": ""
  },
  {
   "property": "C115",
   "status": "proved",
   "theorems": [
    "C115_cells_tile_region",
    "C115_convex_outlines_plain",
    "C115_plain_is_on_inner_side"
   ],
   "note": ""
  },
  {
   "property": "C116",
   "status": "proved",
   "theorems": [
    "C116_triangles_apart",
    "C116_triangles_tile_region"
   ],
   "note": ""
  },
  {
   "property": "C117",
   "status": "proved",
   "theorems": [
    "C117_constrained_mesh_on_doubles",
    "C117_triangulation_program_tiles"
   ],
   "note": ""
  },
  {
   "property": "C118",
   "status": "proved",
   "theorems": [
    "C118_life_of_a_point",
    "C118_difference",
    "C118_marks_ignored",
    "C118_square_norm",
    "C118_isValid_refuted"
   ],
   "note": ""
  },
  {
   "property": "C119",
   "status": "proved",
   "theorems": [
    "C119_simple_polygon_winds_once",
    "C119_inside_simple_region",
    "C119_simple_region_plain",
    "C119_cells_tile_simple_region",
    "C119_triangles_tile_simple_region",
    "C119_constrained_mesh_on_doubles",
    "C119_triangulation_program_tiles"
   ],
   "note": ""
  },
  {
   "property": "C120",
   "status": "proved",
   "theorems": [
    "C120_generator_adds_up",
    "C120_program_adds_up"
   ],
   "note": ""
  },
  {
   "property": "C121",
   "status": "proved",
   "theorems": [
    "C121_arrays",
    "C121_exhausted_memory"
   ],
   "note": ""
  },
  {
   "property": "C122",
   "status": "proved",
   "theorems": [
    "C122_files",
    "C122_runs",
    "C122_triangle_tests_never_end",
    "C122_triangle_tests_undefined"
   ],
   "note": ""
  },
  {
   "property": "C123",
   "status": "proved",
   "theorems": [
    "C123_circle",
    "C123_bad_grades",
    "C123_circular_hole",
    "C123_arc",
    "C123_waves",
    "C123_exact"
   ],
   "note": ""
  },
  {
   "property": "C124",
   "status": "proved",
   "theorems": [
    "C124_family_shares_edges",
    "C124_other_families_untouched",
    "C124_lookup_seen_by_family",
    "C124_reading_seen_by_family",
    "C124_first_mesh",
    "C124_first_call_writes",
    "C124_later_calls_write_nothing",
    "C124_calls_on_filled_generators",
    "C124_careful_programs",
    "C124_meshes_of_one_generator_refuted",
    "C124_copied_generator_refuted"
   ],
   "note": ""
  },
  {
   "property": "C125",
   "status": "proved",
   "theorems": [
    "C125_own_functors",
    "C125_stateless_functors_can_be_shared",
    "C125_displacing_functor_for_both",
    "C125_order_of_evaluation_refuted",
    "C125_independent_generators_refuted"
   ],
   "note": ""
  },
  {
   "property": "C126",
   "status": "proved",
   "theorems": [
    "C126_index_list",
    "C126_area_is_kept",
    "C126_diameter_is_kept",
    "C126_area_is_computed_anew",
    "C126_diameter_is_computed_anew",
    "C126_centroid_is_the_origin",
    "C126_equal_to_its_copy",
    "C126_compared_by_the_old_list",
    "C126_default_polygon_is_undefined",
    "C126_initialised_otherwise",
    "C126_area_of_the_current_list_refuted",
    "C126_refused_mutation_refuted",
    "C126_copies_are_equal_refuted"
   ],
   "note": ""
  },
  {
   "property": "C127",
   "status": "proved",
   "theorems": [
    "C127_turn",
    "C127_area",
    "C127_orientation",
    "C127_counterclockwise",
    "C127_orientation_refuted",
    "C127_circumcenter",
    "C127_diagram"
   ],
   "note": ""
  },
  {
   "property": "C128",
   "status": "proved",
   "theorems": [
    "C128_segment",
    "C128_edges",
    "C128_contains",
    "C128_border",
    "C128_border_refuted",
    "C128_convex",
    "C128_region",
    "C128_seeding"
   ],
   "note": ""
  },
  {
   "property": "C129",
   "status": "proved",
   "theorems": [
    "C129_grid_kept",
    "C129_time_files",
    "C129_time_runs",
    "C129_time_count"
   ],
   "note": ""
  },
  {
   "property": "C130",
   "status": "proved",
   "theorems": [
    "C130_every_text_has_lines",
    "C130_seed_file",
    "C130_seeds_of_the_region",
    "C130_program"
   ],
   "note": ""
  },
  {
   "property": "C131",
   "status": "proved",
   "theorems": [
    "C131_layout_irrelevant",
    "C131_files_of_any_layout_are_read",
    "C131_wrong_corner_counts_are_noticed_refuted"
   ],
   "note": ""
  }
 ]
}