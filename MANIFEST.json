{
 "claims": [
  {
   "property": "C01",
   "status": "proved",
   "theorems": [
    "C01_registry_consistent",
    "C01_rounding_ok",
    "C01_operators"
   ],
   "note": ""
  },
  {
   "property": "C02",
   "status": "proved",
   "theorems": [
    "C02_add_get",
    "C02_add_value",
    "C02_add_wrong_size"
   ],
   "note": ""
  },
  {
   "property": "C03",
   "status": "proved",
   "theorems": [
    "C03_erase",
    "C03_basic_twice_refuted"
   ],
   "note": ""
  },
  {
   "property": "C04",
   "status": "proved",
   "theorems": [
    "C04_write_read"
   ],
   "note": ""
  },
  {
   "property": "C05",
   "status": "proved",
   "theorems": [
    "C05_missing_layer",
    "C05_operators"
   ],
   "note": ""
  },
  {
   "property": "C06",
   "status": "proved",
   "theorems": [
    "C06_clear",
    "C06_clearAll",
    "C06_clearBasic"
   ],
   "note": ""
  },
  {
   "property": "C07",
   "status": "proved",
   "theorems": [
    "C07_valid"
   ],
   "note": ""
  },
  {
   "property": "C08",
   "status": "proved",
   "theorems": [
    "C08_hasSameLayers"
   ],
   "note": ""
  },
  {
   "property": "C09",
   "status": "proved",
   "theorems": [
    "C09_duplicate_names_refuted"
   ],
   "note": ""
  },
  {
   "property": "C10",
   "status": "proved",
   "theorems": [
    "C10_setGeometry",
    "C10_setGeometry_assert"
   ],
   "note": ""
  },
  {
   "property": "C11",
   "status": "proved",
   "theorems": [
    "C11_index_roundtrip"
   ],
   "note": ""
  },
  {
   "property": "C12",
   "status": "proved",
   "theorems": [
    "C12_position_to_index",
    "C12_atPosition",
    "C12_binary64_refuted"
   ],
   "note": "exact arithmetic; in IEEE double arithmetic the index can be out of range (C12_binary64_refuted)"
  },
  {
   "property": "C13",
   "status": "proved",
   "theorems": [
    "C13_regular_grid"
   ],
   "note": ""
  },
  {
   "property": "C14",
   "status": "proved",
   "theorems": [
    "C14_move_stationary",
    "C14_move_total",
    "C14_nonbasic_stale_refuted"
   ],
   "note": "wrapping boundIndexToRange, exact arithmetic; non-cleared layers keep stale data (C14_nonbasic_stale_refuted)"
  },
  {
   "property": "C15",
   "status": "proved",
   "theorems": [
    "C15_move_aligned"
   ],
   "note": ""
  },
  {
   "property": "C16",
   "status": "proved",
   "theorems": [
    "C16_move_regions"
   ],
   "note": ""
  },
  {
   "property": "C17",
   "status": "proved",
   "theorems": [
    "C17_clamp_move_refuted",
    "C17_move_nowrap"
   ],
   "note": "refutation in IEEE doubles with the clamping boundIndexToRange; correctness for all non-wrapping moves under either policy"
  },
  {
   "property": "C18",
   "status": "proved",
   "theorems": [
    "C18_submap_data"
   ],
   "note": ""
  },
  {
   "property": "C19",
   "status": "proved",
   "theorems": [
    "C19_submap_result",
    "C19_submap_covers",
    "C19_far_from_origin_refuted"
   ],
   "note": ""
  },
  {
   "property": "C20",
   "status": "proved",
   "theorems": [
    "C20_double_extended",
    "C20_double",
    "C20_border_refuted",
    "C20_add_data",
    "C20_missing_layer",
    "C20_add_data_extended"
   ],
   "note": ""
  },
  {
   "property": "C21",
   "status": "proved",
   "theorems": [
    "C21_double",
    "C21_valid_cells_kept",
    "C21_flag_ignored",
    "C21_keeps_data_refuted"
   ],
   "note": ""
  },
  {
   "property": "C22",
   "status": "proved",
   "theorems": [
    "C22_double",
    "C22_double_stays",
    "C22_extend"
   ],
   "note": ""
  },
  {
   "property": "C23",
   "status": "proved",
   "theorems": [
    "C23_double_refuted",
    "C23_double_even_refuted",
    "C23_extend_includes",
    "C23_extend_excludes",
    "C23_extend_corners",
    "C23_extend_refuted"
   ],
   "note": ""
  },
  {
   "property": "C24",
   "status": "proved",
   "theorems": [
    "C24_linear",
    "C24_outside",
    "C24_moved_refuted",
    "C24_floor_refuted",
    "C24_constant_refuted",
    "C24_double"
   ],
   "note": ""
  },
  {
   "property": "C25",
   "status": "proved",
   "theorems": [
    "C25_visits_every_cell_once"
   ],
   "note": ""
  },
  {
   "property": "C26",
   "status": "proved",
   "theorems": [
    "C26_occupancy",
    "C26_empty_map_add_data",
    "C26_empty_map_visits"
   ],
   "note": ""
  },
  {
   "property": "C27",
   "status": "proved",
   "theorems": [
    "C27_submap_iterator"
   ],
   "note": ""
  },
  {
   "property": "C28",
   "status": "proved",
   "theorems": [
    "C28_circle"
   ],
   "note": ""
  },
  {
   "property": "C29",
   "status": "proved",
   "theorems": [
    "C29_circle_seam",
    "C29_ellipse_seam",
    "C29_moved_sound",
    "C29_circle_moved_refuted",
    "C29_ellipse_moved_refuted"
   ],
   "note": ""
  },
  {
   "property": "C30",
   "status": "proved",
   "theorems": [
    "C30_ellipse"
   ],
   "note": ""
  },
  {
   "property": "C31",
   "status": "proved",
   "theorems": [
    "C31_polygon",
    "C31_no_vertices"
   ],
   "note": ""
  },
  {
   "property": "C32",
   "status": "proved",
   "theorems": [
    "C32_line"
   ],
   "note": ""
  },
  {
   "property": "C33",
   "status": "proved",
   "theorems": [
    "C33_positions",
    "C33_short_refuted",
    "C33_moved_refuted",
    "C33_endless_refuted",
    "C33_double",
    "C33_border_refuted"
   ],
   "note": ""
  },
  {
   "property": "C34",
   "status": "proved",
   "theorems": [
    "C34_ring"
   ],
   "note": ""
  },
  {
   "property": "C35",
   "status": "proved",
   "theorems": [
    "C35_spiral",
    "C35_moved",
    "C35_empty_ring_refuted",
    "C35_radius_refuted",
    "C35_moved_refuted",
    "C35_outside_refuted",
    "C35_ne_refuted",
    "C35_double"
   ],
   "note": ""
  },
  {
   "property": "C36",
   "status": "proved",
   "theorems": [
    "C36_sound"
   ],
   "note": ""
  },
  {
   "property": "C37",
   "status": "proved",
   "theorems": [
    "C37_local"
   ],
   "note": ""
  },
  {
   "property": "C38",
   "status": "proved",
   "theorems": [
    "C38_reach"
   ],
   "note": ""
  },
  {
   "property": "C39",
   "status": "proved",
   "theorems": [
    "C39_missed_refuted",
    "C39_order_refuted"
   ],
   "note": ""
  },
  {
   "property": "C40",
   "status": "proved",
   "theorems": [
    "C40_single"
   ],
   "note": ""
  },
  {
   "property": "C41",
   "status": "proved",
   "theorems": [
    "C41_safe",
    "C41_missing",
    "C41_float",
    "C41_sentinel_refuted"
   ],
   "note": ""
  },
  {
   "property": "C42",
   "status": "proved",
   "theorems": [
    "C42_cache"
   ],
   "note": ""
  },
  {
   "property": "C43",
   "status": "proved",
   "theorems": [
    "C43_in_place"
   ],
   "note": ""
  },
  {
   "property": "C44",
   "status": "proved",
   "theorems": [
    "C44_curve",
    "C44_rounding",
    "C44_weight_refuted",
    "C44_exp",
    "C44_value"
   ],
   "note": "C44_exp uses the axioms of Coq's real numbers; the other theorems none"
  },
  {
   "property": "C45",
   "status": "proved",
   "theorems": [
    "C45_deflate",
    "C45_missing"
   ],
   "note": ""
  },
  {
   "property": "C46",
   "status": "proved",
   "theorems": [
    "C46_restore",
    "C46_unknown_refuted"
   ],
   "note": ""
  },
  {
   "property": "C47",
   "status": "proved",
   "theorems": [
    "C47_round_trip",
    "C47_float",
    "C47_double"
   ],
   "note": ""
  },
  {
   "property": "C48",
   "status": "proved",
   "theorems": [
    "C48_double",
    "C48_outcomes"
   ],
   "note": ""
  },
  {
   "property": "C49",
   "status": "proved",
   "theorems": [
    "C49_double",
    "C49_truncated",
    "C49_moved_refuted"
   ],
   "note": ""
  },
  {
   "property": "C50",
   "status": "proved",
   "theorems": [
    "C50_double",
    "C50_scale",
    "C50_copy",
    "C50_moved_refuted"
   ],
   "note": ""
  },
  {
   "property": "C51",
   "status": "proved",
   "theorems": [
    "C51_values",
    "C51_shape"
   ],
   "note": ""
  },
  {
   "property": "C52",
   "status": "proved",
   "theorems": [
    "C52_double",
    "C52_unmoved",
    "C52_moved_refuted",
    "C52_resolution"
   ],
   "note": ""
  },
  {
   "property": "C53",
   "status": "proved",
   "theorems": [
    "C53_rejected",
    "C53_mismatch",
    "C53_loaded"
   ],
   "note": ""
  },
  {
   "property": "C54",
   "status": "proved",
   "theorems": [
    "C54_little",
    "C54_big",
    "C54_order_refuted"
   ],
   "note": ""
  },
  {
   "property": "C55",
   "status": "proved",
   "theorems": [
    "C55_exact",
    "C55_double",
    "C55_shape"
   ],
   "note": ""
  },
  {
   "property": "C56",
   "status": "proved",
   "theorems": [
    "C56_meta",
    "C56_place_refuted"
   ],
   "note": ""
  },
  {
   "property": "C57",
   "status": "proved",
   "theorems": [
    "C57_load",
    "C57_resolve"
   ],
   "note": ""
  },
  {
   "property": "C58",
   "status": "proved",
   "theorems": [
    "C58_once",
    "C58_only",
    "C58_stopped"
   ],
   "note": ""
  },
  {
   "property": "C59",
   "status": "proved",
   "theorems": [
    "C59_double",
    "C59_double_malformed",
    "C59_published",
    "C59_malformed"
   ],
   "note": ""
  },
  {
   "property": "C60",
   "status": "proved",
   "theorems": [
    "C60_service",
    "C60_always_true",
    "C60_failed"
   ],
   "note": ""
  },
  {
   "property": "C61",
   "status": "proved",
   "theorems": [
    "C61_end_loop_skips_last",
    "C61_clamped"
   ],
   "note": ""
  },
  {
   "property": "C62",
   "status": "proved",
   "theorems": [
    "C62_submap_geometry",
    "C62_double"
   ],
   "note": ""
  },
  {
   "property": "C63",
   "status": "proved",
   "theorems": [
    "C63_double",
    "C63_radius",
    "C63_float_refuted"
   ],
   "note": ""
  },
  {
   "property": "C64",
   "status": "proved",
   "theorems": [
    "C64_moved_refuted"
   ],
   "note": ""
  },
  {
   "property": "C65",
   "status": "proved",
   "theorems": [
    "C65_double",
    "C65_turn",
    "C65_configured_refuted"
   ],
   "note": ""
  },
  {
   "property": "C66",
   "status": "proved",
   "theorems": [
    "C66_pipeline"
   ],
   "note": ""
  },
  {
   "property": "C67",
   "status": "proved",
   "theorems": [
    "C67_registry",
    "C67_bytes"
   ],
   "note": ""
  },
  {
   "property": "C68",
   "status": "proved",
   "theorems": [
    "C68_geometry",
    "C68_roundtrip",
    "C68_lookup",
    "C68_border_refuted"
   ],
   "note": ""
  },
  {
   "property": "C69",
   "status": "proved",
   "theorems": [
    "C69_move",
    "C69_trace"
   ],
   "note": ""
  },
  {
   "property": "C70",
   "status": "proved",
   "theorems": [
    "C70_submap",
    "C70_border_refuted"
   ],
   "note": ""
  },
  {
   "property": "C71",
   "status": "proved",
   "theorems": [
    "C71_border_refuted",
    "C71_circle",
    "C71_ellipse",
    "C71_polygon",
    "C71_circle_seam",
    "C71_ellipse_seam"
   ],
   "note": ""
  },
  {
   "property": "C72",
   "status": "proved",
   "theorems": [
    "C72_incomplete",
    "C72_empty",
    "C72_loaded"
   ],
   "note": ""
  },
  {
   "property": "C73",
   "status": "proved",
   "theorems": [
    "C73_whole",
    "C73_binary"
   ],
   "note": ""
  },
  {
   "property": "C74",
   "status": "proved",
   "theorems": [
    "C74_window",
    "C74_refused",
    "C74_fraction_refuted",
    "C74_lost_refuted",
    "C74_shifted_refuted",
    "C74_binary"
   ],
   "note": ""
  },
  {
   "property": "C75",
   "status": "proved",
   "theorems": [
    "C75_shared",
    "C75_copy_refuted",
    "C75_equal_refuted",
    "C75_pairs_refuted"
   ],
   "note": ""
  },
  {
   "property": "C76",
   "status": "proved",
   "theorems": [
    "C76_costs",
    "C76_shown",
    "C76_failed",
    "C76_curve"
   ],
   "note": ""
  },
  {
   "property": "C77",
   "status": "proved",
   "theorems": [
    "C77_stripes",
    "C77_narrow",
    "C77_printed",
    "C77_strict_refuted"
   ],
   "note": ""
  },
  {
   "property": "C78",
   "status": "proved",
   "theorems": [
    "C78_whole",
    "C78_window",
    "C78_demo"
   ],
   "note": ""
  },
  {
   "property": "C79",
   "status": "proved",
   "theorems": [
    "C79_rounds",
    "C79_after_start",
    "C79_destroy"
   ],
   "note": ""
  },
  {
   "property": "C80",
   "status": "proved",
   "theorems": [
    "C80_loops",
    "C80_lookup",
    "C80_move",
    "C80_far_refuted",
    "C80_linear_refuted",
    "C80_rows_refuted"
   ],
   "note": ""
  },
  {
   "property": "C81",
   "status": "proved",
   "theorems": [
    "C81_move",
    "C81_aligned",
    "C81_not_aligned",
    "C81_copy",
    "C81_lines",
    "C81_no_intersection_refuted",
    "C81_ellipse",
    "C81_submap",
    "C81_circular",
    "C81_polygons",
    "C81_grid",
    "C81_full_window",
    "C81_centres"
   ],
   "note": ""
  },
  {
   "property": "C82",
   "status": "proved",
   "theorems": [
    "C82_loop",
    "C82_message",
    "C82_same",
    "C82_ndebug",
    "C82_ndebug_refuted"
   ],
   "note": ""
  },
  {
   "property": "C83",
   "status": "proved",
   "theorems": [
    "C83_position3",
    "C83_double",
    "C83_vector"
   ],
   "note": ""
  },
  {
   "property": "C84",
   "status": "proved",
   "theorems": [
    "C84_queue",
    "C84_covered",
    "C84_missed_refuted"
   ],
   "note": ""
  },
  {
   "property": "C85",
   "status": "proved",
   "theorems": [
    "C85_plain",
    "C85_thrown",
    "C85_spoiled_refuted"
   ],
   "note": ""
  },
  {
   "property": "C86",
   "status": "proved",
   "theorems": [
    "C86_loaded",
    "C86_refused",
    "C86_total"
   ],
   "note": ""
  },
  {
   "property": "C87",
   "status": "proved",
   "theorems": [
    "C87_not_called",
    "C87_calls",
    "C87_stateless"
   ],
   "note": ""
  },
  {
   "property": "C88",
   "status": "proved",
   "theorems": [
    "C88_nowhere",
    "C88_geometry",
    "C88_undefined",
    "C88_mirrored",
    "C88_message_refuted"
   ],
   "note": ""
  },
  {
   "property": "C89",
   "status": "proved",
   "theorems": [
    "C89_call",
    "C89_missing",
    "C89_determined"
   ],
   "note": ""
  },
  {
   "property": "C90",
   "status": "proved",
   "theorems": [
    "C90_factor",
    "C90_attained_refuted",
    "C90_wall_refuted",
    "C90_obstacle_refuted"
   ],
   "note": ""
  },
  {
   "property": "C91",
   "status": "proved",
   "theorems": [
    "C91_plain",
    "C91_next",
    "C91_last"
   ],
   "note": ""
  },
  {
   "property": "C92",
   "status": "proved",
   "theorems": [
    "C92_self",
    "C92_far_refuted"
   ],
   "note": ""
  },
  {
   "property": "C93",
   "status": "proved",
   "theorems": [
    "C93_any",
    "C93_empty",
    "C93_regions"
   ],
   "note": ""
  },
  {
   "property": "C94",
   "status": "proved",
   "theorems": [
    "C94_single",
    "C94_radius_refuted"
   ],
   "note": ""
  },
  {
   "property": "C95",
   "status": "proved",
   "theorems": [
    "C95_outside",
    "C95_converted",
    "C95_geometry",
    "C95_merge",
    "C95_line",
    "C95_radius",
    "C95_finite"
   ],
   "note": ""
  },
  {
   "property": "C96",
   "status": "proved",
   "theorems": [
    "C96_map",
    "C96_sub",
    "C96_shapes",
    "C96_shapes_cell",
    "C96_line",
    "C96_line_leaves",
    "C96_spiral"
   ],
   "note": ""
  },
  {
   "property": "C97",
   "status": "proved",
   "theorems": [
    "C97_loaded",
    "C97_rejected",
    "C97_file",
    "C97_eight",
    "C97_sixteen",
    "C97_sixteen_alpha"
   ],
   "note": ""
  },
  {
   "property": "C98",
   "status": "proved",
   "theorems": [
    "C98_saved",
    "C98_unnoticed",
    "C98_reload",
    "C98_overwritten",
    "C98_rooted_refuted"
   ],
   "note": ""
  },
  {
   "property": "C99",
   "status": "proved",
   "theorems": [
    "C99_centre",
    "C99_resolution",
    "C99_range",
    "C99_missing"
   ],
   "note": ""
  },
  {
   "property": "C100",
   "status": "proved",
   "theorems": [
    "C100_circle",
    "C100_any",
    "C100_nothing",
    "C100_ellipse",
    "C100_spiral"
   ],
   "note": ""
  },
  {
   "property": "C101",
   "status": "proved",
   "theorems": [
    "C101_map",
    "C101_shapes",
    "C101_others",
    "C101_moves",
    "C101_circle_moves",
    "C101_resized_refuted",
    "C101_circle_refuted",
    "C101_clamp_refuted",
    "C101_double"
   ],
   "note": ""
  }
 ]
}