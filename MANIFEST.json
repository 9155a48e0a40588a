{
 "claims": [
  {
   "property": "C01",
   "status": "proved",
   "theorems": [
    "C01_total",
    "C01_computed",
    "C01_whole_text"
   ],
   "note": ""
  },
  {
   "property": "C02",
   "status": "proved",
   "theorems": [
    "C02_utf8",
    "C02_windows_1252",
    "C02_windows_1252_lossless",
    "C02_ascii",
    "C02_utf16",
    "C02_utf8_bom_kept",
    "C02_scalars",
    "C02_bom_refuted"
   ],
   "note": ""
  },
  {
   "property": "C03",
   "status": "proved",
   "theorems": [
    "C03_colour_number_read",
    "C03_colour_number_written"
   ],
   "note": ""
  },
  {
   "property": "C04",
   "status": "proved",
   "theorems": [
    "C04_colour_serde_roundtrip",
    "C04_colour_text_language"
   ],
   "note": ""
  },
  {
   "property": "C05",
   "status": "proved",
   "theorems": [
    "C05_colour_lookup_precedence",
    "C05_colour_lookup_without_topsky",
    "C05_builtin_table_unambiguous",
    "C05_track_colours",
    "C05_ui_colours"
   ],
   "note": ""
  },
  {
   "property": "C06",
   "status": "proved",
   "theorems": [
    "C06_same_drawing",
    "C06_no_empty_line_no_repeated_point",
    "C06_groups_by_colour"
   ],
   "note": ""
  },
  {
   "property": "C07",
   "status": "proved",
   "theorems": [
    "C07_same_drawing",
    "C07_no_empty_line_no_repeated_point"
   ],
   "note": ""
  },
  {
   "property": "C08",
   "status": "proved",
   "theorems": [
    "C08_info",
    "C08_colours",
    "C08_lists"
   ],
   "note": ""
  },
  {
   "property": "C09",
   "status": "proved",
   "theorems": [
    "C09_read_write",
    "C09_write_close",
    "C09_sixty_refuted",
    "C09_dummy_refuted"
   ],
   "note": ""
  },
  {
   "property": "C10",
   "status": "proved",
   "theorems": [
    "C10_sign",
    "C10_letters",
    "C10_value"
   ],
   "note": ""
  },
  {
   "property": "C11",
   "status": "proved",
   "theorems": [
    "C11_insertion_never_panics",
    "C11_graph_well_formed",
    "C11_points_of_history"
   ],
   "note": ""
  },
  {
   "property": "C12",
   "status": "proved",
   "theorems": [
    "C12_edge_attributes",
    "C12_other_insertions_irrelevant"
   ],
   "note": ""
  },
  {
   "property": "C13",
   "status": "proved",
   "theorems": [
    "C13_expansion_never_panics",
    "C13_expansion_is_path"
   ],
   "note": ""
  },
  {
   "property": "C14",
   "status": "proved",
   "theorems": [
    "C14_chain_forward",
    "C14_chain_backward"
   ],
   "note": ""
  },
  {
   "property": "C15",
   "status": "proved",
   "theorems": [
    "C15_polygon_uses_every_segment_once"
   ],
   "note": ""
  },
  {
   "property": "C16",
   "status": "proved",
   "theorems": [
    "C16_polygon_exists_iff_closed_connected",
    "C16_polygon_search_terminates",
    "C16_independent_of_hash_order"
   ],
   "note": ""
  },
  {
   "property": "C17",
   "status": "proved",
   "theorems": [
    "C17_sectors_from_ese",
    "C17_same_sector_iff",
    "C17_find_id_by_volume"
   ],
   "note": ""
  },
  {
   "property": "C18",
   "status": "proved",
   "theorems": [
    "C18_find_sector",
    "C18_order_irrelevant",
    "C18_volumes_at",
    "C18_huge_levels_refuted"
   ],
   "note": ""
  },
  {
   "property": "C19",
   "status": "proved",
   "theorems": [
    "C19_last_rebuild_decides",
    "C19_first_query_decides",
    "C19_first_query_current",
    "C19_data"
   ],
   "note": ""
  },
  {
   "property": "C20",
   "status": "proved",
   "theorems": [
    "C20_near_line"
   ],
   "note": ""
  },
  {
   "property": "C21",
   "status": "proved",
   "theorems": [
    "C21_convert_designator",
    "C21_contains_designator",
    "C21_convert_location"
   ],
   "note": ""
  },
  {
   "property": "C22",
   "status": "proved",
   "theorems": [
    "C22_coordinate_waypoints",
    "C22_normal_form"
   ],
   "note": ""
  },
  {
   "property": "C23",
   "status": "proved",
   "theorems": [
    "C23_refuted",
    "C23_panic_needs_foreign_digit",
    "C23_named_or_panic"
   ],
   "note": ""
  },
  {
   "property": "C24",
   "status": "proved",
   "theorems": [
    "C24_contains_nav_element",
    "C24_all_elements_refuted"
   ],
   "note": ""
  },
  {
   "property": "C25",
   "status": "proved",
   "theorems": [
    "C25_airports",
    "C25_one_entry_each",
    "C25_independent_of_hash_order",
    "C25_navdata_runways_refuted"
   ],
   "note": ""
  },
  {
   "property": "C26",
   "status": "proved",
   "theorems": [
    "C26_sids_and_stars"
   ],
   "note": ""
  },
  {
   "property": "C27",
   "status": "proved",
   "theorems": [
    "C27_departure_constraints",
    "C27_destination_constraints",
    "C27_key_is_the_fields",
    "C27_unique_keys_refuted"
   ],
   "note": ""
  },
  {
   "property": "C28",
   "status": "proved",
   "theorems": [
    "C28_all_maps_filed",
    "C28_map_attributes"
   ],
   "note": ""
  },
  {
   "property": "C29",
   "status": "proved",
   "theorems": [
    "C29_style_in_effect",
    "C29_polygons_exact",
    "C29_polygon_keeps_style",
    "C29_polygon_style_refuted"
   ],
   "note": ""
  },
  {
   "property": "C30",
   "status": "proved",
   "theorems": [
    "C30_activation"
   ],
   "note": ""
  },
  {
   "property": "C31",
   "status": "proved",
   "theorems": [
    "C31_coordline",
    "C31_coordpoly",
    "C31_each_coordinate_once"
   ],
   "note": ""
  },
  {
   "property": "C32",
   "status": "proved",
   "theorems": [
    "C32_timing_resolution"
   ],
   "note": ""
  },
  {
   "property": "C33",
   "status": "proved",
   "theorems": [
    "C33_special_use_codes"
   ],
   "note": ""
  },
  {
   "property": "C34",
   "status": "proved",
   "theorems": [
    "C34_builtin_styles_fixed",
    "C34_custom_styles",
    "C34_order_independent",
    "C34_case_collision_refuted"
   ],
   "note": ""
  },
  {
   "property": "C35",
   "status": "proved",
   "theorems": [
    "C35_symbol_fallback",
    "C35_vor_default_refuted",
    "C35_lookup_by_name"
   ],
   "note": ""
  },
  {
   "property": "C36",
   "status": "proved",
   "theorems": [
    "C36_map_colours_own_item",
    "C36_map_colours_fields",
    "C36_high_airway_name_refuted",
    "C36_high_airway_name_actual"
   ],
   "note": "holds for all fields except high_airway_name, for which it is refuted"
  },
  {
   "property": "C37",
   "status": "proved",
   "theorems": [
    "C37_airway_points",
    "C37_nothing_joined",
    "C37_segments_joined_refuted"
   ],
   "note": ""
  },
  {
   "property": "C38",
   "status": "proved",
   "theorems": [
    "C38_line_group",
    "C38_all_items"
   ],
   "note": ""
  },
  {
   "property": "C39",
   "status": "proved",
   "theorems": [
    "C39_settings",
    "C39_items",
    "C39_plugins"
   ],
   "note": ""
  },
  {
   "property": "C40",
   "status": "proved",
   "theorems": [
    "C40_airlines",
    "C40_airports",
    "C40_navdata",
    "C40_aircraft",
    "C40_rejects",
    "C40_wtc"
   ],
   "note": ""
  },
  {
   "property": "C41",
   "status": "proved",
   "theorems": [
    "C41_reads",
    "C41_rejects",
    "C41_unique",
    "C41_empty_value_refuted"
   ],
   "note": ""
  },
  {
   "property": "C42",
   "status": "proved",
   "theorems": [
    "C42_paths",
    "C42_recent",
    "C42_unique",
    "C42_siblings",
    "C42_double_separator_refuted"
   ],
   "note": "refuted for paths with two leading separators, which are absolute"
  },
  {
   "property": "C43",
   "status": "proved",
   "theorems": [
    "C43_reads",
    "C43_rejects",
    "C43_unique"
   ],
   "note": ""
  },
  {
   "property": "C44",
   "status": "proved",
   "theorems": [
    "C44_colours",
    "C44_symbols",
    "C44_symbols_missing"
   ],
   "note": ""
  },
  {
   "property": "C45",
   "status": "proved",
   "theorems": [
    "C45_sectors"
   ],
   "note": ""
  },
  {
   "property": "C46",
   "status": "proved",
   "theorems": [
    "C46_positions",
    "C46_points",
    "C46_lost_point",
    "C46_points_refuted"
   ],
   "note": "every point is kept with a squawk range; without one the first point is lost, which refutes the claim for such lines"
  },
  {
   "property": "C47",
   "status": "proved",
   "theorems": [
    "C47_airway",
    "C47_airway_rejects",
    "C47_airway_refuted",
    "C47_asr",
    "C47_asr_rejects",
    "C47_asr_refuted",
    "C47_ese",
    "C47_ese_rejects",
    "C47_ese_refuted",
    "C47_icao",
    "C47_isec",
    "C47_prf",
    "C47_sct",
    "C47_sct_rejects",
    "C47_sct_refuted",
    "C47_symbology",
    "C47_symbology_rejects",
    "C47_symbology_refuted",
    "C47_topsky",
    "C47_topsky_settings",
    "C47_topsky_rejects",
    "C47_topsky_refuted"
   ],
   "note": "proved for isec.txt, .prf, ICAO and navdata files and TopSky settings; for .sct, .ese, .asr, airway.txt, symbology and TopSky maps and symbols the exact condition is proved and the claim is refuted by numbers out of range or coordinates in mixed notation"
  },
  {
   "property": "C48",
   "status": "proved",
   "theorems": [
    "C48_round_trip",
    "C48_no_info_refuted",
    "C48_placeholder_refuted"
   ],
   "note": "`{}` of the four numbers of the general information is a function argument with the hypothesis that its text is read as the number; coordinates are finite and below 256 degrees; names must not be taken for a line (good_drawing); the two unreadable kinds are refuted"
  },
  {
   "property": "C49",
   "status": "proved",
   "theorems": [
    "C49_line_settings",
    "C49_label_settings"
   ],
   "note": ""
  },
  {
   "property": "C50",
   "status": "proved",
   "theorems": [
    "C50_font_size",
    "C50_history_dots",
    "C50_vectors",
    "C50_coopans",
    "C50_recent_files"
   ],
   "note": ""
  },
  {
   "property": "C51",
   "status": "proved",
   "theorems": [
    "C51_round_trip",
    "C51_order",
    "C51_empty_refuted"
   ],
   "note": "finite coordinates of at most 1000 degrees; an empty map is refuted"
  },
  {
   "property": "C52",
   "status": "proved",
   "theorems": [
    "C52_missing",
    "C52_profile_complete_refuted"
   ],
   "note": "missing settings panic: refuted that a parsed profile has all its paths"
  },
  {
   "property": "C53",
   "status": "proved",
   "theorems": [
    "C53_squawks",
    "C53_topsky",
    "C53_order_refuted"
   ],
   "note": "refuted when two settings name the plugin in different directories"
  },
  {
   "property": "C54",
   "status": "proved",
   "theorems": [
    "C54_known",
    "C54_unknown_refuted",
    "C54_letters"
   ],
   "note": "refuted for the unknown wake turbulence category, which is written as ?"
  },
  {
   "property": "C55",
   "status": "proved",
   "theorems": [
    "C55_graph"
   ],
   "note": ""
  },
  {
   "property": "C56",
   "status": "proved",
   "theorems": [
    "C56_constraints",
    "C56_procedures"
   ],
   "note": ""
  },
  {
   "property": "C57",
   "status": "proved",
   "theorems": [
    "C57_items",
    "C57_symbols"
   ],
   "note": ""
  },
  {
   "property": "C58",
   "status": "proved",
   "theorems": [
    "C58_maps",
    "C58_active_refuted",
    "C58_override_refuted"
   ],
   "note": "refuted for comma-separated names after AUP and NOTAM and for overrides below a map"
  },
  {
   "property": "C59",
   "status": "proved",
   "theorems": [
    "C59_settings",
    "C59_sections_refuted"
   ],
   "note": "refuted for settings in sections, which are not read"
  },
  {
   "property": "C60",
   "status": "proved",
   "theorems": [
    "C60_needs_all_files",
    "C60_error_means_bad_file",
    "C60_bad_file_no_result",
    "C60_loads"
   ],
   "note": "the file system, hash orders, Unicode upper case, geodesic destination and JSON are function arguments; the working directory is assumed to exist"
  },
  {
   "property": "C61",
   "status": "proved",
   "theorems": [
    "C61_without_topsky",
    "C61_squawks",
    "C61_ignored_refuted"
   ],
   "note": "refuted for TopSky files that panic"
  },
  {
   "property": "C62",
   "status": "proved",
   "theorems": [
    "C62_only_named_files",
    "C62_parts"
   ],
   "note": ""
  },
  {
   "property": "C63",
   "status": "proved",
   "theorems": [
    "C63_find_sector",
    "C63_volumes_at"
   ],
   "note": "levels below 2^24 feet (see C18); containment and orientation of polygons are arguments with the assumptions contains_ok and ccw_ok"
  },
  {
   "property": "C64",
   "status": "proved",
   "theorems": [
    "C64_same_answer_refuted",
    "C64_same_parts",
    "C64_together"
   ],
   "note": "refuted for the names of combined sectors; the positive part excludes profiles that name a plugin twice (see C53)"
  },
  {
   "property": "C65",
   "status": "proved",
   "theorems": [
    "C65_no_overlays",
    "C65_overlays",
    "C65_index_is_new"
   ],
   "note": "serde_json, jrsonnet and the string escaping are function arguments"
  },
  {
   "property": "C66",
   "status": "proved",
   "theorems": [
    "C66_setup",
    "C66_setup_no_panic",
    "C66_loads",
    "C66_working_directory",
    "C66_setup_working_directory"
   ],
   "note": "toml and canonicalize are function arguments"
  },
  {
   "property": "C67",
   "status": "proved",
   "theorems": [
    "C67_contents",
    "C67_places"
   ],
   "note": ""
  },
  {
   "property": "C68",
   "status": "proved",
   "theorems": [
    "C68_read_back",
    "C68_restated",
    "C68_document",
    "C68_stable",
    "C68_index"
   ],
   "note": "the formatting and reading of numbers are function arguments with the hypothesis that finite numbers and integers are read as written (`faithful`); adaptations with infinite numbers, NaN or transparent colours are excluded (see C71); JSON values are modelled, not their text"
  },
  {
   "property": "C69",
   "status": "proved",
   "theorems": [
    "C69_schema",
    "C69_expressible"
   ],
   "note": "the reading of written numbers is a function argument"
  },
  {
   "property": "C70",
   "status": "proved",
   "theorems": [
    "C70_accepted",
    "C70_kept",
    "C70_taken",
    "C70_applied"
   ],
   "note": "the assumption on jsonnet is `jsonnet_adds`: the program for the overlays evaluates to the members of the adaptation replaced by those of the overlays, possibly sorted and with numbers written differently; an overlay volume needs the private member that is written as null"
  },
  {
   "property": "C71",
   "status": "proved",
   "theorems": [
    "C71_font_size_refuted",
    "C71_zoom_refuted",
    "C71_finite",
    "C71_survives",
    "C71_overlays"
   ],
   "note": "the positive part assumes that the components of the working directory and of the canonical path of the profile are names, and that vectors have fewer than 2^64 elements; refuted for numbers that are not finite"
  },
  {
   "property": "C72",
   "status": "proved",
   "theorems": [
    "C72_nearest",
    "C72_equal",
    "C72_same",
    "C72_six_decimals",
    "C72_equivalence",
    "C72_hash",
    "C72_borders",
    "C72_close_refuted"
   ],
   "note": "coordinates are below 999 degrees in magnitude; closeness does not imply equality (refuted)"
  },
  {
   "property": "C73",
   "status": "proved",
   "theorems": [
    "C73_prf",
    "C73_asr",
    "C73_symbology",
    "C73_determined",
    "C73_colon_refuted"
   ],
   "note": "the order of the hash map is an argument; the values of symbology items are written by a function argument; JSON values are modelled, not their text"
  },
  {
   "property": "C74",
   "status": "proved",
   "theorems": [
    "C74_read_back",
    "C74_same_point"
   ],
   "note": "the lines are written by the specification, with the Display forms of the code for types and neighbours"
  },
  {
   "property": "C75",
   "status": "proved",
   "theorems": [
    "C75_read",
    "C75_error",
    "C75_read_back_refuted"
   ],
   "note": "the text of JSON is outside of the model: the parser of documents is an argument"
  },
  {
   "property": "C76",
   "status": "proved",
   "theorems": [
    "C76_columns",
    "C76_determined",
    "C76_direction_refuted"
   ],
   "note": ""
  },
  {
   "property": "C77",
   "status": "proved",
   "theorems": [
    "C77_items",
    "C77_settings",
    "C77_default_survives",
    "C77_default_empty",
    "C77_label_size_refuted",
    "C77_coopans_refuted",
    "C77_track_colours_refuted",
    "C77_solid_refuted"
   ],
   "note": "refuted for label sizes, COOPANS, the track and user-interface colours and the style SOLID; the colour of high airway names is excepted (see C36), and the VOR symbol (see C35)"
  },
  {
   "property": "C78",
   "status": "proved",
   "theorems": [
    "C78_ese_text",
    "C78_layout_irrelevant"
   ],
   "note": ""
  },
  {
   "property": "C79",
   "status": "proved",
   "theorems": [
    "C79_airlines",
    "C79_airports",
    "C79_aircraft",
    "C79_navdata"
   ],
   "note": ""
  },
  {
   "property": "C80",
   "status": "proved",
   "theorems": [
    "C80_symbology",
    "C80_layout_irrelevant"
   ],
   "note": ""
  },
  {
   "property": "C81",
   "status": "proved",
   "theorems": [
    "C81_pairs",
    "C81_settings",
    "C81_out_of_range",
    "C81_layout_irrelevant"
   ],
   "note": ""
  },
  {
   "property": "C82",
   "status": "proved",
   "theorems": [
    "C82_maps",
    "C82_layout_irrelevant",
    "C82_remark_refuted"
   ],
   "note": ""
  },
  {
   "property": "C83",
   "status": "proved",
   "theorems": [
    "C83_symbols",
    "C83_layout_irrelevant",
    "C83_indent_refuted"
   ],
   "note": ""
  },
  {
   "property": "C84",
   "status": "proved",
   "theorems": [
    "C84_settings",
    "C84_layout_irrelevant",
    "C84_first_line_refuted",
    "C84_first_blank_refuted",
    "C84_colour_refuted"
   ],
   "note": ""
  },
  {
   "property": "C85",
   "status": "proved",
   "theorems": [
    "C85_airways",
    "C85_graph",
    "C85_layout_irrelevant",
    "C85_last_end_refuted"
   ],
   "note": ""
  },
  {
   "property": "C86",
   "status": "proved",
   "theorems": [
    "C86_steps",
    "C86_expansion",
    "C86_chain"
   ],
   "note": ""
  },
  {
   "property": "C87",
   "status": "proved",
   "theorems": [
    "C87_airlines",
    "C87_aircraft",
    "C87_positions",
    "C87_colours"
   ],
   "note": ""
  },
  {
   "property": "C88",
   "status": "proved",
   "theorems": [
    "C88_loads",
    "C88_loads_without_topsky"
   ],
   "note": "the .sct file is any file that parse_sct reads (files written by the code itself are such files, C48); arguments and assumptions as in C60"
  },
  {
   "property": "C89",
   "status": "proved",
   "theorems": [
    "C89_lines",
    "C89_labels",
    "C89_map_colours",
    "C89_symbols",
    "C89_topsky_settings",
    "C89_line_styles"
   ],
   "note": "for line styles: no two names of styles differ in case only (see C34)"
  },
  {
   "property": "C90",
   "status": "proved",
   "theorems": [
    "C90_constraints",
    "C90_sectors",
    "C90_find_sector",
    "C90_maps",
    "C90_airports"
   ],
   "note": "for find_sector: levels below 2^24 feet (see C18), and containment and orientation of polygons are arguments, as in C63"
  }
 ]
}