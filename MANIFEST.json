{
 "claims": [
  {
   "property": "C01",
   "status": "proved",
   "theorems": [
    "C01_parse_never_aborts"
   ],
   "note": ""
  },
  {
   "property": "C02",
   "status": "proved",
   "theorems": [
    "C02_module_or_one_error"
   ],
   "note": ""
  },
  {
   "property": "C03",
   "status": "proved",
   "theorems": [
    "C03_tokenizer_complete",
    "C03_reading_unique"
   ],
   "note": ""
  },
  {
   "property": "C04",
   "status": "proved",
   "theorems": [
    "C04_tokenizer_sound",
    "C04_tokenizer_runs"
   ],
   "note": ""
  },
  {
   "property": "C05",
   "status": "proved",
   "theorems": [
    "C05_accepted_modules_obey_the_grammar"
   ],
   "note": ""
  },
  {
   "property": "C06",
   "status": "proved",
   "theorems": [
    "C06_grammatical_modules_are_accepted",
    "C06_grammar_unambiguous",
    "C06_grammatical_texts_are_accepted"
   ],
   "note": ""
  },
  {
   "property": "C07",
   "status": "proved",
   "theorems": [
    "C07_bare_name_rejected",
    "C07_documented_relation_rejected",
    "C07_dotted_relation_accepted"
   ],
   "note": ""
  },
  {
   "property": "C08",
   "status": "proved",
   "theorems": [
    "C08_print_parse"
   ],
   "note": ""
  },
  {
   "property": "C09",
   "status": "proved",
   "theorems": [
    "C09_keyword_name_refuted",
    "C09_special_name_refuted",
    "C09_entity_relation_refuted"
   ],
   "note": "Witnesses that the unrestricted round trip is false."
  },
  {
   "property": "C10",
   "status": "proved",
   "theorems": [
    "C10_every_name_quotable",
    "C10_every_name_quotable_in_context"
   ],
   "note": ""
  },
  {
   "property": "C11",
   "status": "proved",
   "theorems": [
    "C11_unicode_escape",
    "C11_surrogate_escape"
   ],
   "note": ""
  },
  {
   "property": "C12",
   "status": "proved",
   "theorems": [
    "C12_text_after_brace_ignored",
    "C12_appended_text_ignored",
    "C12_after_lexical_errors_refuted"
   ],
   "note": "finding: after lexical errors appended text can change the module"
  },
  {
   "property": "C13",
   "status": "proved",
   "theorems": [
    "C13_separators_interchangeable"
   ],
   "note": ""
  },
  {
   "property": "C14",
   "status": "proved",
   "theorems": [
    "C14_token_spans"
   ],
   "note": ""
  },
  {
   "property": "C15",
   "status": "proved",
   "theorems": [
    "C15_recovery_skips_non_tokens"
   ],
   "note": ""
  },
  {
   "property": "C16",
   "status": "proved",
   "theorems": [
    "C16_into_mir_never_aborts"
   ],
   "note": ""
  },
  {
   "property": "C17",
   "status": "proved",
   "theorems": [
    "C17_tables_and_rows"
   ],
   "note": ""
  },
  {
   "property": "C18",
   "status": "proved",
   "theorems": [
    "C18_document_is_a_tree"
   ],
   "note": ""
  },
  {
   "property": "C19",
   "status": "proved",
   "theorems": [
    "C19_edges_are_resolvable_relations",
    "C19_resolution",
    "C19_edges_show_their_relation"
   ],
   "note": ""
  },
  {
   "property": "C20",
   "status": "proved",
   "theorems": [
    "C20_distinct_definitions_resolve"
   ],
   "note": ""
  },
  {
   "property": "C21",
   "status": "proved",
   "theorems": [
    "C21_forward_reference_is_lost",
    "C21_order_matters_refuted"
   ],
   "note": ""
  },
  {
   "property": "C22",
   "status": "proved",
   "theorems": [
    "C22_places_everything_but_the_body"
   ],
   "note": ""
  },
  {
   "property": "C23",
   "status": "proved",
   "theorems": [
    "C23_grid_positions"
   ],
   "note": ""
  },
  {
   "property": "C24",
   "status": "proved",
   "theorems": [
    "C24_tables_never_overlap",
    "C24_gap"
   ],
   "note": ""
  },
  {
   "property": "C25",
   "status": "proved",
   "theorems": [
    "C25_row_positions",
    "C25_rows_tile_their_table",
    "C25_large_tables_refuted"
   ],
   "note": "the limit on the height is part of the property; the refutation shows that some limit is needed"
  },
  {
   "property": "C26",
   "status": "proved",
   "theorems": [
    "C26_view_box"
   ],
   "note": ""
  },
  {
   "property": "C27",
   "status": "proved",
   "theorems": [
    "C27_view_box_of_an_empty_module"
   ],
   "note": ""
  },
  {
   "property": "C28",
   "status": "proved",
   "theorems": [
    "C28_table_ports",
    "C28_row_ports",
    "C28_port_sides"
   ],
   "note": ""
  },
  {
   "property": "C29",
   "status": "proved",
   "theorems": [
    "C29_port_identifiers_are_unique"
   ],
   "note": ""
  },
  {
   "property": "C30",
   "status": "proved",
   "theorems": [
    "C30_only_ports_change",
    "C30_twice_doubles_the_ports",
    "C30_not_idempotent"
   ],
   "note": ""
  },
  {
   "property": "C31",
   "status": "proved",
   "theorems": [
    "C31_places_are_distinct",
    "C31_insertion"
   ],
   "note": ""
  },
  {
   "property": "C32",
   "status": "proved",
   "theorems": [
    "C32_no_parallel_edges",
    "C32_engine_graphs_are_simple"
   ],
   "note": ""
  },
  {
   "property": "C33",
   "status": "proved",
   "theorems": [
    "C33_edges_are_straight_and_outward"
   ],
   "note": ""
  },
  {
   "property": "C34",
   "status": "proved",
   "theorems": [
    "C34_junctions_stay_clear",
    "C34_junctions_outside"
   ],
   "note": ""
  },
  {
   "property": "C35",
   "status": "proved",
   "theorems": [
    "C35_search",
    "C35_search_without_overflow"
   ],
   "note": ""
  },
  {
   "property": "C36",
   "status": "proved",
   "theorems": [
    "C36_heap"
   ],
   "note": ""
  },
  {
   "property": "C37",
   "status": "proved",
   "theorems": [
    "C37_cheapest_over_all_ports",
    "C37_modules_have_named_ports",
    "C37_modules",
    "C37_first_of_the_cheapest",
    "C37_first_any_document"
   ],
   "note": ""
  },
  {
   "property": "C38",
   "status": "proved",
   "theorems": [
    "C38_paths_are_rectilinear",
    "C38_any_document"
   ],
   "note": ""
  },
  {
   "property": "C39",
   "status": "proved",
   "theorems": [
    "C39_only_paths_change",
    "C39_nothing_to_draw"
   ],
   "note": ""
  },
  {
   "property": "C40",
   "status": "proved",
   "theorems": [
    "C40_no_conflicting_ports"
   ],
   "note": ""
  },
  {
   "property": "C41",
   "status": "proved",
   "theorems": [
    "C41_a_route_always_exists"
   ],
   "note": ""
  },
  {
   "property": "C42",
   "status": "proved",
   "theorems": [
    "C42_costs_do_not_overflow"
   ],
   "note": ""
  },
  {
   "property": "C43",
   "status": "proved",
   "theorems": [
    "C43_paths_stay_inside"
   ],
   "note": ""
  },
  {
   "property": "C44",
   "status": "proved",
   "theorems": [
    "C44_edges_may_cross_tables"
   ],
   "note": "finding: route lines run through unrelated tables"
  },
  {
   "property": "C45",
   "status": "proved",
   "theorems": [
    "C45_self_relations_crash",
    "C45_self_relation_source",
    "C45_own_field_source",
    "C45_turnaround_source"
   ],
   "note": "finding: accepted sources abort the program"
  },
  {
   "property": "C46",
   "status": "proved",
   "theorems": [
    "C46_contains_point",
    "C46_documented_half_open_refuted"
   ],
   "note": ""
  },
  {
   "property": "C47",
   "status": "proved",
   "theorems": [
    "C47_inset_by",
    "C47_center_kept_iff_not_clamped"
   ],
   "note": ""
  },
  {
   "property": "C48",
   "status": "proved",
   "theorems": [
    "C48_intersects_line"
   ],
   "note": ""
  },
  {
   "property": "C49",
   "status": "proved",
   "theorems": [
    "C49_upward_segments_are_missed",
    "C49_symmetry_refuted"
   ],
   "note": ""
  },
  {
   "property": "C50",
   "status": "proved",
   "theorems": [
    "C50_distance",
    "C50_cost"
   ],
   "note": ""
  },
  {
   "property": "C51",
   "status": "proved",
   "theorems": [
    "C51_orthogonal_direction"
   ],
   "note": ""
  },
  {
   "property": "C52",
   "status": "proved",
   "theorems": [
    "C52_path_ends"
   ],
   "note": ""
  },
  {
   "property": "C53",
   "status": "proved",
   "theorems": [
    "C53_colour_digits",
    "C53_colours_print_differently"
   ],
   "note": ""
  },
  {
   "property": "C54",
   "status": "proved",
   "theorems": [
    "C54_render_fails_exactly_on_missing_layout",
    "C54_render_aborts_exactly_on_bad_paths",
    "C54_nothing_written_before_success",
    "C54_modules_never_fail"
   ],
   "note": ""
  },
  {
   "property": "C55",
   "status": "proved",
   "theorems": [
    "C55_structure",
    "C55_module_colours"
   ],
   "note": ""
  },
  {
   "property": "C56",
   "status": "proved",
   "theorems": [
    "C56_document_texts",
    "C56_module_texts"
   ],
   "note": ""
  },
  {
   "property": "C57",
   "status": "proved",
   "theorems": [
    "C57_edges_are_drawn"
   ],
   "note": ""
  },
  {
   "property": "C58",
   "status": "proved",
   "theorems": [
    "C58_drawing_an_edge_aborts_iff"
   ],
   "note": ""
  },
  {
   "property": "C59",
   "status": "proved",
   "theorems": [
    "C59_attributes_need_no_escaping",
    "C59_module_attributes",
    "C59_texts_reach_text_nodes_only"
   ],
   "note": ""
  },
  {
   "property": "C60",
   "status": "proved",
   "theorems": [
    "C60_half_integers_are_exact",
    "C60_printed_numbers_read_back",
    "C60_shortest",
    "C60_tidy"
   ],
   "note": ""
  },
  {
   "property": "C61",
   "status": "proved",
   "theorems": [
    "C61_debug_overlay_only_adds"
   ],
   "note": ""
  },
  {
   "property": "C62",
   "status": "proved",
   "theorems": [
    "C62_errors_end_with_success"
   ],
   "note": ""
  },
  {
   "property": "C63",
   "status": "proved",
   "theorems": [
    "C63_writes_the_rendering",
    "C63_whole_or_nothing"
   ],
   "note": ""
  },
  {
   "property": "C64",
   "status": "proved",
   "theorems": [
    "C64_draw_erd",
    "C64_notebook_output_is_framed"
   ],
   "note": ""
  },
  {
   "property": "C65",
   "status": "proved",
   "theorems": [
    "C65_no_turnarounds",
    "C65_field_relations_are_drawn",
    "C65_program_ends_normally",
    "C65_large_tables_refuted",
    "C65_without_lines"
   ],
   "note": "the exact range is part of the property; the refutation shows that some limit is needed: a finding"
  },
  {
   "property": "C66",
   "status": "proved",
   "theorems": [
    "C66_styles"
   ],
   "note": ""
  },
  {
   "property": "C67",
   "status": "proved",
   "theorems": [
    "C67_frame_closed_by_a_name"
   ],
   "note": "finding: an identifier closes the notebook frame early"
  },
  {
   "property": "C68",
   "status": "proved",
   "theorems": [
    "C68_tables_in_place",
    "C68_view_box"
   ],
   "note": ""
  },
  {
   "property": "C69",
   "status": "proved",
   "theorems": [
    "C69_relations_are_connections",
    "C69_program_draws_the_diagram"
   ],
   "note": ""
  },
  {
   "property": "C70",
   "status": "proved",
   "theorems": [
    "C70_field_relations_are_smooth",
    "C70_smooth_for_tables_refuted"
   ],
   "note": ""
  },
  {
   "property": "C71",
   "status": "proved",
   "theorems": [
    "C71_read_in_one_way",
    "C71_drawings_read_back",
    "C71_program_output_reads_back",
    "C71_control_characters_refuted",
    "C71_unescaped_names_refuted"
   ],
   "note": "finding: control characters in names make the output unreadable"
  },
  {
   "property": "C72",
   "status": "proved",
   "theorems": [
    "C72_layout_of_the_text_is_irrelevant",
    "C72_gaps_are_irrelevant"
   ],
   "note": ""
  },
  {
   "property": "C73",
   "status": "proved",
   "theorems": [
    "C73_renaming_changes_only_texts",
    "C73_merging_names_refuted"
   ],
   "note": ""
  },
  {
   "property": "C74",
   "status": "proved",
   "theorems": [
    "C74_tables_stay",
    "C74_lines_stay_refuted"
   ],
   "note": "finding: adding a relation can reroute another one"
  },
  {
   "property": "C75",
   "status": "proved",
   "theorems": [
    "C75_syntax_error"
   ],
   "note": ""
  },
  {
   "property": "C76",
   "status": "proved",
   "theorems": [
    "C76_lexical_errors",
    "C76_fault_precise",
    "C76_agrees"
   ],
   "note": ""
  },
  {
   "property": "C77",
   "status": "proved",
   "theorems": [
    "C77_reports",
    "C77_counted",
    "C77_token_names",
    "C77_marked_text",
    "C77_marked_text_refuted"
   ],
   "note": "finding: after skipped characters the label of a syntax error also marks these"
  },
  {
   "property": "C78",
   "status": "proved",
   "theorems": [
    "C78_decoding",
    "C78_encoding",
    "C78_program_runs",
    "C78_unreadable",
    "C78_arguments",
    "C78_all_or_nothing",
    "C78_document"
   ],
   "note": ""
  },
  {
   "property": "C79",
   "status": "proved",
   "theorems": [
    "C79_misses_nothing",
    "C79_nearly_sound",
    "C79_exact",
    "C79_points",
    "C79_false_alarm_refuted",
    "C79_entry_point_refuted"
   ],
   "note": "finding: rounding makes intersects_line report segments that miss, and intersected_line return points outside"
  },
  {
   "property": "C80",
   "status": "proved",
   "theorems": [
    "C80_field_relations_do_not_turn",
    "C80_table_relations_refuted"
   ],
   "note": "finding: a relation between two entities can turn around, which panics"
  },
  {
   "property": "C81",
   "status": "proved",
   "theorems": [
    "C81_single_points",
    "C81_ends_in_common",
    "C81_drawn_only_if_apart",
    "C81_drawn_without_last_rows"
   ],
   "note": "finding: relating an entity to its own middle or last field, or to itself, always panics"
  },
  {
   "property": "C82",
   "status": "proved",
   "theorems": [
    "C82_known_ends",
    "C82_repeated_relation",
    "C82_same_ends_same_path",
    "C82_both_directions",
    "C82_same_way_back_refuted"
   ],
   "note": "finding: there and back may be drawn along different points"
  },
  {
   "property": "C83",
   "status": "proved",
   "theorems": [
    "C83_through_tables",
    "C83_middle_column",
    "C83_no_point_twice"
   ],
   "note": "segments that enter a table cross it down its middle or from side to side, the latter only in the middle column"
  },
  {
   "property": "C84",
   "status": "proved",
   "theorems": [
    "C84_neighbours_in_the_gap",
    "C84_neighbours_meet_no_table",
    "C84_far_neighbours_refuted"
   ],
   "note": "the limit on the distance is part of the property: costs are truncated on every piece of a path, so in very tall diagrams a detour comes out cheaper, as the third theorem shows"
  },
  {
   "property": "C85",
   "status": "proved",
   "theorems": [
    "C85_text_element",
    "C85_style_words",
    "C85_text_read_back"
   ],
   "note": "all combinations of styles, also those erd.rs does not make"
  },
  {
   "property": "C86",
   "status": "proved",
   "theorems": [
    "C86_same_column_beside",
    "C86_same_column_meets_no_table",
    "C86_far_same_column_refuted"
   ],
   "note": "same limit on the distance as in C84; needed, as the third theorem shows"
  },
  {
   "property": "C87",
   "status": "proved",
   "theorems": [
    "C87_same_picture",
    "C87_ports_are_not_drawn"
   ],
   "note": ""
  },
  {
   "property": "C88",
   "status": "proved",
   "theorems": [
    "C88_corridors_once",
    "C88_tall_corridors_refuted"
   ],
   "note": "relations of any kind; the limit on the number of entities is part of the property, for the same reason as in C84; the refuted theorem shows that some limit is needed"
  },
  {
   "property": "C89",
   "status": "proved",
   "theorems": [
    "C89_between_the_outer_columns",
    "C89_only_the_middle_column",
    "C89_never_backwards_refuted"
   ],
   "note": "the condition on the ends is part of the property; the last theorem shows it is needed"
  },
  {
   "property": "C90",
   "status": "proved",
   "theorems": [
    "C90_more_relations",
    "C90_other_order",
    "C90_any_order_refuted",
    "C90_never_longer_refuted"
   ],
   "note": "the restriction to lines past the tables is part of the property; the refutations show it is needed"
  },
  {
   "property": "C91",
   "status": "proved",
   "theorems": [
    "C91_any_order",
    "C91_outer_relations"
   ],
   "note": "relations with a whole table as an end are excluded; C90_any_order_refuted has such a relation"
  },
  {
   "property": "C92",
   "status": "proved",
   "theorems": [
    "C92_graph_size",
    "C92_linear_size",
    "C92_search_steps",
    "C92_searches"
   ],
   "note": "steps are iterations of the search loop; running times are not modelled"
  },
  {
   "property": "C93",
   "status": "proved",
   "theorems": [
    "C93_lines_keep_off_borders",
    "C93_table_relations_refuted"
   ],
   "note": "the restriction to fields is part of the property; the refutation shows it is needed"
  },
  {
   "property": "C94",
   "status": "proved",
   "theorems": [
    "C94_ends_coincide_or_are_apart",
    "C94_ends_at_fields",
    "C94_farther_apart_refuted"
   ],
   "note": ""
  },
  {
   "property": "C95",
   "status": "proved",
   "theorems": [
    "C95_tables_can_be_read_off",
    "C95_relations_can_be_read_off",
    "C95_field_relations_can_be_read_off",
    "C95_ends_refuted",
    "C95_output_can_be_read",
    "C95_plain_output_can_be_read"
   ],
   "note": "finding: a relation to a whole table looks the same as one to its middle row"
  },
  {
   "property": "C96",
   "status": "proved",
   "theorems": [
    "C96_sound_sources_are_drawn"
   ],
   "note": "joins C06, C65, C68, C69, C71 and C78"
  },
  {
   "property": "C97",
   "status": "proved",
   "theorems": [
    "C97_crossed_relations_look_alike",
    "C97_lines_share_the_gap",
    "C97_relations_can_be_seen_refuted"
   ],
   "note": "finding: the output keeps the relations apart (C95), but what is seen of it does not"
  },
  {
   "property": "C98",
   "status": "proved",
   "theorems": [
    "C98_neighbours_shortest",
    "C98_neighbours_corners",
    "C98_same_column"
   ],
   "note": "same limit on the distance as in C84"
  },
  {
   "property": "C99",
   "status": "proved",
   "theorems": [
    "C99_relations_do_not_turn",
    "C99_turns_are_stacked",
    "C99_drawn_if_apart"
   ],
   "note": "extends C80 and C81 to modules with relations to last rows; C80_table_relations_refuted shows that the excluded relations can turn"
  },
  {
   "property": "C100",
   "status": "proved",
   "theorems": [
    "C100_row_circles_are_kept_clear",
    "C100_no_line_runs_over_a_side",
    "C100_table_circles_are_kept_clear_refuted",
    "C100_bottom_circles_are_kept_clear_refuted",
    "C100_top_circles_are_kept_clear_refuted"
   ],
   "note": "findings: lines can touch the circle at the side of a table and run over the circles at its top and bottom"
  },
  {
   "property": "C101",
   "status": "proved",
   "theorems": [
    "C101_ends_are_gone_round",
    "C101_ends_are_always_gone_round_refuted",
    "C101_top_circles_are_kept_clear"
   ],
   "note": "finding: with a relation to a last row of the column, a line can run down through a table that is an end"
  },
  {
   "property": "C102",
   "status": "proved",
   "theorems": [
    "C102_few_corners",
    "C102_inner_rows"
   ],
   "note": "same limits on distance and number of tables as in C84 and C88; whether a line with more than four corners is ever drawn is not known"
  },
  {
   "property": "C103",
   "status": "proved",
   "theorems": [
    "C103_neighbours_always_alike",
    "C103_same_column_alike",
    "C103_first_column_right",
    "C103_first_column_alike",
    "C103_same_side_refuted",
    "C103_direction_refuted"
   ],
   "note": "two clauses are refutations: the side of a line in the second column depends on other relations, and the direction of a relation between the outer columns matters"
  },
  {
   "property": "C104",
   "status": "proved",
   "theorems": [
    "C104_placing_again",
    "C104_drawing_again",
    "C104_modules",
    "C104_used_engine_refuted"
   ],
   "note": "the last clause is a refutation; drawing a document again is proved for ports and junctions that are proper numbers and ports with unique names, which hold for modules"
  },
  {
   "property": "C105",
   "status": "proved",
   "theorems": [
    "C105_level_neighbours",
    "C105_level_lines_meet_no_table",
    "C105_similar_entities",
    "C105_farther_off_refuted"
   ],
   "note": "the last clause is a refutation; between 190 and 255 nothing is claimed"
  },
  {
   "property": "C106",
   "status": "proved",
   "theorems": [
    "C106_straight_down",
    "C106_meets_no_table",
    "C106_farther_down_refuted"
   ],
   "note": "the last clause is a refutation"
  },
  {
   "property": "C107",
   "status": "proved",
   "theorems": [
    "C107_always_stops",
    "C107_line_turns",
    "C107_turns_are_not_straight",
    "C107_straight_lines_do_not_turn",
    "C107_lower_table_as_end_refuted"
   ],
   "note": "the last clause is a refutation; an upper table with one field or none, and the cases excluded by the conditions, are not covered"
  },
  {
   "property": "C108",
   "status": "proved",
   "theorems": [
    "C108_which_nodes_are_joined",
    "C108_one_in_each_direction",
    "C108_picked_in_sight_refuted",
    "C108_upward_in_sight",
    "C108_upward_nearest"
   ],
   "note": "one clause is a refutation"
  }
 ]
}