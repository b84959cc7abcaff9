{
 "claims": [
  {
   "property": "C01",
   "status": "proved",
   "theorems": [
    "C01_partial_printing_agrees",
    "C01_same_lines",
    "C01_layout_is_printed",
    "C01_printed_has_layout",
    "C01_text_focus"
   ],
   "note": "Concrete cases meeting the hypotheses: C01_case, C01_C24_C47_text_case."
  },
  {
   "property": "C02",
   "status": "proved",
   "theorems": [
    "C02_text_focus"
   ],
   "note": "Needs widths to be additive when the text is split: unicode-width is not always additive. Concrete cases meeting the hypotheses: C02_case, C02_run."
  },
  {
   "property": "C03",
   "status": "proved",
   "theorems": [
    "C03_start_focus"
   ],
   "note": "Concrete cases meeting the hypotheses: C03_case, C03_run."
  },
  {
   "property": "C04",
   "status": "proved",
   "theorems": [
    "C04_end_focus"
   ],
   "note": "Concrete cases meeting the hypotheses: C04_run."
  },
  {
   "property": "C05",
   "status": "proved",
   "theorems": [
    "C05_mark_focus",
    "C05_missing_mark"
   ],
   "note": "Concrete cases meeting the hypotheses: C05_case, C05_run, C05_missing_case."
  },
  {
   "property": "C06",
   "status": "proved",
   "theorems": [
    "C06_not_displayed_rejected",
    "C06_displayed_accepted",
    "C06_accepted_iff_displayed"
   ],
   "note": "Concrete cases meeting the hypotheses: C06_case, C06_needs_linear."
  },
  {
   "property": "C07",
   "status": "proved",
   "theorems": [
    "C07_first_text_from_start",
    "C07_refuted"
   ],
   "note": "The documented property is false of the code: seek_text never compares node ids. C07_refuted exhibits a document on which Text focus lands in another node's text. C07_first_text_from_start states exactly where the focus goes instead."
  },
  {
   "property": "C08",
   "status": "proved",
   "theorems": [
    "C08_oracle_agrees",
    "C08_oracle_agrees_checked",
    "C08_oracle_returns",
    "C08_zero_width_refuted"
   ],
   "note": "Concrete cases meeting the hypotheses: C08_case_texts, C08_case_oracle, C08_case, C08_zero_width_run, C08_case_returns."
  },
  {
   "property": "C09",
   "status": "proved",
   "theorems": [
    "C09_printing_terminates",
    "C09_to_string_terminates"
   ],
   "note": "Concrete cases meeting the hypotheses: C09_case."
  },
  {
   "property": "C10",
   "status": "proved",
   "theorems": [
    "C10_only_these_failures",
    "C10_no_overflow_no_panic",
    "C10_no_overflow_no_panic_text",
    "C10_to_string_no_panic",
    "C10_release_never_panics",
    "C10_any_focus_no_panic"
   ],
   "note": "Concrete cases meeting the hypotheses: C10_case, C10_any_focus_no_panic_case."
  },
  {
   "property": "C11",
   "status": "proved",
   "theorems": [
    "C11_methods_used_as_documented"
   ],
   "note": "Concrete cases meeting the hypotheses: C11_case."
  },
  {
   "property": "C12",
   "status": "proved",
   "theorems": [
    "C12_choice_rule",
    "C12_rule_determines_layout",
    "C12_rule_is_printed",
    "C12_text_focus"
   ],
   "note": "Concrete cases meeting the hypotheses: C12_case, C12_C13_C16_C64_text_case."
  },
  {
   "property": "C13",
   "status": "proved",
   "theorems": [
    "C13_first_option_line_fits",
    "C13_text_focus"
   ],
   "note": "Concrete cases meeting the hypotheses: C13_case."
  },
  {
   "property": "C14",
   "status": "proved",
   "theorems": [
    "C14_no_text_after_end_of_line",
    "C14_text_after_end_of_line_fails",
    "C14_matched_failures",
    "C14_text_focus"
   ],
   "note": "Concrete cases meeting the hypotheses: C14_case, C14_C15_C19_text_case."
  },
  {
   "property": "C15",
   "status": "proved",
   "theorems": [
    "C15_indentation",
    "C15_first_line_not_indented",
    "C15_text_focus"
   ],
   "note": "Concrete cases meeting the hypotheses: C15_case."
  },
  {
   "property": "C16",
   "status": "proved",
   "theorems": [
    "C16_text_style",
    "C16_every_segment",
    "C16_text_focus"
   ],
   "note": "Concrete cases meeting the hypotheses: C16_case."
  },
  {
   "property": "C17",
   "status": "proved",
   "theorems": [
    "C17_fold_is_left_fold"
   ],
   "note": "Concrete cases meeting the hypotheses: C17_case_rewritten, C17_case, C17_case_lines."
  },
  {
   "property": "C18",
   "status": "proved",
   "theorems": [
    "C18_flat_takes_first_options",
    "C18_flat_ignores_width",
    "C18_flat_document"
   ],
   "note": "Concrete cases meeting the hypotheses: C18_case."
  },
  {
   "property": "C19",
   "status": "proved",
   "theorems": [
    "C19_selection",
    "C19_child_index",
    "C19_displayed_children",
    "C19_reported_mismatches",
    "C19_mismatch_fails",
    "C19_text_focus"
   ],
   "note": "Concrete cases meeting the hypotheses: C19_case, C19_mismatch_case, C19_mismatch_run."
  },
  {
   "property": "C20",
   "status": "proved",
   "theorems": [
    "C20_reported_errors_are_real",
    "C20_never_something_else",
    "C20_other_failures_unchanged"
   ],
   "note": "Concrete cases meeting the hypotheses: C20_case_fails."
  },
  {
   "property": "C21",
   "status": "proved",
   "theorems": [
    "C21_accepts_exactly_flawless",
    "C21_reported_flaw_is_real",
    "C21_validate_total",
    "C21_well_scoped"
   ],
   "note": "Concrete cases meeting the hypotheses: C21_case, C21_case_left, C21_run."
  },
  {
   "property": "C22",
   "status": "proved",
   "theorems": [
    "C22_any_focus",
    "C22_childless_is_printed",
    "C22_no_text_after_end_of_line",
    "C22_no_text_after_end_of_line_checked"
   ],
   "note": "Concrete cases meeting the hypotheses: C22_any_focus_case, C22_case."
  },
  {
   "property": "C23",
   "status": "proved",
   "theorems": [
    "C23_duplicate_mark_is_certain",
    "C23_certain_duplicate_rejected"
   ],
   "note": "Concrete cases meeting the hypotheses: C23_case, C23_case_certain."
  },
  {
   "property": "C24",
   "status": "proved",
   "theorems": [
    "C24_to_string_joins_lines",
    "C24_to_string_ok_only_if_printed",
    "C24_text_focus"
   ],
   "note": "Concrete cases meeting the hypotheses: C24_case."
  },
  {
   "property": "C25",
   "status": "proved",
   "theorems": [
    "C25_segment_widths",
    "C25_line_width",
    "C25_focused_widths",
    "C25_text_focus_widths"
   ],
   "note": "Concrete cases meeting the hypotheses: C25_case."
  },
  {
   "property": "C26",
   "status": "proved",
   "theorems": [
    "C26_notation_algebra",
    "C26_same_focus"
   ],
   "note": "For documents whose notations match their nodes; C26_unmatched_differs shows why. Concrete cases meeting the hypotheses: C26_case_rewritten, C26_case, C26_unmatched_differs."
  },
  {
   "property": "C27",
   "status": "proved",
   "theorems": [
    "C27_one_line"
   ],
   "note": "Concrete cases meeting the hypotheses: C27_case."
  },
  {
   "property": "C28",
   "status": "proved",
   "theorems": [
    "C28_one_size_each",
    "C28_division_succeeds",
    "C28_never_over_allocated",
    "C28_all_space_used",
    "C28_rest_unused"
   ],
   "note": "Concrete cases meeting the hypotheses: C28_case_mixed."
  },
  {
   "property": "C29",
   "status": "proved",
   "theorems": [
    "C29_fixed_first"
   ],
   "note": "Concrete cases meeting the hypotheses: C29_case_first_come."
  },
  {
   "property": "C30",
   "status": "proved",
   "theorems": [
    "C30_floor_or_ceiling",
    "C30_largest_fractions_first",
    "C30_monotone",
    "C30_zero_weight_refuted",
    "C30_overflow_refuted"
   ],
   "note": "Concrete cases meeting the hypotheses: C30_case_tests."
  },
  {
   "property": "C31",
   "status": "proved",
   "theorems": [
    "C31_any_window",
    "C31_size_error",
    "C31_inside_rectangle",
    "C31_inside_window",
    "C31_horz_subpanes",
    "C31_vert_subpanes",
    "C31_widest_window_refuted"
   ],
   "note": "Concrete cases meeting the hypotheses: C31_case."
  },
  {
   "property": "C32",
   "status": "proved",
   "theorems": [
    "C32_no_cell_twice"
   ],
   "note": "Concrete cases meeting the hypotheses: C32_case."
  },
  {
   "property": "C33",
   "status": "proved",
   "theorems": [
    "C33_every_cell",
    "C33_exactly_once",
    "C33_every_cell_refuted"
   ],
   "note": "Concrete cases meeting the hypotheses: C33_case."
  },
  {
   "property": "C34",
   "status": "proved",
   "theorems": [
    "C34_focus_row",
    "C34_document_pane",
    "C34_no_space",
    "C34_no_document",
    "C34_huge_pane_refuted",
    "C34_bad_focus_height"
   ],
   "note": "Concrete cases meeting the hypotheses: C34_case_row, C34_case, C34_run."
  },
  {
   "property": "C35",
   "status": "proved",
   "theorems": [
    "C35_line",
    "C35_prefix_unique",
    "C35_not_cut"
   ],
   "note": "Concrete cases meeting the hypotheses: C35_run."
  },
  {
   "property": "C36",
   "status": "proved",
   "theorems": [
    "C36_focus_once",
    "C36_focus_at_character"
   ],
   "note": "Concrete cases meeting the hypotheses: C36_case."
  },
  {
   "property": "C37",
   "status": "proved",
   "theorems": [
    "C37_horz",
    "C37_vert",
    "C37_vert_all_lines",
    "C37_horz_widest",
    "C37_vert_refuted",
    "C37_dynamic_allocation"
   ],
   "note": "Concrete cases meeting the hypotheses: C37_case, C37_run."
  },
  {
   "property": "C38",
   "status": "proved",
   "theorems": [
    "C38_plain_text",
    "C38_extent",
    "C38_no_extra_row",
    "C38_no_extra_col",
    "C38_characters",
    "C38_any_order",
    "C38_display_pane",
    "C38_document",
    "C38_nul_refuted"
   ],
   "note": "Concrete cases meeting the hypotheses: C38_case_calls, C38_run, C38_run_overlap, C38_case_document, C38_run_document, C38_case_pane."
  },
  {
   "property": "C39",
   "status": "proved",
   "theorems": [
    "C39_separators",
    "C39_new_nodes",
    "C39_needs_separator",
    "C39_unique_ids",
    "C39_unique_ids_in_tree",
    "C39_reset_repeats_ids",
    "C39_stale_separator_refuted"
   ],
   "note": "Concrete cases meeting the hypotheses: C39_history_case, C39_unique_ids_case, C39_separators_case, C39_comment_case, C39_overflow_case."
  },
  {
   "property": "C40",
   "status": "proved",
   "theorems": [
    "C40_prints",
    "C40_layout",
    "C40_string",
    "C40_content",
    "C40_same_content",
    "C40_one_line",
    "C40_words",
    "C40_misplaced_comment_refuted"
   ],
   "note": "Concrete cases meeting the hypotheses: C40_layout_case, C40_layout_wide_case, C40_layout_narrow_case, C40_layout_printed_case, C40_content_case, C40_one_line_case."
  },
  {
   "property": "C41",
   "status": "proved",
   "theorems": [
    "C41_combine",
    "C41_associative",
    "C41_default_neutral",
    "C41_idempotent",
    "C41_labels",
    "C41_json_labels",
    "C41_constant_style_refuted",
    "C41_comment_words_refuted",
    "C41_builders_commute"
   ],
   "note": "Concrete cases meeting the hypotheses: C41_combine_case, C41_builders_case."
  },
  {
   "property": "C42",
   "status": "proved",
   "theorems": [
    "C42_unprinted_parts_do_not_matter"
   ],
   "note": "Concrete cases meeting the hypotheses: C42_case_related, C42_case_prints."
  },
  {
   "property": "C43",
   "status": "proved",
   "theorems": [
    "C43_exhausted_up",
    "C43_exhausted_down"
   ],
   "note": "Concrete cases meeting the hypotheses: C43_case."
  },
  {
   "property": "C44",
   "status": "proved",
   "theorems": [
    "C44_displays_meaning",
    "C44_display_pane",
    "C44_any_window",
    "C44_succeeds"
   ],
   "note": "Concrete cases meeting the hypotheses: C44_case."
  },
  {
   "property": "C45",
   "status": "proved",
   "theorems": [
    "C45_dynamic_must_be_document",
    "C45_error_causes"
   ],
   "note": "Concrete cases meeting the hypotheses: C45_case, C45_run, C45_run_printing."
  },
  {
   "property": "C46",
   "status": "proved",
   "theorems": [
    "C46_one_way_to_a_child",
    "C46_required_methods_suffice",
    "C46_tree_is_well_behaved",
    "C46_into_comment",
    "C46_with_style",
    "C46_with_override",
    "C46_new_node",
    "C46_lookup_style",
    "C46_conditions"
   ],
   "note": "Concrete cases meeting the hypotheses: C46_lookup_style_case, C46_tree_case, C46_conditions_case."
  },
  {
   "property": "C47",
   "status": "proved",
   "theorems": [
    "C47_no_line_too_wide",
    "C47_prints",
    "C47_text_focus",
    "C47_json",
    "C47_json_too_wide"
   ],
   "note": "Concrete cases meeting the hypotheses: C47_hypotheses, C47_case, C47_narrow_run, C47_needs_single_lines, C47_json_case, C47_json_case_prints."
  },
  {
   "property": "C48",
   "status": "proved",
   "theorems": [
    "C48_draining_ends",
    "C48_drained_once",
    "C48_down_until_error",
    "C48_up_until_error",
    "C48_none_is_final",
    "C48_only_these_failures"
   ],
   "note": "Concrete cases meeting the hypotheses: C48_case, C48_case_valid."
  },
  {
   "property": "C49",
   "status": "proved",
   "theorems": [
    "C49_alike_both_ways",
    "C49_same_lines",
    "C49_same_focus",
    "C49_same_text_focus",
    "C49_same_success"
   ],
   "note": "Concrete cases meeting the hypotheses: C49_case."
  },
  {
   "property": "C50",
   "status": "proved",
   "theorems": [
    "C50_prints_one",
    "C50_above",
    "C50_child_alone",
    "C50_column"
   ],
   "note": "Concrete cases meeting the hypotheses: C50_case, C50_column_case."
  },
  {
   "property": "C51",
   "status": "proved",
   "theorems": [
    "C51_block_of_parts",
    "C51_parts_of_block",
    "C51_shift_operator"
   ],
   "note": "Concrete cases meeting the hypotheses: C51_case."
  },
  {
   "property": "C52",
   "status": "proved",
   "theorems": [
    "C52_every_node",
    "C52_only_nodes",
    "C52_every_text",
    "C52_json",
    "C52_json_text"
   ],
   "note": "Concrete cases meeting the hypotheses: C52_case, C52_hidden_child, C52_json_case, C52_json_nothing_case."
  },
  {
   "property": "C53",
   "status": "proved",
   "theorems": [
    "C53_same_lines",
    "C53_same_focus",
    "C53_same_openings",
    "C53_json_obeys",
    "C53_json"
   ],
   "note": "Concrete cases meeting the hypotheses: C53_case, C53_needs_requirement, C53_json_case."
  },
  {
   "property": "C54",
   "status": "proved",
   "theorems": [
    "C54_rule_respects_ends",
    "C54_prints",
    "C54_always_prints",
    "C54_possible_refuted"
   ],
   "note": "The documentation's wording (fails only if avoiding text after EndOfLine is impossible) is refuted: C54_possible_refuted. Concrete cases meeting the hypotheses: C54_case, C54_case_lines."
  },
  {
   "property": "C55",
   "status": "proved",
   "theorems": [
    "C55_arithmetic",
    "C55_printed",
    "C55_fails",
    "C55_to_string",
    "C55_oracle",
    "C55_panes",
    "C55_trees"
   ],
   "note": "Concrete cases meeting the hypotheses: C55_case, C55_overflow_case."
  },
  {
   "property": "C56",
   "status": "proved",
   "theorems": [
    "C56_prints",
    "C56_terminal",
    "C56_layout",
    "C56_prints_checked",
    "C56_reads",
    "C56_distinct",
    "C56_one_line",
    "C56_escape_refuted",
    "C56_same_text_refuted"
   ],
   "note": "Reading back is proved for values whose strings need no escapes; for other strings it is refuted (C56_escape_refuted, C56_same_text_refuted): the code writes strings unescaped."
  },
  {
   "property": "C57",
   "status": "proved",
   "theorems": [
    "C57_window_at_start",
    "C57_window_at_end",
    "C57_partial_layout_sound",
    "C57_partial_layout_complete",
    "C57_known_lines_are_the_lines",
    "C57_list_at_start",
    "C57_list_at_end",
    "C57_window_at_mark",
    "C57_window_in_text",
    "C57_known_lines_at_mark",
    "C57_known_lines_in_text",
    "C57_list_at_mark",
    "C57_list_in_text"
   ],
   "note": "Concrete cases meeting the hypotheses: C57_case_list, C57_case_choice_narrow, C57_case_choice_wide, C57_case_stuck, C57_needs_notation, C57_case_mark, C57_case_text, C57_case_no_mark, C57_case_full, C57_case_list_text, C57_case_list_mark."
  },
  {
   "property": "C58",
   "status": "proved",
   "theorems": [
    "C58_window_work",
    "C58_to_string_work",
    "C58_window_quadratic",
    "C58_to_string_quadratic",
    "C58_finite_work",
    "C58_json_quadratic"
   ],
   "note": "Concrete cases meeting the hypotheses: C58_nested_choices, C58_needs_once, C58_json_case."
  },
  {
   "property": "C59",
   "status": "proved",
   "theorems": [
    "C59_same_window",
    "C59_same_string",
    "C59_same_print",
    "C59_same_work",
    "C59_same_string_work",
    "C59_string_iff",
    "C59_ids_are_opaque",
    "C59_styles_are_opaque",
    "C59_root_style",
    "C59_root_style_print"
   ],
   "note": "Concrete cases meeting the hypotheses: C59_case_alike, C59_case, C59_case_root_style."
  },
  {
   "property": "C60",
   "status": "proved",
   "theorems": [
    "C60_window_at_start",
    "C60_window_at_end",
    "C60_stack_lines",
    "C60_stack_window",
    "C60_flat_list_lower",
    "C60_window_at_mark",
    "C60_window_in_text"
   ],
   "note": "The README's claim for a document of any shape is refuted by the lower bound C60_flat_list_lower; the upper bounds hold for the open part, and for stacked trees. Concrete cases meeting the hypotheses: C60_case_bin, C60_case_flat, C60_case_flat_8, C60_case_window, C60_case_window_parts, C60_case_mark, C60_case_text, C60_case_mark_work."
  },
  {
   "property": "C61",
   "status": "proved",
   "theorems": [
    "C61_calls_per_iteration",
    "C61_eval_depth",
    "C61_eval_calls",
    "C61_window_calls",
    "C61_to_string_calls",
    "C61_skipped_children_lower"
   ],
   "note": "Concrete cases meeting the hypotheses: C61_case_depth, C61_case_calls, C61_case_skipped, C61_case_bounded, C61_case_deep."
  },
  {
   "property": "C62",
   "status": "proved",
   "theorems": [
    "C62_document_pane",
    "C62_needs_visible_lines",
    "C62_succeeds",
    "C62_only_visible_matters",
    "C62_indistinguishable",
    "C62_open_document",
    "C62_open_document_at_end",
    "C62_open_document_at_mark",
    "C62_open_document_in_text"
   ],
   "note": "Concrete cases meeting the hypotheses: C62_case_unprintable, C62_case_document, C62_case_too_high, C62_case_pane, C62_case_open, C62_case_mark, C62_case_text, C62_case_end."
  },
  {
   "property": "C63",
   "status": "proved",
   "theorems": [
    "C63_all_values",
    "C63_stays_ended",
    "C63_random_value",
    "C63_random_any",
    "C63_notations",
    "C63_trees",
    "C63_up_to",
    "C63_up_to_refuted"
   ],
   "note": "Concrete cases meeting the hypotheses: C63_case_sound, C63_case_pairs, C63_case_14, C63_case_notations, C63_case_unsound."
  },
  {
   "property": "C64",
   "status": "proved",
   "theorems": [
    "C64_comes_first",
    "C64_first_fitting",
    "C64_layouts_ordered",
    "C64_order",
    "C64_fits_if_possible_refuted",
    "C64_tidy",
    "C64_json",
    "C64_json_first_fitting",
    "C64_text_focus"
   ],
   "note": "Concrete cases meeting the hypotheses: C64_case, C64_case_picks, C64_json_case."
  },
  {
   "property": "C65",
   "status": "proved",
   "theorems": [
    "C65_all_lines",
    "C65_unbounded_height",
    "C65_same_as_string",
    "C65_last_row_refuted"
   ],
   "note": "Concrete cases meeting the hypotheses: C65_case_string, C65_case_stack, C65_run_stack, C65_case_last_row."
  },
  {
   "property": "C66",
   "status": "proved",
   "theorems": [
    "C66_printed",
    "C66_lines",
    "C66_characters",
    "C66_to_string",
    "C66_window",
    "C66_window_characters"
   ],
   "note": "Concrete cases meeting the hypotheses: C66_case_printed, C66_case_lines, C66_case_window, C66_case_window_drawn, C66_case_infinite, C66_case_infinite_lines."
  },
  {
   "property": "C67",
   "status": "proved",
   "theorems": [
    "C67_order",
    "C67_nested",
    "C67_apart",
    "C67_mark",
    "C67_mark_apart",
    "C67_text",
    "C67_text_order"
   ],
   "note": "Concrete cases meeting the hypotheses: C67_nested_case, C67_apart_case, C67_mark_case, C67_mark_apart_case, C67_text_case, C67_text_order_case."
  },
  {
   "property": "C68",
   "status": "proved",
   "theorems": [
    "C68_first_display_unique",
    "C68_first_display_displayed",
    "C68_start",
    "C68_end",
    "C68_accepted_iff",
    "C68_rejected",
    "C68_child_first",
    "C68_mark",
    "C68_text",
    "C68_displayed_once"
   ],
   "note": "Concrete cases meeting the hypotheses: C68_start_case, C68_end_case, C68_mark_case, C68_text_case, C68_rejected_case, C68_child_first_case."
  },
  {
   "property": "C69",
   "status": "proved",
   "theorems": [
    "C69_decimal",
    "C69_names_numbers",
    "C69_printing_errors_distinct",
    "C69_pane_errors_distinct",
    "C69_single_line",
    "C69_notation_errors_distinct",
    "C69_notation_single_line",
    "C69_reported_index",
    "C69_wrong_index_refuted",
    "C69_positions"
   ],
   "note": "The part about NotationError indices is refuted (C69_wrong_index_refuted): the messages always say index 0, which is never the reported index (C69_reported_index). Concrete cases meeting the hypotheses: C69_case_message, C69_case_pane, C69_case_size, C69_case_distinct, C69_case_index."
  },
  {
   "property": "C70",
   "status": "proved",
   "theorems": [
    "C70_text_determines",
    "C70_quotes_refuted",
    "C70_same_text_same_lines",
    "C70_evaluated_same_text",
    "C70_evaluated_text"
   ],
   "note": "Needs quote-free literals: C70_quotes_refuted shows that the text is ambiguous otherwise. Concrete cases meeting the hypotheses: C70_case_text, C70_case_determines, C70_case_alike, C70_case_lines, C70_case_evaluated."
  },
  {
   "property": "C71",
   "status": "proved",
   "theorems": [
    "C71_nested",
    "C71_apart",
    "C71_mark_after_start",
    "C71_mark_before_end",
    "C71_mark_apart",
    "C71_text_after_start",
    "C71_text_before_end",
    "C71_text_order"
   ],
   "note": "Concrete cases meeting the hypotheses: C71_nested_case, C71_mark_after_start_case, C71_mark_before_end_case, C71_mark_apart_case, C71_text_after_start_case, C71_text_before_end_case, C71_text_order_case, C71_apart_case, C71_needs_mark."
  },
  {
   "property": "C72",
   "status": "proved",
   "theorems": [
    "C72_test_passes",
    "C72_expected_passes",
    "C72_unexpected_fails",
    "C72_passing_means",
    "C72_generated_passes",
    "C72_oracle_tests"
   ],
   "note": "Concrete cases meeting the hypotheses: C72_case, C72_case_expected, C72_fails, C72_case_loop, C72_case_rejected, C72_case_random, C72_case_widths."
  },
  {
   "property": "C73",
   "status": "proved",
   "theorems": [
    "C73_focus",
    "C73_region",
    "C73_region_rows",
    "C73_region_small",
    "C73_seek",
    "C73_seek_invalid"
   ],
   "note": "Concrete cases meeting the hypotheses: C73_case_seek, C73_case_seek_passes, C73_case_seek_second, C73_case_invalid, C73_case_focus, C73_case_region, C73_case_small, C73_case_lines."
  },
  {
   "property": "C74",
   "status": "proved",
   "theorems": [
    "C74_same_lines",
    "C74_same_success",
    "C74_same_focus",
    "C74_renamed",
    "C74_renamed_focus",
    "C74_edit_text",
    "C74_edit_text_focus"
   ],
   "note": "Concrete cases meeting the hypotheses: C74_case_edit, C74_case_edit_run, C74_case_edit_lines, C74_needs_width, C74_case_renamed."
  },
  {
   "property": "C75",
   "status": "proved",
   "theorems": [
    "C75_one_picture",
    "C75_pane_shows_page",
    "C75_scroll",
    "C75_same_line",
    "C75_same_text",
    "C75_taller"
   ],
   "note": "Documents that print completely (C62 covers panes of documents that print only in part); panes of at most 2^24 rows, as in C34. Concrete cases meeting the hypotheses: C75_case, C75_run, C75_case_text."
  },
  {
   "property": "C76",
   "status": "proved",
   "theorems": [
    "C76_same_display",
    "C76_same_calls",
    "C76_styles_are_opaque",
    "C76_ids_are_opaque",
    "C76_styles_never_move",
    "C76_labels_are_opaque"
   ],
   "note": "Proved for every amount of fuel, so also for runs that end in an error or a panic; if a method of the first document refuses to answer (lk_off), nothing is claimed. The DocLabel, D and PrettyWindow types are arbitrary types of the model, so Debug output of labels is not covered. Concrete cases meeting the hypotheses: C76_case_styles, C76_case_never_move, C76_case_labels, C76_case, C76_case_run."
  },
  {
   "property": "C77",
   "status": "proved",
   "theorems": [
    "C77_schedule",
    "C77_next_id",
    "C77_own_trees",
    "C77_collisions"
   ],
   "note": "Operations of a thread are atomic (the counter is thread-local and trees are owned, so nothing is shared); sending and receiving stand for any way to move a tree to another thread. That ids are unique in a document made by several threads is refuted (C77_mixed_refuted); the comment in tree.rs only claims uniqueness within a thread. Concrete cases meeting the hypotheses: C77_schedule_case, C77_schedule_run, C77_next_id_case, C77_own_trees_case, C77_collisions_case, C77_mixed_refuted, C77_not_mixed."
  },
  {
   "property": "C78",
   "status": "proved",
   "theorems": [
    "C78_one_cut",
    "C78_cut_in_a_text",
    "C78_same_text",
    "C78_only_the_focus_fails",
    "C78_sequences_refuted"
   ],
   "note": "For texts with additive widths (`splittable`, as in C02). Without this it is refuted (C78_sequences_refuted: a joined emoji, with the widths of unicode-width 0.1.13 and later). Concrete cases meeting the hypotheses: C78_shown, C78_one_cut_case, C78_only_the_focus_fails_case, C78_cut_in_a_text_case, C78_same_text_case."
  },
  {
   "property": "C79",
   "status": "proved",
   "theorems": [
    "C79_at_most",
    "C79_text_focus",
    "C79_json",
    "C79_wider_no_more_lines_refuted"
   ],
   "note": "Concrete cases meeting the hypotheses: C79_text_case, C79_json_case."
  }
 ]
}