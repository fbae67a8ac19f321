{
 "C01": {
  "status": "proved",
  "theorems": [
   "C01_terminates",
   "C01_panic_causes"
  ],
  "note": "The error result is constantly nil in the source (parser.go:16-19); the model's result type has no error case."
 },
 "C02": {
  "status": "proved",
  "theorems": [
   "C02_lexing_total",
   "C02_tokens_tile",
   "C02_tokens_tile_all"
  ],
  "note": ""
 },
 "C03": {
  "status": "proved",
  "theorems": [
   "C03_token_text",
   "C03_comment_text"
  ],
  "note": ""
 },
 "C04": {
  "status": "proved",
  "theorems": [
   "C04_leaf_text"
  ],
  "note": ""
 },
 "C05": {
  "status": "proved",
  "theorems": [
   "C05_grammar",
   "C05_tokens"
  ],
  "note": "Braces, comments and spaces are accounted for by the grammar (C05_grammar)."
 },
 "C07": {
  "status": "proved",
  "theorems": [
   "C07_macro_nodes"
  ],
  "note": ""
 },
 "C09": {
  "status": "proved",
  "theorems": [
   "C09_no_blank_in_math",
   "C09_spaces_kept_in_text"
  ],
  "note": ""
 },
 "C13": {
  "status": "proved",
  "theorems": [
   "C13_delimiters"
  ],
  "note": ""
 },
 "C14": {
  "status": "proved",
  "theorems": [
   "C14_nil_nodes"
  ],
  "note": ""
 },
 "C18": {
  "status": "proved",
  "theorems": [
   "C18_extents",
   "C18_end_is_closer"
  ],
  "note": ""
 },
 "C22": {
  "status": "proved",
  "theorems": [
   "C22_decode_encode",
   "C22_lossless"
  ],
  "note": ""
 },
 "C15": {
  "status": "proved",
  "theorems": [
   "C15_walk_calls",
   "C15_walk_order",
   "C15_walk_prune"
  ],
  "note": "Inspect is an instance (inspect is defined by walk)."
 },
 "C16": {
  "status": "proved",
  "theorems": [
   "C16_walk_panics_iff_nil",
   "C16_parsed_tree_panics"
  ],
  "note": ""
 },
 "C17": {
  "status": "proved",
  "theorems": [
   "C17_print_total",
   "C17_parsed_trees_print",
   "C17_print_identifies",
   "C17_quote"
  ],
  "note": "The %q quoting is a parameter with the hypothesis self_delimiting; C17_quote discharges it for strconv.Quote on ASCII."
 },
 "C19": {
  "status": "proved",
  "theorems": [
   "C19_declared_names",
   "C19_constants",
   "C19_other_names",
   "C19_total",
   "C19_injective"
  ],
  "note": ""
 },
 "C20": {
  "status": "proved",
  "theorems": [
   "C20_new_set_has",
   "C20_union_has",
   "C20_keys",
   "C20_keys_deterministic",
   "C20_is_spaced"
  ],
  "note": "Map iteration order is an arbitrary permutation (hypothesis fair)."
 },
 "C21": {
  "status": "proved",
  "theorems": [
   "C21_text",
   "C21_text_panic",
   "C21_math",
   "C21_has_symbol",
   "C21_names_index"
  ],
  "note": ""
 },
 "C08": {
  "status": "proved",
  "theorems": [
   "C08_unknown_never_accepted",
   "C08_unknown_at_top_level"
  ],
  "note": ""
 },
 "C10": {
  "status": "proved",
  "theorems": [
   "C10_mode_restored",
   "C10_text_after_complete"
  ],
  "note": ""
 },
 "C11": {
  "status": "proved",
  "theorems": [
   "C11_comment_adds_nothing",
   "C11_insert_comment",
   "C11_quote_swallows_next_line"
  ],
  "note": ""
 },
 "C12": {
  "status": "proved",
  "theorems": [
   "C12_composition",
   "C12_plain_text_complete"
  ],
  "note": ""
 },
 "C06": {
  "status": "proved",
  "theorems": [
   "C06_round_trip",
   "C06_round_trip_prefix"
  ],
  "note": "Well-formedness: names from the macro table, arguments matching the signature, neighbouring tokens that do not run together (RoundSpec.v). Numbers are digit strings."
 },
 "C23": {
  "status": "proved",
  "theorems": [
   "C23_hpack_width"
  ],
  "note": "Holds bit for bit in float64 (any arithmetic)."
 },
 "C24": {
  "status": "proved",
  "theorems": [
   "C24_hpack_encloses",
   "C24_float64",
   "C24_exact"
  ],
  "note": "Proved for float64 (from the IEEE 754 facts in Coq.Floats/Flocq) and for exact arithmetic."
 },
 "C25": {
  "status": "proved",
  "theorems": [
   "C25_vpack_dims",
   "C25_vpack_float64",
   "C25_vpack_panics",
   "C25_vpack_total_exact"
  ],
  "note": "Width, depth and requested height for float64; the sum law in exact arithmetic (float64 addition is not associative)."
 },
 "C26": {
  "status": "proved",
  "theorems": [
   "C26_hpack_glue",
   "C26_vpack_glue",
   "C26_glue_fills_exact"
  ],
  "note": "Choice of order and sign for any arithmetic incl. float64; the filling law in exact arithmetic."
 },
 "C27": {
  "status": "proved",
  "theorems": [
   "C27_kerning",
   "C27_kerning_value",
   "C27_content_kept"
  ],
  "note": ""
 },
 "C28": {
  "status": "proved",
  "theorems": [
   "C28_shrink_grow",
   "C28_accent",
   "C28_inverse_exact",
   "C28_not_inverse_float64"
  ],
  "note": "Accents are measured again at the new size instead of being scaled (C28_accent). Inverse in exact arithmetic, refuted in float64."
 },
 "C29": {
  "status": "proved",
  "theorems": [
   "C29_every_shrink_scales",
   "C29_no_floor_exact"
  ],
  "note": "The documented floor does not exist."
 },
 "C30": {
  "status": "proved",
  "theorems": [
   "C30_shrink_hpack_commute",
   "C30_shrink_vpack_commute"
  ],
  "note": "Exact arithmetic."
 },
 "C31": {
  "status": "proved",
  "theorems": [
   "C31_ship_output",
   "C31_glyph_order",
   "C31_char_position"
  ],
  "note": "Any arithmetic incl. float64. Nested lists are located by the inductive relation place."
 },
 "C32": {
  "status": "proved",
  "theorems": [
   "C32_ship_again"
  ],
  "note": ""
 },
 "C33": {
  "status": "proved",
  "theorems": [
   "C33_translation_exact"
  ],
  "note": "Exact arithmetic."
 },
 "C34": {
  "status": "proved",
  "theorems": [
   "C34_advance_exact",
   "C34_fills_width_exact",
   "C34_last_char_exact"
  ],
  "note": "Exact arithmetic; difference limited to 10^9, the clamp range of the code."
 },
 "C35": {
  "status": "proved",
  "theorems": [
   "C35_push_depth"
  ],
  "note": ""
 },
 "C36": {
  "status": "proved",
  "theorems": [
   "C36_panics_iff",
   "C36_built_never_panics_generic",
   "C36_built_never_panics"
  ],
  "note": "stuck is the panic condition; built ranges over the exported constructors and methods."
 },
 "C37": {
  "status": "proved",
  "theorems": [
   "C37_flat_box_skipped",
   "C37_vertical_advance_exact",
   "C37_last_baseline_exact",
   "C37_flat_box_disagrees_exact"
  ],
  "note": "Exact arithmetic, with the failing flat-box case proved as well."
 },
 "C38": {
  "status": "proved",
  "theorems": [
   "C38_running_rule_h",
   "C38_running_rule_v"
  ],
  "note": ""
 },
 "C39": {
  "status": "proved",
  "theorems": [
   "C39_outcome",
   "C39_accepts",
   "C39_walk"
  ],
  "note": ""
 },
 "C40": {
  "status": "proved",
  "theorems": [
   "C40_scripts_panic"
  ],
  "note": ""
 },
 "C41": {
  "status": "proved",
  "theorems": [
   "C41_math_symbols"
  ],
  "note": ""
 },
 "C42": {
  "status": "proved",
  "theorems": [
   "C42_groups_dropped",
   "C42_content_irrelevant"
  ],
  "note": ""
 },
 "C43": {
  "status": "proved",
  "theorems": [
   "C43_restored",
   "C43_sequence",
   "C43_inside"
  ],
  "note": ""
 },
 "C44": {
  "status": "proved",
  "theorems": [
   "C44_known_handled",
   "C44_parsed_handled"
  ],
  "note": ""
 },
 "C45": {
  "status": "proved",
  "theorems": [
   "C45_frac_generic",
   "C45_binom_generic",
   "C45_frac",
   "C45_binom",
   "C45_centred_exact"
  ],
  "note": ""
 },
 "C46": {
  "status": "proved",
  "theorems": [
   "C46_spacing_generic",
   "C46_spacing"
  ],
  "note": ""
 },
 "C52": {
  "status": "proved",
  "theorems": [
   "C52_built",
   "C52_ship_never_panics"
  ],
  "note": ""
 },
 "C48": {
  "status": "proved",
  "theorems": [
   "C48_canvas_log",
   "C48_backend_log"
  ],
  "note": ""
 },
 "C49": {
  "status": "proved",
  "theorems": [
   "C49_history_independent_generic",
   "C49_history_independent",
   "C49_first_wins"
  ],
  "note": ""
 },
 "C50": {
  "status": "proved",
  "theorems": [
   "C50_consistent_exact",
   "C50_consistent_float",
   "C50_linear_exact",
   "C50_char_height_exact"
  ],
  "note": ""
 },
 "C51": {
  "status": "proved",
  "theorems": [
   "C51_parsed_at_most_once",
   "C51_same_value",
   "C51_never_changes",
   "C51_bad_file",
   "C51_no_race",
   "C51_no_deadlock"
  ],
  "note": ""
 },
 "C53": {
  "status": "proved",
  "theorems": [
   "C53_nonletters_upright",
   "C53_letters_italic"
  ],
  "note": ""
 },
 "C54": {
  "status": "proved",
  "theorems": [
   "C54_kern_zero",
   "C54_kern_unscaled"
  ],
  "note": ""
 },
 "C55": {
  "status": "proved",
  "theorems": [
   "C55_bold_italic_unused",
   "C55_unknown_type_panics",
   "C55_face_drawn"
  ],
  "note": ""
 },
 "C47": {
  "status": "proved",
  "theorems": [
   "C47_render_generic",
   "C47_error_generic",
   "C47_dpi_generic",
   "C47_render",
   "C47_error",
   "C47_dpi"
  ],
  "note": ""
 },
 "C56": {
  "status": "proved",
  "theorems": [
   "C56_drawn_as_measured_generic",
   "C56_drawn_as_measured"
  ],
  "note": ""
 },
 "C57": {
  "status": "proved",
  "theorems": [
   "C57_math_renders_generic",
   "C57_math_renders"
  ],
  "note": ""
 },
 "C58": {
  "status": "proved",
  "theorems": [
   "C58_image",
   "C58_size_float",
   "C58_size_exact",
   "C58_larger_exact",
   "C58_render_png"
  ],
  "note": ""
 },
 "C59": {
  "status": "proved",
  "theorems": [
   "C59_glyphs",
   "C59_reading"
  ],
  "note": ""
 },
 "C60": {
  "status": "proved",
  "theorems": [
   "C60_fraction",
   "C60_binom"
  ],
  "note": ""
 },
 "C61": {
  "status": "proved",
  "theorems": [
   "C61_overline_generic",
   "C61_overline_exact",
   "C61_overline_float64"
  ],
  "note": ""
 },
 "C62": {
  "status": "proved",
  "theorems": [
   "C62_sqrt_generic",
   "C62_sqrt_exact",
   "C62_sqrt_float64"
  ],
  "note": ""
 },
 "C63": {
  "status": "proved",
  "theorems": [
   "C63_auto_height_exact"
  ],
  "note": ""
 },
 "C64": {
  "status": "proved",
  "theorems": [
   "C64_size"
  ],
  "note": ""
 },
 "C65": {
  "status": "proved",
  "theorems": [
   "C65_parts",
   "C65_space",
   "C65_space_math"
  ],
  "note": ""
 },
 "C66": {
  "status": "proved",
  "theorems": [
   "C66_scaling"
  ],
  "note": ""
 },
 "C67": {
  "status": "proved",
  "theorems": [
   "C67_crash_generic",
   "C67_success_generic",
   "C67_succeeds_generic",
   "C67_error_generic",
   "C67_lost_generic",
   "C67_untouched_generic",
   "C67_crash",
   "C67_success",
   "C67_succeeds",
   "C67_error",
   "C67_lost",
   "C67_untouched"
  ],
  "note": ""
 },
 "C68": {
  "status": "proved",
  "theorems": [
   "C68_flags",
   "C68_help",
   "C68_status_generic",
   "C68_status"
  ],
  "note": ""
 },
 "C69": {
  "status": "proved",
  "theorems": [
   "C69_cache_transparent"
  ],
  "note": ""
 },
 "C70": {
  "status": "proved",
  "theorems": [
   "C70_box",
   "C70_picture",
   "C70_pixels",
   "C70_scaling"
  ],
  "note": ""
 },
 "C71": {
  "status": "proved",
  "theorems": [
   "C71_blank_page",
   "C71_canvas_ignored"
  ],
  "note": ""
 },
 "C72": {
  "status": "proved",
  "theorems": [
   "C72_gio",
   "C72_saves"
  ],
  "note": ""
 },
 "C73": {
  "status": "proved",
  "theorems": [
   "C73_kinds",
   "C73_share_exact",
   "C73_centred",
   "C73_middle_exact"
  ],
  "note": ""
 },
 "C74": {
  "status": "proved",
  "theorems": [
   "C74_char_exact",
   "C74_row_exact",
   "C74_unkerned_exact"
  ],
  "note": ""
 },
 "C75": {
  "status": "proved",
  "theorems": [
   "C75_line_exact",
   "C75_line_float64",
   "C75_xheight"
  ],
  "note": ""
 },
 "C76": {
  "status": "proved",
  "theorems": [
   "C76_picture",
   "C76_parts",
   "C76_truetype"
  ],
  "note": ""
 },
 "C77": {
  "status": "proved",
  "theorems": [
   "C77_room",
   "C77_no_bars",
   "C77_truetype"
  ],
  "note": ""
 },
 "C78": {
  "status": "proved",
  "theorems": [
   "C78_image",
   "C78_complete"
  ],
  "note": ""
 },
 "C79": {
  "status": "proved",
  "theorems": [
   "C79_frame_generic",
   "C79_script_generic",
   "C79_frame",
   "C79_script"
  ],
  "note": ""
 },
 "C80": {
  "status": "proved",
  "theorems": [
   "C80_end_generic",
   "C80_status_generic",
   "C80_ended_generic",
   "C80_screenshot_generic",
   "C80_files_generic",
   "C80_end",
   "C80_status",
   "C80_ended",
   "C80_screenshot",
   "C80_files"
  ],
  "note": ""
 },
 "C81": {
  "status": "proved",
  "theorems": [
   "C81_width",
   "C81_drift",
   "C81_drift_y",
   "C81_width_in_range"
  ],
  "note": ""
 },
 "C82": {
  "status": "proved",
  "theorems": [
   "C82_round_trip"
  ],
  "note": ""
 },
 "C83": {
  "status": "proved",
  "theorems": [
   "C83_sides",
   "C83_truetype"
  ],
  "note": ""
 },
 "C84": {
  "status": "proved",
  "theorems": [
   "C84_apart",
   "C84_truetype"
  ],
  "note": ""
 },
 "C85": {
  "status": "proved",
  "theorems": [
   "C85_declares",
   "C85_reproducible",
   "C85_failure",
   "C85_status",
   "C85_asked"
  ],
  "note": ""
 },
 "C86": {
  "status": "proved",
  "theorems": [
   "C86_units_exact",
   "C86_advance_iff"
  ],
  "note": ""
 },
 "C87": {
  "status": "proved",
  "theorems": [
   "C87_width",
   "C87_width_in_range",
   "C87_extent",
   "C87_positions",
   "C87_positions_in_range"
  ],
  "note": ""
 },
 "C88": {
  "status": "proved",
  "theorems": [
   "C88_tokens",
   "C88_unique",
   "C88_total",
   "C88_exclusive",
   "C88_parsed",
   "C88_unhandled"
  ],
  "note": ""
 },
 "C89": {
  "status": "proved",
  "theorems": [
   "C89_nodes",
   "C89_depth",
   "C89_calls"
  ],
  "note": ""
 },
 "C90": {
  "status": "proved",
  "theorems": [
   "C90_hpack",
   "C90_vpack",
   "C90_natural_float64",
   "C90_natural_exact",
   "C90_centred",
   "C90_centred_float64",
   "C90_fill"
  ],
  "note": ""
 },
 "C91": {
  "status": "proved",
  "theorems": [
   "C91_size",
   "C91_bound"
  ],
  "note": ""
 },
 "C92": {
  "status": "proved",
  "theorems": [
   "C92_box",
   "C92_picture",
   "C92_pixels"
  ],
  "note": ""
 },
 "C93": {
  "status": "proved",
  "theorems": [
   "C93_packages",
   "C93_long_line",
   "C93_arguments",
   "C93_success",
   "C93_failure",
   "C93_passes",
   "C93_coverage",
   "C93_complete"
  ],
  "note": ""
 },
 "C94": {
  "status": "proved",
  "theorems": [
   "C94_parse",
   "C94_shrink",
   "C94_grow",
   "C94_pack",
   "C94_ship",
   "C94_history",
   "C94_shared"
  ],
  "note": ""
 },
 "C95": {
  "status": "proved",
  "theorems": [
   "C95_calls",
   "C95_apart",
   "C95_no_race",
   "C95_ends",
   "C95_render",
   "C95_render_returns"
  ],
  "note": ""
 },
 "C96": {
  "status": "proved",
  "theorems": [
   "C96_same",
   "C96_exact",
   "C96_roots",
   "C96_float",
   "C96_truetype",
   "C96_render"
  ],
  "note": ""
 },
 "C97": {
  "status": "proved",
  "theorems": [
   "C97_picture",
   "C97_room",
   "C97_truetype",
   "C97_render"
  ],
  "note": ""
 }
}