{
 "claims": [
  {
   "property": "C01",
   "status": "proved",
   "theorems": [
    "id_pack_unpack",
    "id_too_wide_mask_rejected",
    "id_every_value_is_a_packing"
   ],
   "note": "Ids are numbers below 2^width (N with explicit wrap). FromMaskedIdx/getMask/getIndex are modelled with shifts and masks exactly as written; proved by bit lemmas."
  },
  {
   "property": "C02",
   "status": "partial",
   "theorems": [
    "id_set_mask_keeps_index",
    "id_set_unmasked_keeps_mask_refuted",
    "id_set_unmasked_always_clears_mask"
   ],
   "note": "The setMask half is proved; the setUnmasked half is false of the code and refuted."
  },
  {
   "property": "C03",
   "status": "partial",
   "theorems": [
    "id_step_moves_index",
    "id_incr_decr_are_steps",
    "id_step_exact",
    "id_distance_and_order",
    "id_step_saturates_refuted",
    "id_step_defined_iff_masked"
   ],
   "note": "Proved under the guard that the stepped index still fits; saturation of the index part (claimed by the code comment) is refuted; ids without mask bits shift by the word width (UB), shown exactly."
  },
  {
   "property": "C04",
   "status": "proved",
   "theorems": [
    "store_ids_are_permanent",
    "store_insert_writes_one_slot",
    "store_back_is_last_added",
    "store_insert_stores_value_refuted"
   ],
   "note": "The refuted theorem concerns insert at an id above the end, outside the property's add histories."
  },
  {
   "property": "C05",
   "status": "proved",
   "theorems": [
    "interning_is_injective",
    "interned_ids_keep_their_value",
    "intern_insert_keeps_interning_refuted"
   ],
   "note": "For add histories; the refuted theorem shows that explicit insert breaks it."
  },
  {
   "property": "C06",
   "status": "proved",
   "theorems": [
    "imm_id_carries_kind_and_index",
    "imm_id_injective",
    "imm_id_from_parts_is_store_id",
    "imm_id_bad_kind_rejected",
    "imm_default_id_is_nil_refuted"
   ],
   "note": "Model of the three constants and the combine functions on N with 64-bit wrap; bit lemmas."
  },
  {
   "property": "C07",
   "status": "proved",
   "theorems": [
    "tree_calls_build_the_tree",
    "tree_extents_are_descendants",
    "tree_positions_are_paths",
    "tree_history_refines_builder",
    "tree_unbalanced_history_throws",
    "tree_rollback"
   ],
   "note": "Also covers arbitrary token/open/close/fail histories (refinement to a stack builder) and the roll-back idiom of the parser."
  },
  {
   "property": "C08",
   "status": "proved",
   "theorems": [
    "child_count_and_index_agree",
    "child_count_of_terminal",
    "child_iteration_terminates"
   ],
   "note": "Holds for every node sequence, not only well-formed ones."
  },
  {
   "property": "C09",
   "status": "partial",
   "theorems": [
    "parent_lookup_partial",
    "parent_lookup_terminates_refuted"
   ],
   "note": "The full claim is false: exact characterisation proved (first children and the first root are answered correctly; every other child makes the query loop forever)."
  },
  {
   "property": "C10",
   "status": "partial",
   "theorems": [
    "node_equality_partial",
    "node_equality_exact",
    "node_equality_refuted"
   ],
   "note": "Full claim (equality is exact) is false; exact characterisation proved."
  },
  {
   "property": "C11",
   "status": "proved",
   "theorems": [
    "cursor_current_token_is_real",
    "cursor_collects_each_token_once",
    "cursor_next_moves_exactly",
    "cursor_finished_stays_finished",
    "cursor_skip_expects_current",
    "cursor_find_first",
    "cursor_find_after_skipping"
   ],
   "note": "History theorems cover plain cursors and cursors over a selection; the look-ahead searches are stated for plain cursors (see C12)."
  },
  {
   "property": "C12",
   "status": "partial",
   "theorems": [
    "cursor_lookahead_partial",
    "cursor_sequence_test",
    "sub_cursor_lookahead_exact",
    "sub_cursor_lookahead_refuted"
   ],
   "note": "Proved for contiguous walks; false for a selection with gaps, exact behaviour proved."
  },
  {
   "property": "C13",
   "status": "partial",
   "theorems": [
    "set_history_refines_sets",
    "set_equality_is_same_members",
    "set_inclusion_tests",
    "set_sizes_add_up",
    "set_iteration_lists_members",
    "set_iteration_exact",
    "set_iteration_lists_members_refuted",
    "set_json_round_trips",
    "set_signed_values_refuted"
   ],
   "note": "Membership, algebra, equality and inclusion proved for every element type with bit positions; iteration proved for unsigned types, char and zero-based enums, refuted for other enums (used by coloured text) and signed integers. Complement is not modelled: its body does not compile when instantiated."
  },
  {
   "property": "C14",
   "status": "partial",
   "theorems": [
    "slice_construction",
    "slice_membership",
    "slice_containment_is_inclusion",
    "slice_narrow_is_intersection",
    "slice_expand_reaches_value",
    "slice_expanded_is_hull",
    "slice_overlap_partial",
    "slice_overlap_refuted",
    "slice_iteration_visits_points",
    "slice_all_chars_refuted",
    "slice_span_positions"
   ],
   "note": "Everything but overlap of touching ranges, which is refuted and characterised exactly."
  },
  {
   "property": "C15",
   "status": "partial",
   "theorems": [
    "range_index_query_is_scan",
    "range_index_duplicates_refuted",
    "range_index_reversed_refuted"
   ],
   "note": "Proved for distinct non-empty ranges and any sort order; with two equal ranges the code calls std::sort with an invalid comparator (undefined behaviour), so the full claim is false."
  },
  {
   "property": "C16",
   "status": "partial",
   "theorems": [
    "segmentation_partial",
    "segmentation_query",
    "segmentation_covers_refuted"
   ],
   "note": "Order, disjointness, maximality and tags proved; coverage proved exactly: only the last point can be lost, which refutes the full claim."
  },
  {
   "property": "C17",
   "status": "proved",
   "theorems": [
    "tracker_is_path",
    "tracker_scope_restores",
    "tracker_traversal_paths"
   ],
   "note": "Persistent linked list model; refinement to list."
  },
  {
   "property": "C18",
   "status": "partial",
   "theorems": [
    "vector_order_partial",
    "vector_order_exact",
    "vector_order_refuted",
    "path_order_same_root_incomparable",
    "path_order_refuted"
   ],
   "note": "The full claim is false; the exact meaning of the comparison and what does hold are proved."
  },
  {
   "property": "C19",
   "status": "proved",
   "theorems": [
    "C19_split_keep_lossless",
    "C19_split_char_join",
    "C19_split_str_join",
    "C19_split_at_unique",
    "C19_split_str_empty_diverges"
   ],
   "note": "Also exact for string delimiters; an empty string delimiter never returns."
  },
  {
   "property": "C20",
   "status": "partial",
   "theorems": [
    "C20_replace_all_exact",
    "C20_replaced_unique",
    "C20_member_replace_all_partial",
    "C20_member_empty_pattern_refuted",
    "C20_member_empty_pattern_diverges",
    "C20_strip_exact",
    "C20_drop_prefix_exact",
    "C20_drop_suffix_exact"
   ],
   "note": "The free function and trimming are proved; the member function does not terminate for an empty pattern."
  },
  {
   "property": "C21",
   "status": "partial",
   "theorems": [
    "C21_validate_exact",
    "C21_text_unique",
    "C21_chunks_lossless",
    "C21_rune_count_partial",
    "C21_rune_count_refuted"
   ],
   "note": "Validation is exact against the UTF-8 encoding of Unicode scalar values; the rune count equals the number of non-continuation bytes on valid text only."
  },
  {
   "property": "C22",
   "status": "partial",
   "theorems": [
    "C22_escape_refuted",
    "C22_escape_injective_partial",
    "C22_escape_reversible_partial",
    "C22_quoted_reads_back_partial",
    "C22_escape_one_line",
    "C22_escape_literal_refuted",
    "C22_escape_literal_injective_partial"
   ],
   "note": "False in general; injective on texts without a backslash (or, for escape_literal, without byte 226)."
  },
  {
   "property": "C23",
   "status": "partial",
   "theorems": [
    "C23_left_aligned_partial",
    "C23_left_aligned_refuted",
    "C23_right_aligned",
    "C23_normalize_idempotent",
    "C23_normalize_exact",
    "C23_normalize_ignores_case",
    "C23_normalize_ignores_punctuation",
    "C23_iequals_exact"
   ],
   "note": "Left alignment is proved for valid UTF-8 and an ASCII fill, and refuted for text that ends inside a character."
  },
  {
   "property": "C24",
   "status": "proved",
   "theorems": [
    "C24_one_to_one_mirror",
    "C24_one_to_one_inverse",
    "C24_add_refused",
    "C24_many_to_one",
    "C24_many_to_one_erase",
    "C24_many_to_one_reports"
   ],
   "note": "Two association maps with operations; invariant over histories."
  },
  {
   "property": "C25",
   "status": "proved",
   "theorems": [
    "C25_registry_total",
    "C25_registry_inverse"
   ],
   "note": "Histories of fewer than 2^31 registrations (the index is an int)."
  },
  {
   "property": "C26",
   "status": "proved",
   "theorems": [
    "C26_levenshtein_optimal",
    "C26_script_produces_target"
   ],
   "note": "DP table as function with row recursion, back-trace as written; inductive alignment relation, optimality by induction."
  },
  {
   "property": "C27",
   "status": "proved",
   "theorems": [
    "C27_myers_shortest"
   ],
   "note": "C26_script_produces_target turns the returned script into an execution on sequences."
  },
  {
   "property": "C28",
   "status": "partial",
   "theorems": [
    "C28_lcs_partial",
    "C28_lcs_maximal_refuted"
   ],
   "note": "Always a common subsequence; maximal or empty; maximal if the first items are equal."
  },
  {
   "property": "C29",
   "status": "partial",
   "theorems": [
    "C29_fuzzy_iff_subsequence",
    "C29_empty_pattern_never_matches"
   ],
   "note": "Exact for every non-empty pattern and every recursion limit above one; the empty pattern is reported as not matching."
  },
  {
   "property": "C30",
   "status": "partial",
   "theorems": [
    "C30_shift_of_matches",
    "C30_shift_of_script",
    "C30_shift_of_any_script_partial",
    "C30_shift_of_script_refuted"
   ],
   "note": "Proved for match lists and for scripts without replacements; false for scripts with replacements."
  },
  {
   "property": "C31",
   "status": "proved",
   "theorems": [
    "C31_views_agree",
    "C31_remove_exact",
    "C31_relate_effect",
    "C31_unrelate_effect"
   ],
   "note": "For all histories, including calls that throw half-way, and every iteration order of the hash sets."
  },
  {
   "property": "C32",
   "status": "partial",
   "theorems": [
    "C32_acyclic_refuted",
    "C32_acyclic_partial"
   ],
   "note": "Nothing rejects a loop, so the full claim is false; proved for callers that never request one."
  },
  {
   "property": "C33",
   "status": "partial",
   "theorems": [
    "C33_readd_throws",
    "C33_readd_refuted",
    "C33_edge_queries_partial"
   ],
   "note": "False for every state: re-adding always throws (although the state is restored). Edge queries proved exact for histories without failed calls."
  },
  {
   "property": "C34",
   "status": "partial",
   "theorems": [
    "C34_views_agree",
    "C34_add_remove_exact",
    "C34_is_tracking",
    "C34_incoming_partial",
    "C34_incoming_refuted",
    "C34_predecessors_refuted"
   ],
   "note": "Outgoing side proved for all histories; the incoming side needs that no edge is removed while a parallel one exists; the predecessor query is wrong for every graph."
  },
  {
   "property": "C35",
   "status": "partial",
   "theorems": [
    "C35_recorded_once",
    "C35_port_keeps_vertex",
    "C35_add_port",
    "C35_lookup",
    "C35_connect_then_lookup",
    "C35_listings",
    "C35_edge_side_refuted"
   ],
   "note": "Everything about lookup by vertex, edge and side; the lookup by edge alone is ambiguous."
  },
  {
   "property": "C36",
   "status": "proved",
   "theorems": [
    "C36_old_versions_unchanged"
   ],
   "note": "Histories are sequences of adding values, importing documents, child-list edits and cascading updates, failing calls included."
  },
  {
   "property": "C37",
   "status": "partial",
   "theorems": [
    "C37_replace_partial",
    "C37_replace_one_partial",
    "C37_replace_meaning",
    "C37_replace_root",
    "C37_recorded",
    "C37_new_nodes",
    "C37_order_refuted",
    "C37_location_refuted"
   ],
   "note": "Proved up to source locations, for replacements none of which is inside another, when the sort used keeps the order of equal elements on the child lists that occur (GCC's std::sort up to 16 references per node); false beyond that."
  },
  {
   "property": "C38",
   "status": "partial",
   "theorems": [
    "C38_insert",
    "C38_append",
    "C38_insert_many",
    "C38_drop",
    "C38_drop_id",
    "C38_pop",
    "C38_move",
    "C38_set",
    "C38_swap",
    "C38_unchanged_refuted",
    "C38_out_of_range_refuted"
   ],
   "note": "Proved for positions in range and edits that change the list; some positions out of range are not refused, and edits without effect throw."
  },
  {
   "property": "C39",
   "status": "partial",
   "theorems": [
    "C39_chain_exact",
    "C39_chain_members",
    "C39_parent",
    "C39_siblings",
    "C39_tests",
    "C39_root_twice_refuted",
    "C39_twins_refuted"
   ],
   "note": "The chain is exact apart from the root being listed twice; the containment tests and the position among siblings go by id and fail for equal nodes."
  },
  {
   "property": "C40",
   "status": "partial",
   "theorems": [
    "C40_partition",
    "C40_groups",
    "C40_total_partial",
    "C40_end_refuted"
   ],
   "note": "Every grouping returned is the unique correct partition; missing: grouping fails for a paragraph that ends in the middle of a target."
  },
  {
   "property": "C41",
   "status": "partial",
   "theorems": [
    "C41_sound",
    "C41_complete_partial",
    "C41_one_edge",
    "C41_lost_refuted",
    "C41_waiting_refuted",
    "C41_places_refuted",
    "C41_order_refuted"
   ],
   "note": "Every entry leads to a node of the document with that name (hashtags excepted, see the finding); completeness when each added node completes at most one reference. Missing: references completed together, of which one document keeps only one."
  },
  {
   "property": "C42",
   "status": "partial",
   "theorems": [
    "C42_min_is_cheapest",
    "C42_min_total",
    "C42_min_returns_iff",
    "C42_min_layout_partial",
    "C42_min_returns_refuted",
    "C42_min_layout_refuted"
   ],
   "note": "Cost and width are those of a cheapest alternative whenever the call returns; exact condition for returning; the layout itself may be a dearer one."
  },
  {
   "property": "C43",
   "status": "partial",
   "theorems": [
    "C43_stack_sums_partial",
    "C43_stack_far_knot_hangs",
    "C43_stack_sums_refuted"
   ],
   "note": "Proved for margins up to column 4096; beyond that stacking never returns."
  },
  {
   "property": "C44",
   "status": "partial",
   "theorems": [
    "C44_terminates_partial",
    "C44_result_unique",
    "C44_once",
    "C44_once_file",
    "C44_complete",
    "C44_tree",
    "C44_complete_file",
    "C44_refuted",
    "C44_spelling_refuted"
   ],
   "note": "Termination whenever the reachable spellings are finite; each spelling visited once and everything needed reached. Missing: paths are not normalised, so '..' in includes can loop and a file can be parsed under several spellings."
  },
  {
   "property": "C45",
   "status": "partial",
   "theorems": [
    "C45_lead_unique",
    "C45_body_partial",
    "C45_link_lost",
    "C45_lead_nodes",
    "C45_footnote",
    "C45_footnote_body",
    "C45_reported_not_in_body",
    "C45_body_refuted",
    "C45_reported_refuted"
   ],
   "note": "The body is everything after the lead unless that begins with a link, which is lost."
  },
  {
   "property": "C46",
   "status": "partial",
   "theorems": [
    "C46_defined",
    "C46_first_match",
    "C46_innermost",
    "C46_custom_args",
    "C46_read_proper",
    "C46_spelling_refuted",
    "C46_subkind_refuted"
   ],
   "note": "Proved for definitions of one kind and spelling (exactly when the query does not throw)."
  },
  {
   "property": "C47",
   "status": "proved",
   "theorems": [
    "C47_lines",
    "C47_extract",
    "C47_runs",
    "C47_fragments",
    "C47_repeated_prefix_refuted",
    "C47_last_empty_refuted",
    "C47_longer_prefix_refuted"
   ],
   "note": "Exact description of the fragments as the maximal runs of comment lines; their text is exact unless a later line repeats a marker or the last one is empty."
  },
  {
   "property": "C48",
   "status": "partial",
   "theorems": [
    "bracket_group_partial",
    "bracket_group_nested_refuted",
    "bracket_group_double_open_refuted"
   ],
   "note": "Proved for groups without nested delimiters; nested groups with adjacent delimiters are refuted. Missing: exact behaviour of nested groups without adjacent delimiters."
  },
  {
   "property": "C49",
   "status": "partial",
   "theorems": [
    "C49_failed_call_partial",
    "C49_failed_call_refuted"
   ],
   "note": "Steps return the state left behind with a status. Proved for every operation except relation requests whose vertex pair or edge id is already recorded; refuted for those."
  },
  {
   "property": "C50",
   "status": "partial",
   "theorems": [
    "C50_remove_vertex_partial",
    "C50_remove_vertex_refuted"
   ],
   "note": "Proved for graphs without hierarchies; false for all others."
  },
  {
   "property": "C51",
   "status": "partial",
   "theorems": [
    "C51_crossings_partial",
    "C51_crossings_downward",
    "C51_different_trees_throw",
    "C51_crossings_refuted"
   ],
   "note": "Proved when the common ancestor is no farther from the source than from the target; downward edges and different trees characterised; refuted otherwise."
  },
  {
   "property": "C52",
   "status": "partial",
   "theorems": [
    "C52_common_ancestor_partial",
    "C52_common_ancestor_refuted"
   ],
   "note": "Proved for sets of at least two vertices none of which is above another, in any iteration order; refuted otherwise."
  },
  {
   "property": "C53",
   "status": "partial",
   "theorems": [
    "C53_nesting_level",
    "C53_chain_until_refuted"
   ],
   "note": "Nesting level proved exactly; the bound is shown to have no effect for any input."
  },
  {
   "property": "C54",
   "status": "proved",
   "theorems": [
    "C54_beside",
    "C54_text_fits",
    "C54_line_of_texts"
   ],
   "note": "For widths and margins up to 2^28, which stand for the range in which int arithmetic does not overflow."
  },
  {
   "property": "C55",
   "status": "partial",
   "theorems": [
    "C55_text_cost_exact",
    "C55_text_cost_partial",
    "C55_stack_of_texts",
    "C55_text_cost_refuted"
   ],
   "note": "Exact cost for all texts; false for texts wider than the right margin."
  },
  {
   "property": "C56",
   "status": "proved",
   "theorems": [
    "C56_format_events",
    "C56_columns",
    "C56_all_text_in_order"
   ],
   "note": "The work-stack loop is proved equal to a recursive reference printer; columns and order follow from that printer."
  },
  {
   "property": "C57",
   "status": "partial",
   "theorems": [
    "C57_block_reading_partial",
    "C57_block_reading_refuted"
   ],
   "note": "Proved for blocks without Empty parts."
  },
  {
   "property": "C58",
   "status": "partial",
   "theorems": [
    "C58_round_trip_partial",
    "C58_equality",
    "C58_location_refuted"
   ],
   "note": "Proved up to source locations; repeated values share the location of the first."
  },
  {
   "property": "C59",
   "status": "partial",
   "theorems": [
    "C59_sound",
    "C59_current_partial",
    "C59_complete_partial",
    "C59_duplicate_refuted",
    "C59_stale_tag_refuted",
    "C59_edit_fails_refuted"
   ],
   "note": "Every entry leads to a node of the document with that name (hashtags excepted, see the finding); completeness when no two nodes present at one time share a name."
  },
  {
   "property": "C60",
   "status": "partial",
   "theorems": [
    "C60_periods_exact",
    "C60_periods_partial",
    "C60_order",
    "C60_periods_refuted"
   ],
   "note": "Exact result; title and creation times are returned whether or not they were asked for."
  },
  {
   "property": "C61",
   "status": "partial",
   "theorems": [
    "C61_set_get_partial",
    "C61_others_partial",
    "C61_set_property_partial",
    "C61_set_refuted"
   ],
   "note": "Proved when names are spelled alike and are not names of property kinds."
  },
  {
   "property": "C62",
   "status": "partial",
   "theorems": [
    "C62_lookup",
    "C62_all",
    "C62_attached",
    "C62_first_partial",
    "C62_first_refuted"
   ],
   "note": "All but the first attribute of a command, which ignores attached lines."
  },
  {
   "property": "C63",
   "status": "proved",
   "theorems": [
    "C63_prefix",
    "C63_flat",
    "C63_intermediate"
   ],
   "note": "Rose trees; induction with the visited set as an accumulator."
  },
  {
   "property": "C64",
   "status": "partial",
   "theorems": [
    "C64_shape_partial",
    "C64_refuted"
   ],
   "note": "Exact shape of the loaded tree; only the first attempt for each include is against its own file."
  },
  {
   "property": "C65",
   "status": "partial",
   "theorems": [
    "C65_tokens_are_the_text",
    "C65_columns",
    "C65_lines_refuted",
    "C65_columns_bytes_refuted"
   ],
   "note": "Texts and offsets for all texts, columns for texts without multi-byte characters; the line is never set."
  },
  {
   "property": "C66",
   "status": "partial",
   "theorems": [
    "C66_tokenize_succeeds_partial",
    "C66_no_newline_refuted",
    "C66_no_newline_word_refuted",
    "C66_cut_character_refuted",
    "C66_open_link_refuted",
    "C66_open_block_refuted",
    "C66_colon_diverges_refuted"
   ],
   "note": "Proved under four conditions on the text (final newline, no cut-off character, closed links and verbatim blocks), each of which is needed."
  },
  {
   "property": "C67",
   "status": "partial",
   "theorems": [
    "C67_plain_text_partial",
    "C67_plain_text_refuted",
    "C67_separator_refuted"
   ],
   "note": "Proved for words of letters that do not begin with http or src; the rest of the claim is false."
  },
  {
   "property": "C68",
   "status": "proved",
   "theorems": [
    "C68_regroup_keeps_tokens",
    "C68_grouping_finishes",
    "C68_text_unchanged"
   ],
   "note": "For all token sequences."
  },
  {
   "property": "C69",
   "status": "partial",
   "theorems": [
    "C69_markers_balanced",
    "C69_list_nesting_partial",
    "C69_list_nesting_refuted"
   ],
   "note": "Balance for all documents; nesting for lists of one-line items with regular indentation. Missing: items with more lines or blocks between them."
  },
  {
   "property": "C70",
   "status": "partial",
   "theorems": [
    "C70_source_deindented_partial",
    "C70_blank_line_refuted"
   ],
   "note": "For a document that is one source block. Missing: a block inside other text."
  },
  {
   "property": "C71",
   "status": "partial",
   "theorems": [
    "C71_list_break_partial",
    "C71_list_break_refuted"
   ],
   "note": "For lists of one-line items with regular indentation; false for items with more lines."
  },
  {
   "property": "C72",
   "status": "partial",
   "theorems": [
    "C72_tokens_look_like_their_kind",
    "C72_newlines_and_markers",
    "C72_command_has_a_name",
    "C72_latex_commands_refuted",
    "C72_brace_refuted"
   ],
   "note": "Proved for all texts and all kinds, except that seven kinds of free text are not described and braces may be anything."
  },
  {
   "property": "C73",
   "status": "partial",
   "theorems": [
    "C73_regroup_succeeds_partial",
    "C73_document_partial",
    "C73_regroup_succeeds_refuted"
   ],
   "note": "Proved for texts where double angle brackets are not followed by a command on the same line; false otherwise."
  },
  {
   "property": "C74",
   "status": "partial",
   "theorems": [
    "C74_tokens_recombined",
    "C74_positions_in_order",
    "C74_words_survive",
    "C74_footnote_refuted",
    "C74_inline_source_refuted",
    "C74_property_name_refuted"
   ],
   "note": "Order, positions and words for all texts; false that what is cut off is only a delimiter and that the name of a property is its argument."
  },
  {
   "property": "C75",
   "status": "partial",
   "theorems": [
    "C75_markup_partial",
    "C75_markup_refuted",
    "C75_monospace_refuted"
   ],
   "note": "For lines of words with single spaces between them, with any of five marks on either side of any word; false for some other surroundings."
  },
  {
   "property": "C76",
   "status": "proved",
   "theorems": [
    "C76_parse_gives_a_tree",
    "C76_flat_parse_gives_a_tree"
   ],
   "note": "A program logic for parser steps (what a step takes and what it adds), proved for every parser function; soundness of the final check of the structure."
  },
  {
   "property": "C77",
   "status": "proved",
   "theorems": [
    "C77_parse_keeps_tokens",
    "C77_every_word_refuted"
   ],
   "note": "The refuted theorem is the statement without the exception for names of days."
  },
  {
   "property": "C78",
   "status": "partial",
   "theorems": [
    "C78_parse_returns_refuted",
    "C78_parse_ends_refuted"
   ],
   "note": "False of the code; the refutations go from the text of a document through all stages."
  },
  {
   "property": "C79",
   "status": "proved",
   "theorems": [
    "C79_headings_nest",
    "C79_one_nesting"
   ],
   "note": "Holds when no heading is inside another statement (a quote can hold one) and when no leaf has the nil token, which assertValidStructure refuses."
  },
  {
   "property": "C80",
   "status": "proved",
   "theorems": [
    "C80_nodes_have_their_fields",
    "C80_nested_nodes_have_their_fields"
   ],
   "note": "The kinds allowed for a field are those the parser makes; DESIGN.md says where OrgSpec.cpp's table asks for other kinds."
  },
  {
   "property": "C81",
   "status": "partial",
   "theorems": [
    "C81_slice_partial",
    "C81_slice_refuted"
   ],
   "note": "Right exactly for slices that start at place 1."
  },
  {
   "property": "C82",
   "status": "partial",
   "theorems": [
    "C82_conversion_partial",
    "C82_one_meaning",
    "C82_document_partial",
    "C82_gathered_once",
    "C82_zone_refuted"
   ],
   "note": "For trees of the forms of `means` (ConvSpec.v): words, marks, paragraphs, headings with completion, tags and times, lists, quotes, examples, tables, links, footnotes, times, ranges, targets, criticism marks, macros, attributes, symbols, fixed text, captions, names and source code with arguments. Missing: drawers, properties, logbooks, counters of list items, inline export and calls, includes, and the checks of times, formulas and column formats, which are parameters."
  },
  {
   "property": "C83",
   "status": "partial",
   "theorems": [
    "C83_statements",
    "C83_heading",
    "C83_document",
    "C83_attached_refuted"
   ],
   "note": "For all statements in statement lists, headings and documents; false for centred text, dynamic blocks and list items."
  },
  {
   "property": "C84",
   "status": "partial",
   "theorems": [
    "C84_words_partial",
    "C84_document_partial",
    "C84_text_refuted"
   ],
   "note": "For the forms of C82; outside them text is lost."
  },
  {
   "property": "C85",
   "status": "partial",
   "theorems": [
    "C85_converted_refuted"
   ],
   "note": "False of the code; the forms of C82 are always converted (C82_conversion_partial)."
  },
  {
   "property": "C86",
   "status": "partial",
   "theorems": [
    "C86_edits_partial",
    "C86_places",
    "C86_root_refuted"
   ],
   "note": "For roots of the same kind; false otherwise. Node ids are assumed to be unique in a tree."
  },
  {
   "property": "C87",
   "status": "partial",
   "theorems": [
    "C87_no_edits",
    "C87_same_partial",
    "C87_identical_refuted"
   ],
   "note": "Proved in one direction for all trees and in the other when no node has two equal children; false otherwise."
  },
  {
   "property": "C88",
   "status": "proved",
   "theorems": [
    "C88_kept",
    "C88_update"
   ],
   "note": "C88_update shows that the update edit for matched nodes of different value is never used below the root."
  },
  {
   "property": "C89",
   "status": "proved",
   "theorems": [
    "C89_matching",
    "C89_costs_refuted",
    "C89_bounds_refuted"
   ],
   "note": "Proved for costs of one for removing and inserting, the only ones the public options have by default; the refuted theorems are about other values of these two options."
  },
  {
   "property": "C90",
   "status": "partial",
   "theorems": [
    "C90_reports",
    "C90_order_partial",
    "C90_order_refuted",
    "C90_update_refuted",
    "C90_places_refuted"
   ],
   "note": "The account of nodes is proved for all trees. The order of siblings is proved for parents that no node enters or leaves by a move, and is false in general; the update flag and the places of moves are wrong."
  },
  {
   "property": "C91",
   "status": "proved",
   "theorems": [
    "C91_no_changes"
   ],
   "note": "From C90: all nodes are matched under matched parents; going from the last sibling to the first shows that none is shifted, so their places agree; induction over the tree."
  },
  {
   "property": "C92",
   "status": "partial",
   "theorems": [
    "C92_same_partial",
    "C92_default_partial",
    "C92_flat_refuted"
   ],
   "note": "Proved for trees with more levels than MinHeight or at most MaxSize nodes; false for the others."
  },
  {
   "property": "C93",
   "status": "partial",
   "theorems": [
    "C93_same_words",
    "C93_unchanged_partial",
    "C93_compared",
    "C93_titles_refuted",
    "C93_code_refuted"
   ],
   "note": "Proved for what subnodes reach and for the text of the six kinds of leaves; false for titles and code."
  },
  {
   "property": "C94",
   "status": "partial",
   "theorems": [
    "C94_same_partial",
    "C94_insert_refuted",
    "C94_delete_refuted"
   ],
   "note": "Proved for equal documents; false in general."
  },
  {
   "property": "C95",
   "status": "proved",
   "theorems": [
    "C95_plain_document"
   ],
   "note": "For all documents of `plain_document` (PlainSpec.v): words of letters, single blanks, marks around groups of words, one blank line or more between paragraphs."
  },
  {
   "property": "C96",
   "status": "partial",
   "theorems": [
    "C96_keyword_refuted"
   ],
   "note": "False of the code without a priority; with one the keyword is read (C82_conversion_partial)."
  },
  {
   "property": "C97",
   "status": "proved",
   "theorems": [
    "C97_block_text"
   ],
   "note": "For blocks of texts, lines and stacks; choices, wraps and verbatim blocks are C43-C45."
  },
  {
   "property": "C98",
   "status": "proved",
   "theorems": [
    "C98_plain_format"
   ],
   "note": "For all documents of `plain_document` that are not empty; the newline at the end of the text is left out."
  },
  {
   "property": "C99",
   "status": "partial",
   "theorems": [
    "C99_round_trip",
    "C99_last_line_refuted",
    "C99_unended_refuted"
   ],
   "note": "Proved for plain documents when a newline is added to the formatted text; false without it."
  },
  {
   "property": "C100",
   "status": "partial",
   "theorems": [
    "C100_layout",
    "C100_words_partial",
    "C100_document_partial",
    "C100_break_refuted",
    "C100_error_refuted",
    "C100_include_refuted"
   ],
   "note": "Proved for trees of `keeps`: words, marks, paragraphs, headings, lists, quotes, tables, links with a description, footnotes, symbols and simple commands. False for line breaks inside marks, errors and some commands."
  },
  {
   "property": "C101",
   "status": "partial",
   "theorems": [
    "C101_plain_partial",
    "C101_example_refuted",
    "C101_term_refuted",
    "C101_target_refuted",
    "C101_empty_title_refuted"
   ],
   "note": "True of plain documents; false in general."
  },
  {
   "property": "C102",
   "status": "partial",
   "theorems": [
    "C102_constructs",
    "C102_document",
    "C102_protocol_refuted",
    "C102_level_refuted",
    "C102_call_refuted",
    "C102_repeated_refuted"
   ],
   "note": "Proved for trees of `writes` (WriteSpec.v). Not in it: quoted attribute values, settings, drawers and logs, extended tables, code with results, calls, errors. False for links of unknown protocols or to titles below the first level, for calls with arguments and for attributes given twice."
  },
  {
   "property": "C103",
   "status": "partial",
   "theorems": [
    "C103_slice",
    "C103_ragged_refuted"
   ],
   "note": "Proved for rectangular arrays with a span for every dimension considered. For tables with rows of different length reading past the end of a row is possible."
  },
  {
   "property": "C104",
   "status": "partial",
   "theorems": [
    "C104_arguments",
    "C104_table",
    "C104_unnamed_refuted",
    "C104_file_refuted",
    "C104_text_result_refuted"
   ],
   "note": "Proved for every question that is asked. False: a setting without variable or with a file reference ends the evaluation; a block whose result is text is replaced by its name."
  },
  {
   "property": "C105",
   "status": "proved",
   "theorems": [
    "C105_options",
    "C105_readable"
   ],
   "note": "Tables of words (EvalSpec.v); fold over the words."
  },
  {
   "property": "C106",
   "status": "proved",
   "theorems": [
    "C106_questions",
    "C106_total"
   ],
   "note": "Of evaluations that end without an error; which errors end one is in C104 and C107."
  },
  {
   "property": "C107",
   "status": "partial",
   "theorems": [
    "C107_stored_partial",
    "C107_second_refuted",
    "C107_reference_refuted",
    "C107_call_table_refuted"
   ],
   "note": "Holds for the first question that changes its block. False for all later ones: their answers are lost."
  },
  {
   "property": "C108",
   "status": "partial",
   "theorems": [
    "C108_compact",
    "C108_sorted",
    "C108_short",
    "C108_null_refuted",
    "C108_name_refuted",
    "C108_bytes_refuted"
   ],
   "note": "Proved for values without null, with UTF-8 text and field names without quotes, backslashes and control characters; and, if the value fits on one line, for null and all names too. False for the others."
  },
  {
   "property": "C109",
   "status": "proved",
   "theorems": [
    "C109_places",
    "C109_values"
   ],
   "note": "Places in a value are paths (JsonSpec.v); induction over paths in both directions."
  },
  {
   "property": "C110",
   "status": "partial",
   "theorems": [
    "C110_round_trip",
    "C110_unknown",
    "C110_missing",
    "C110_variant_refuted",
    "C110_nested_refuted",
    "C110_pointer_refuted",
    "C110_default_refuted",
    "C110_hidden_refuted"
   ],
   "note": "Proved for the types of `restorable` (JsonSpec.v). False for variants, C strings, optionals of optionals, records with two fields of one name, and optional fields that a new record does not leave empty when empty ones are not written. Real numbers are their text."
  },
  {
   "property": "C111",
   "status": "partial",
   "theorems": [
    "C111_levels",
    "C111_moves",
    "C111_text_refuted",
    "C111_twin_refuted",
    "C111_physical_refuted"
   ],
   "note": "Proved for headings with only headings below them, different from the other headings of their parent, nodes with at most 15 references. False with text below, for equal headings and for demoting a heading alone."
  },
  {
   "property": "C112",
   "status": "partial",
   "theorems": [
    "C112_plain",
    "C112_fewest",
    "C112_justified",
    "C112_words",
    "C112_exact_refuted",
    "C112_last_refuted"
   ],
   "note": "Exact for all words and widths. False: words that fill the line exactly are torn apart; the last line of justified text is stretched."
  },
  {
   "property": "C113",
   "status": "partial",
   "theorems": [
    "C113_table",
    "C113_empty",
    "C113_letters_refuted"
   ],
   "note": "Proved with places and widths counted in bytes; false for characters, since widths are counted in bytes."
  },
  {
   "property": "C114",
   "status": "proved",
   "theorems": [
    "C114_digits",
    "C114_distinct"
   ],
   "note": "Positional value of digits; induction over the loops."
  },
  {
   "property": "C115",
   "status": "partial",
   "theorems": [
    "C115_history",
    "C115_document",
    "C115_imports",
    "C115_edited",
    "C115_twin_refuted",
    "C115_dropped_refuted"
   ],
   "note": "Exact for every history; complete for imported documents, and after edits for documents none of whose nodes was replaced. False if one of several equal nodes is edited, and for contents of dropped nodes. Only kinds that take part in tracking are listed (by default all but words, spaces and the like)."
  },
  {
   "property": "C116",
   "status": "partial",
   "theorems": [
    "C116_lookup",
    "C116_swap_refuted",
    "C116_radio_refuted",
    "C116_hashtag_refuted"
   ],
   "note": "Proved as long as at no time two nodes that were not replaced share a key; nodes dropped from the document count as not replaced. False when names are swapped in one edit, for radio targets that occur twice, and for hash tags that are no longer defined."
  },
  {
   "property": "C117",
   "status": "partial",
   "theorems": [
    "C117_lines",
    "C117_shown",
    "C117_shown_refuted",
    "C117_cut_refuted",
    "C117_limit_refuted",
    "C117_undefined_refuted",
    "C117_grouped",
    "C117_grouped_refuted"
   ],
   "note": "Which lines are kept is proved in general; the printed text only where every element stands on the line of its own number. False after any insertion or deletion, with a limit on widths, for empty comparisons, and not side by side."
  },
  {
   "property": "C118",
   "status": "partial",
   "theorems": [
    "C118_place",
    "C118_place_refuted",
    "C118_report",
    "C118_break_refuted",
    "C118_end_refuted",
    "C118_repeated_refuted",
    "C118_twice_refuted",
    "C118_width_refuted"
   ],
   "note": "Proved for labels inside the text that do not end with a line break, except that a label of several lines may also be written below its first line. False for the others; drawing of margins and arrows is not modelled."
  },
  {
   "property": "C119",
   "status": "partial",
   "theorems": [
    "C119_instant",
    "C119_read",
    "C119_write",
    "C119_spelling",
    "C119_fields",
    "C119_minute_refuted",
    "C119_zone_refuted",
    "C119_negative_refuted",
    "C119_digit_refuted",
    "C119_hours_refuted",
    "C119_clock_refuted",
    "C119_warning_refuted",
    "C119_noon_refuted"
   ],
   "note": "Proved for times from 1677 to 2262, years of four digits, alignment to days, minutes or seconds, no zone or one of whole hours east of Greenwich. False for the others. cctz is not in the repository and modelled after its documentation."
  },
  {
   "property": "C120",
   "status": "partial",
   "theorems": [
    "C120_kept",
    "C120_again",
    "C120_id",
    "C120_lexed",
    "C120_unread_refuted",
    "C120_archive_time_refuted",
    "C120_throws_refuted",
    "C120_json_refuted",
    "C120_hashtag_refuted",
    "C120_cookie_refuted"
   ],
   "note": "Proved for plain properties, ids, radio ids, archive files, categories, states, targets and paths, efforts, visibility, creation times, JSON values that are no lists or objects, and arguments. False for the other kinds. Values of the texts of paragraphs, arguments and JSON are parameters."
  },
  {
   "property": "C121",
   "status": "partial",
   "theorems": [
    "C121_read",
    "C121_written",
    "C121_unknown",
    "C121_stops",
    "C121_state_time_refuted",
    "C121_removed_refuted",
    "C121_number_refuted",
    "C121_deadline_refuted",
    "C121_unknown_twice_refuted",
    "C121_throws_refuted"
   ],
   "note": "Reading proved for all lines of the sentences and all descriptions (for changes of state: those that do not say on, and have no names in capitals if there was no state before); writing proved for the same entries; C121_stops says exactly which items throw. False for removed and numbered priorities, deadlines, unknown entries. That the line written is split into the nodes that fit its sentence is shown by examples only."
  },
  {
   "property": "C122",
   "status": "partial",
   "theorems": [
    "C122_read",
    "C122_default",
    "C122_unknown",
    "C122_startup",
    "C122_indent",
    "C122_marked",
    "C122_signs_refuted",
    "C122_fixed_refuted",
    "C122_no_value_refuted",
    "C122_tasks_refuted",
    "C122_dropped_refuted",
    "C122_lost_refuted",
    "C122_five_refuted",
    "C122_keywords_refuted"
   ],
   "note": "Reading proved for all lines of items whose names have letters; reading and writing of #+startup: for all values but five levels; unknown items reported. False for names of signs, fixed-width sections, items without a value, tasks, wrong values, and for writing all settings but marked broken links."
  },
  {
   "property": "C123",
   "status": "partial",
   "theorems": [
    "C123_captions",
    "C123_attributes",
    "C123_description",
    "C123_made",
    "C123_kinds_refuted",
    "C123_attr_list_refuted",
    "C123_numbered_refuted"
   ],
   "note": "Proved for all statements and kinds, for lines of attributes whose target does not start with attr. False for lines of other kinds, targets called attr..., and numbered lists."
  },
  {
   "property": "C124",
   "status": "partial",
   "theorems": [
    "C124_one_node",
    "C124_header_index",
    "C124_set_body",
    "C124_inserted",
    "C124_paragraph",
    "C124_heading",
    "C124_paths",
    "C124_creation_refuted",
    "C124_outside_refuted"
   ],
   "note": "Proved but for the creation time of a heading with both a time in its title and a property, and for inserting at an index outside of the list, which is undefined."
  },
  {
   "property": "C125",
   "status": "partial",
   "theorems": [
    "C125_read",
    "C125_written",
    "C125_sum_refuted",
    "C125_rest_refuted",
    "C125_written_refuted"
   ],
   "note": "Reading proved for all lines with one space between columns, for the summaries the code knows; writing for columns without summaries. False for other summaries, for lines that are no list of columns, and for writing summaries."
  },
  {
   "property": "C126",
   "status": "partial",
   "theorems": [
    "C126_start",
    "C126_end",
    "C126_partition",
    "C126_fixed_refuted",
    "C126_back_refuted"
   ],
   "note": "Proved for moves of the start forward, of the end both ways, and partitions. False for the end of a window of fixed size and for moving the start back."
  },
  {
   "property": "C127",
   "status": "partial",
   "theorems": [
    "C127_written",
    "C127_escaped",
    "C127_comment",
    "C127_set_attr",
    "C127_dash_refuted",
    "C127_cdata_refuted",
    "C127_raw_refuted"
   ],
   "note": "Proved for trees of elements, comments that do not end with a dash, and CDATA sections without their end in them. False for the others and for raw data."
  }
 ]
}
