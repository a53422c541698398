# Formal model of haxorg core components

Rocq (Coq 8.16.1) development under `rocq/theories`, logical prefix `Verif`.

## Layout

For every component `X` there are up to four files:

- `XModel.v`: executable Gallina transcription of the C++ code. Every definition cites the file and
  lines in `/repo` it models and says where it simplifies. No proofs.
- `XSpec.v`: the small specification used by the statements, independent of the model's helpers.
- `XProofs.v`: the lemmas.
- `XProps.v`: only the property theorems, each closed by `exact lemma`, each followed by
  `Print Assumptions`, with `Example`s showing that the hypotheses are met by concrete non-trivial
  values.

## Conventions

- C++ exceptions (`throw`, failed `LOGIC_ASSERTION_CHECK`) are an explicit error outcome (`None` or a
  dedicated constructor), never a default value. Undefined behaviour is a separate outcome.
- Loops that the code does not obviously bound get explicit fuel; running out of fuel is its own
  outcome and theorems either prove it does not happen or are stated as divergence for every fuel.
- `theorem_refuted` means that the natural full statement is false of the faithful model; the witness is in
  the proof, and it is listed under Findings.
- `theorem_partial` means that only part of the property is proved; the missing part is named.

## Properties: what is modelled and how it is proved

- **C01 Packed ids read back exactly what was packed** — Ids are numbers below 2^width (N with explicit wrap). FromMaskedIdx/getMask/getIndex are modelled with shifts and masks exactly as written; proved by bit lemmas. Theorems: `id_pack_unpack`, `id_too_wide_mask_rejected`, `id_every_value_is_a_packing` (status: proved).
- **C02 Changing one half of an id keeps the other half** — Same model as C01; the setMask half is proved, the setUnmasked half is false of the code (shifted-down mask is OR-ed into the index bits) and is refuted with a witness. Theorems: `id_set_mask_keeps_index`, `id_set_unmasked_keeps_mask_refuted`, `id_set_unmasked_always_clears_mask` (status: partial). The setMask half is proved; the setUnmasked half is false of the code and refuted.
- **C03 Stepping ids** — Same id model with saturating_add/sub; positive law proved under the no-overflow guard; overflow into the mask bits refuted. Theorems: `id_step_moves_index`, `id_incr_decr_are_steps`, `id_step_exact`, `id_distance_and_order`, `id_step_saturates_refuted`, `id_step_defined_iff_masked` (status: partial). Proved under the guard that the stepped index still fits; saturation of the index part (claimed by the code comment) is refuted; ids without mask bits shift by the word width (UB), shown exactly.
- **C04 Append-only store hands out permanent ids** — Store modelled as a list with its operations; history = fold over an operation list; invariant + refinement to the list of added values. Theorems: `store_ids_are_permanent`, `store_insert_writes_one_slot`, `store_back_is_last_added`, `store_insert_stores_value_refuted` (status: proved). The refuted theorem concerns insert at an id above the end, outside the property's add histories.
- **C05 Interning: equal values share an id, different values never do** — InternStore modelled as content list + id map; invariant id_map <-> content, proved over histories; direct insert at an id is shown to break it (refuted). Theorems: `interning_is_injective`, `interned_ids_keep_their_value`, `intern_insert_keeps_interning_refuted` (status: proved). For add histories; the refuted theorem shows that explicit insert breaks it.
- **C06 Document node id carries kind and index without interference** — Model of the three constants and the combine functions on N with 64-bit wrap; bit lemmas. Theorems: `imm_id_carries_kind_and_index`, `imm_id_injective`, `imm_id_from_parts_is_store_id`, `imm_id_bad_kind_rejected`, `imm_default_id_is_nil_refuted` (status: proved).
- **C07 Flat parse tree is the tree the parser opened and closed** — NodeGroup modelled as list of nodes + stack of open trees; induction over trees (serialisation/deserialisation refinement). Theorems: `tree_calls_build_the_tree`, `tree_extents_are_descendants`, `tree_positions_are_paths`, `tree_history_refines_builder`, `tree_unbalanced_history_throws`, `tree_rollback` (status: proved). Also covers arbitrary token/open/close/fail histories (refinement to a stack builder) and the roll-back idiom of the parser.
- **C08 Indexing and counting children agree with iteration** — Functions over the C07 model; proved as corollaries of the C07 representation lemma. Theorems: `child_count_and_index_agree`, `child_count_of_terminal`, `child_iteration_terminates` (status: proved). Holds for every node sequence, not only well-formed ones.
- **C09 Parent lookup** — parent() modelled with fuel over the C07 store; divergence for a concrete tree is refuted for every fuel, the cases where it is right are proved. Theorems: `parent_lookup_partial`, `parent_lookup_terminates_refuted` (status: partial). The full claim is false: exact characterisation proved (first children and the first root are answered correctly; every other child makes the query loop forever).
- **C10 Node equality** — Node equality transcribed; refuted (terminal vs non-terminal of same kind) and characterised exactly. Theorems: `node_equality_partial`, `node_equality_exact`, `node_equality_refuted` (status: partial). Full claim (equality is exact) is false; exact characterisation proved.
- **C11 Token cursor stays in range and consumes each token once** — Lexer as (tokens, pos) with explicit nil; operations as list functions; proved by induction over histories. Theorems: `cursor_current_token_is_real`, `cursor_collects_each_token_once`, `cursor_next_moves_exactly`, `cursor_finished_stays_finished`, `cursor_skip_expects_current`, `cursor_find_first`, `cursor_find_after_skipping` (status: proved). History theorems cover plain cursors and cursors over a selection; the look-ahead searches are stated for plain cursors (see C12).
- **C12 Sub-lexer lookahead sees the sub-lexer's own tokens** — SubLexer modelled with its token-id list; contiguous case proved, general claim refuted. Theorems: `cursor_lookahead_partial`, `cursor_sequence_test`, `sub_cursor_lookahead_exact`, `sub_cursor_lookahead_refuted` (status: partial). Proved for contiguous walks; false for a selection with gaps, exact behaviour proved.
- **C13 Integer sets behave as mathematical sets** — Bitset as list bool of fixed length; refinement to membership predicate. Theorems: `set_history_refines_sets`, `set_equality_is_same_members`, `set_inclusion_tests`, `set_sizes_add_up`, `set_iteration_lists_members`, `set_iteration_exact`, `set_iteration_lists_members_refuted`, `set_json_round_trips`, `set_signed_values_refuted` (status: partial). Membership, algebra, equality and inclusion proved for every element type with bit positions; iteration proved for unsigned types, char and zero-based enums, refuted for other enums (used by coloured text) and signed integers. Complement is not modelled: its body does not compile when instantiated.
- **C14 Slices: containment, narrowing, overlap** — Slice over Z; contains/containment proved against the point set; overlap is refuted for ranges sharing one boundary point and characterised exactly. Theorems: `slice_construction`, `slice_membership`, `slice_containment_is_inclusion`, `slice_narrow_is_intersection`, `slice_expand_reaches_value`, `slice_expanded_is_hull`, `slice_overlap_partial`, `slice_overlap_refuted`, `slice_iteration_visits_points`, `slice_all_chars_refuted`, `slice_span_positions` (status: partial). Everything but overlap of touching ranges, which is refuted and characterised exactly.
- **C15 Range index query equals linear scan** — Tree built with fuel = number of ranges (termination proved); permutation equality with filter. Theorems: `range_index_query_is_scan`, `range_index_duplicates_refuted`, `range_index_reversed_refuted` (status: partial). Proved for distinct non-empty ranges and any sort order; with two equal ranges the code calls std::sort with an invalid comparator (undefined behaviour), so the full claim is false.
- **C16 Segmenting overlapping ranges covers every point** — Sweep modelled; final one-point segment loss refuted; disjointness/order and correctness of emitted segments proved. Theorems: `segmentation_partial`, `segmentation_query`, `segmentation_covers_refuted` (status: partial). Order, disjointness, maximality and tags proved; coverage proved exactly: only the last point can be lost, which refutes the full claim.
- **C17 Path tracker restores the path** — Persistent linked list model; refinement to list. Theorems: `tracker_is_path`, `tracker_scope_restores`, `tracker_traversal_paths` (status: proved).
- **C18 Vector ordering is an ordering** — Comparison transcribed; asymmetry refuted for vectors, incomparability transitivity refuted for ids; irreflexivity proved. Theorems: `vector_order_partial`, `vector_order_exact`, `vector_order_refuted`, `path_order_same_root_incomparable`, `path_order_refuted` (status: partial). The full claim is false; the exact meaning of the comparison and what does hold are proved.
- **C19 Splitting text loses nothing** — Strings as lists of bytes; loops transcribed; induction over the string. Theorems: `C19_split_keep_lossless`, `C19_split_char_join`, `C19_split_str_join`, `C19_split_at_unique`, `C19_split_str_empty_diverges` (status: proved). Also exact for string delimiters; an empty string delimiter never returns.
- **C20 Replace-all and prefix/suffix trimming** — Loops with fuel; termination proved for non-empty pattern, divergence for empty pattern refuted for every fuel. Theorems: `C20_replace_all_exact`, `C20_replaced_unique`, `C20_member_replace_all_partial`, `C20_member_empty_pattern_refuted`, `C20_member_empty_pattern_diverges`, `C20_strip_exact`, `C20_drop_prefix_exact`, `C20_drop_suffix_exact` (status: partial). The free function and trimming are proved; the member function does not terminate for an empty pattern.
- **C21 UTF-8 validation and rune chunking** — Byte lists; decoder transcribed; inductive specification of well-formed UTF-8. Theorems: `C21_validate_exact`, `C21_text_unique`, `C21_chunks_lossless`, `C21_rune_count_partial`, `C21_rune_count_refuted` (status: partial). Validation is exact against the UTF-8 encoding of Unicode scalar values; the rune count equals the number of non-continuation bytes on valid text only.
- **C22 Escaping for output is reversible** — Transcribed; injectivity refuted (backslash is not escaped), injectivity on backslash-free text proved. Theorems: `C22_escape_refuted`, `C22_escape_injective_partial`, `C22_escape_reversible_partial`, `C22_quoted_reads_back_partial`, `C22_escape_one_line`, `C22_escape_literal_refuted`, `C22_escape_literal_injective_partial` (status: partial). False in general; injective on texts without a backslash (or, for escape_literal, without byte 226).
- **C23 Aligning text to a column** — Transcribed over byte lists; length computed in runes. Theorems: `C23_left_aligned_partial`, `C23_left_aligned_refuted`, `C23_right_aligned`, `C23_normalize_idempotent`, `C23_normalize_exact`, `C23_normalize_ignores_case`, `C23_normalize_ignores_punctuation`, `C23_iequals_exact` (status: partial). Left alignment is proved for valid UTF-8 and an ASCII fill, and refuted for text that ends inside a character.
- **C24 Two-way maps stay mirror images** — Two association maps with operations; invariant over histories. Theorems: `C24_one_to_one_mirror`, `C24_one_to_one_inverse`, `C24_add_refused`, `C24_many_to_one`, `C24_many_to_one_erase`, `C24_many_to_one_reports` (status: proved).
- **C25 Source file registry** — Store + bimap model; invariant over histories. Theorems: `C25_registry_total`, `C25_registry_inverse` (status: proved). Histories of fewer than 2^31 registrations (the index is an int).
- **C26 Edit distance is minimal and its script is valid** — DP table as function with row recursion, back-trace as written; inductive alignment relation, optimality by induction. Theorems: `C26_levenshtein_optimal`, `C26_script_produces_target` (status: proved).
- **C27 Myers diff returns a valid, shortest script** — Front array, d/k loops, snake as written; furthest-reaching invariant. Theorems: `C27_myers_shortest` (status: proved). C26_script_produces_target turns the returned script into an execution on sequences.
- **C28 Longest common subsequence** — Memo table threaded as written (its contents steer the walk along the first row and column); soundness and 'empty or maximal' proved; maximality refuted ('ab' vs 'cb'). Theorems: `C28_lcs_partial`, `C28_lcs_maximal_refuted` (status: partial). Always a common subsequence; maximal or empty; maximal if the first items are equal.
- **C29 Fuzzy matching** — Recursion with the recursion counter; soundness and completeness against the subsequence relation. Theorems: `C29_fuzzy_iff_subsequence`, `C29_empty_pattern_never_matches` (status: partial). Exact for every non-empty pattern and every recursion limit above one; the empty pattern is reported as not matching.
- **C30 Aligned diff keeps every item** — Constructor loops transcribed; projection lemmas. Theorems: `C30_shift_of_matches`, `C30_shift_of_script`, `C30_shift_of_any_script_partial`, `C30_shift_of_script_refuted` (status: partial). Proved for match lists and for scripts without replacements; false for scripts with replacements.
- **C31 Vertex hierarchy: parent and child views agree** — State record of maps; invariant over histories. Theorems: `C31_views_agree`, `C31_remove_exact`, `C31_relate_effect`, `C31_unrelate_effect` (status: proved). For all histories, including calls that throw half-way, and every iteration order of the hash sets.
- **C32 Hierarchy is acyclic / ancestor queries terminate** — Refuted: two accepted operations form a cycle and the chain query diverges for every fuel; chain termination proved for acyclic histories. Theorems: `C32_acyclic_refuted`, `C32_acyclic_partial` (status: partial). Nothing rejects a loop, so the full claim is false; proved for callers that never request one.
- **C33 Hierarchy relation can be removed and re-added** — Refuted (edge record stays, re-adding throws); what is restored is proved. Theorems: `C33_readd_throws`, `C33_readd_refuted`, `C33_edge_queries_partial` (status: partial). False for every state: re-adding always throws (although the state is restored). Edge queries proved exact for histories without failed calls.
- **C34 Edge collection: incidence lists agree with edges** — State of maps, invariant; parallel-edge removal refutes the predecessor half. Theorems: `C34_views_agree`, `C34_add_remove_exact`, `C34_is_tracking`, `C34_incoming_partial`, `C34_incoming_refuted`, `C34_predecessors_refuted` (status: partial). Outgoing side proved for all histories; the incoming side needs that no edge is removed while a parallel one exists; the predecessor query is wrong for every graph.
- **C35 Ports** — State of maps; invariant over histories. Theorems: `C35_recorded_once`, `C35_port_keeps_vertex`, `C35_add_port`, `C35_lookup`, `C35_connect_then_lookup`, `C35_listings`, `C35_edge_side_refuted` (status: partial). Everything about lookup by vertex, edge and side; the lookup by edge alone is ambiguous.
- **C36 Edits never change older document versions** — Interned store of nodes, versions as root ids; denotation of ids as trees; store-extension monotonicity. Theorems: `C36_old_versions_unchanged` (status: proved). Histories are sequences of adding values, importing documents, child-list edits and cascading updates, failing calls included.
- **C37 Replacing a node at a path updates exactly that position** — Path-copying over the interned store refined to functional tree update. Theorems: `C37_replace_partial`, `C37_replace_one_partial`, `C37_replace_meaning`, `C37_replace_root`, `C37_recorded`, `C37_new_nodes`, `C37_order_refuted`, `C37_location_refuted` (status: partial). Proved up to source locations, for replacements none of which is inside another, when the sort used keeps the order of equal elements on the child lists that occur (GCC's std::sort up to 16 references per node); false beyond that.
- **C38 Child-list edits do what their names say** — List model per operation against independent list specifications. Theorems: `C38_insert`, `C38_append`, `C38_insert_many`, `C38_drop`, `C38_drop_id`, `C38_pop`, `C38_move`, `C38_set`, `C38_swap`, `C38_unchanged_refuted`, `C38_out_of_range_refuted` (status: partial). Proved for positions in range and edits that change the list; some positions out of range are not refused, and edits without effect throw.
- **C39 Ancestor chain of a node** — Refuted (root is listed twice; root is its own ancestor); membership correctness proved. Theorems: `C39_chain_exact`, `C39_chain_members`, `C39_parent`, `C39_siblings`, `C39_tests`, `C39_root_twice_refuted`, `C39_twins_refuted` (status: partial). The chain is exact apart from the root being listed twice; the containment tests and the position among siblings go by id and fail for equal nodes.
- **C40 Radio-target grouping keeps all child nodes in order** — Loop transcribed over leaf kinds/text; partition theorem; out-of-range throw at end of text refuted. Theorems: `C40_partition`, `C40_groups`, `C40_total_partial`, `C40_end_refuted` (status: partial). Every grouping returned is the unique correct partition; missing: grouping fails for a paragraph that ends in the middle of a target.
- **C41 Mind-map links: every resolvable link gets its edge** — Map-graph state machine with the search in the duplicate filter as a parameter; soundness by an invariant over histories, completeness with the pending links as an exact function of the added nodes; refuted where several references complete together. Theorems: `C41_sound`, `C41_complete_partial`, `C41_one_edge`, `C41_lost_refuted`, `C41_waiting_refuted`, `C41_places_refuted`, `C41_order_refuted` (status: partial). Every entry leads to a node of the document with that name (hashtags excepted, see the finding); completeness when each added node completes at most one reference. Missing: references completed together, of which one document keeps only one.
- **C42 Pretty-printer choice picks the cheapest layout at every column** — Piecewise-linear cost functions over Z (exact arithmetic instead of float); on termination the pointwise minimum is proved; termination refuted for a tie at a crossover. Theorems: `C42_min_is_cheapest`, `C42_min_total`, `C42_min_returns_iff`, `C42_min_layout_partial`, `C42_min_returns_refuted`, `C42_min_layout_refuted` (status: partial). Cost and width are those of a cheapest alternative whenever the call returns; exact condition for returning; the layout itself may be a dearer one.
- **C43 Stacked layouts add their costs** — Same model as C42. Theorems: `C43_stack_sums_partial`, `C43_stack_far_knot_hangs`, `C43_stack_sums_refuted` (status: partial). Proved for margins up to column 4096; beyond that stacking never returns.
- **C44 Recursive document loading terminates and loads each path once** — File system as finite function on component lists; traversal with visited set; termination measure = unvisited paths. Refuted for mutual includes written with '../' (path strings grow), proved when path strings form a finite set. Theorems: `C44_terminates_partial`, `C44_result_unique`, `C44_once`, `C44_once_file`, `C44_complete`, `C44_tree`, `C44_complete_file`, `C44_refuted`, `C44_spelling_refuted` (status: partial). Termination whenever the reachable spellings are finite; each spelling visited once and everything needed reached. Missing: paths are not normalised, so '..' in includes can loop and a file can be parsed under several spellings.
- **C45 Paragraph body and lead nodes** — Loop transcribed; refuted for a leading ordinary link, suffix part proved. Theorems: `C45_lead_unique`, `C45_body_partial`, `C45_link_lost`, `C45_lead_nodes`, `C45_footnote`, `C45_footnote_body`, `C45_reported_not_in_body`, `C45_body_refuted`, `C45_reported_refuted` (status: partial). The body is everything after the lead unless that begins with a link, which is lost.
- **C46 Property inheritance** — Fold over property records; spec = last writer per key. Theorems: `C46_defined`, `C46_first_match`, `C46_innermost`, `C46_custom_args`, `C46_read_proper`, `C46_spelling_refuted`, `C46_subkind_refuted` (status: partial). Proved for definitions of one kind and spelling (exactly when the query does not throw).
- **C47 Comment block extraction** — Line loop transcribed; invariant over the fold. Theorems: `C47_lines`, `C47_extract`, `C47_runs`, `C47_fragments`, `C47_repeated_prefix_refuted`, `C47_last_empty_refuted`, `C47_longer_prefix_refuted` (status: proved). Exact description of the fragments as the maximal runs of comment lines; their text is exact unless a later line repeats a marker or the last one is empty.
- **C48 Reading a bracketed group of tokens** — Loop transcribed over the C11 cursor; proved for groups without nesting, refuted for nested groups whose delimiters touch. Theorems: `bracket_group_partial`, `bracket_group_nested_refuted`, `bracket_group_double_open_refuted` (status: partial). Proved for groups without nested delimiters; nested groups with adjacent delimiters are refuted. Missing: exact behaviour of nested groups without adjacent delimiters.
- **C49 A failed hierarchy call changes nothing** — Steps return the state left behind with a status. Proved for every operation except relation requests whose vertex pair or edge id is already recorded; refuted for those. Theorems: `C49_failed_call_partial`, `C49_failed_call_refuted` (status: partial).
- **C50 Removing a vertex from a graph** — Graph = vertex set, hierarchies, edge collections. Proved without hierarchies; with any hierarchy the call never succeeds (refuted for all states). Theorems: `C50_remove_vertex_partial`, `C50_remove_vertex_refuted` (status: partial). Proved for graphs without hierarchies; false for all others.
- **C51 Hierarchy crossings of an edge** — Proved when the common ancestor is no farther from the source than from the target; downward edges and different trees characterised; refuted otherwise. Theorems: `C51_crossings_partial`, `C51_crossings_downward`, `C51_different_trees_throw`, `C51_crossings_refuted` (status: partial).
- **C52 Common ancestor of a vertex set** — Proved for sets of at least two vertices none of which is above another, in any iteration order; refuted otherwise. Theorems: `C52_common_ancestor_partial`, `C52_common_ancestor_refuted` (status: partial).
- **C53 Ancestor chain up to a bound; nesting level** — Nesting level proved exactly; the bound is shown to have no effect for any input. Theorems: `C53_nesting_level`, `C53_chain_until_refuted` (status: partial).
- **C54 Side-by-side layouts share one overhang** — Same cost functions as C42; proved from the shape of text costs for widths and margins up to 2^28. Theorems: `C54_beside`, `C54_text_fits`, `C54_line_of_texts` (status: proved). For widths and margins up to 2^28, which stand for the range in which int arithmetic does not overflow.
- **C55 A text pays for the columns that stick out** — Exact cost proved for every text; equal to the claim up to the width of the right margin, refuted beyond it. Theorems: `C55_text_cost_exact`, `C55_text_cost_partial`, `C55_stack_of_texts`, `C55_text_cost_refuted` (status: partial). Exact cost for all texts; false for texts wider than the right margin.
- **C56 Printing a layout** — The work-stack loop is proved equal to a recursive reference printer; columns and order follow from that printer. Theorems: `C56_format_events`, `C56_columns`, `C56_all_text_in_order` (status: proved).
- **C57 Laying out loses no text** — Blocks as trees; proved for blocks without Empty parts, refuted with them. Wrap and Verb blocks are not modelled. Theorems: `C57_block_reading_partial`, `C57_block_reading_refuted` (status: partial). Proved for blocks without Empty parts.
- **C58 Import into and export from the immutable store** — Bottom-up interning of trees into the store and its inverse; denotation is injective on values. Theorems: `C58_round_trip_partial`, `C58_equality`, `C58_location_refuted` (status: partial). Proved up to source locations; repeated values share the location of the first.
- **C59 Names found after edits lead to the right nodes** — The maps as association lists, updated per event; soundness as an invariant of all histories, completeness for histories in which no two nodes of the document share a name, counterexamples otherwise. Theorems: `C59_sound`, `C59_current_partial`, `C59_complete_partial`, `C59_duplicate_refuted`, `C59_stale_tag_refuted`, `C59_edit_fails_refuted` (status: partial). Every entry leads to a node of the document with that name (hashtags excepted, see the finding); completeness when no two nodes present at one time share a name.
- **C60 Time periods of a heading** — The function as written; exact membership, order and multiplicity; the filter is ignored for two kinds. Theorems: `C60_periods_exact`, `C60_periods_partial`, `C60_order`, `C60_periods_refuted` (status: partial). Exact result; title and creation times are returned whether or not they were asked for.
- **C61 Setting a property of a heading** — Property lists with all kinds; read-after-write proved where present definitions are spelled as the query, counterexamples otherwise. Theorems: `C61_set_get_partial`, `C61_others_partial`, `C61_set_property_partial`, `C61_set_refuted` (status: partial). Proved when names are spelled alike and are not names of property kinds.
- **C62 Attributes of a statement** — Argument groups as built by conversion; lookup proved equal to filtering the text's argument list. Theorems: `C62_lookup`, `C62_all`, `C62_attached`, `C62_first_partial`, `C62_first_refuted` (status: partial). All but the first attribute of a command, which ignores attached lines.
- **C63 Nested hashtags** — Rose trees; induction with the visited set as an accumulator. Theorems: `C63_prefix`, `C63_flat`, `C63_intermediate` (status: proved).
- **C64 Included text keeps its own place** — Loaded trees described by an inductive relation indexed by the files a node is nested in: each include is tried for, and each link refers to, every one of them; the claim itself is refuted as soon as two directories are involved. Theorems: `C64_shape_partial`, `C64_refuted` (status: partial). Exact shape of the loaded tree; only the first attempt for each include is against its own file.
- **C65 Tokens are the text** — The whole lexer, function by function, with an explicit cursor; a relation between states (tokens produced = text between the two cursors) is shown to hold of every function and to compose. Theorems: `C65_tokens_are_the_text`, `C65_columns`, `C65_lines_refuted`, `C65_columns_bytes_refuted` (status: partial). Texts and offsets for all texts, columns for texts without multi-byte characters; the line is never set.
- **C66 Lexing always gives a result** — Outcome of the lexer model; success proved for texts that end with a newline and have closed links and verbatim blocks, by progress of every case; a counterexample for each condition. Theorems: `C66_tokenize_succeeds_partial`, `C66_no_newline_refuted`, `C66_no_newline_word_refuted`, `C66_cut_character_refuted`, `C66_open_link_refuted`, `C66_open_block_refuted`, `C66_colon_diverges_refuted` (status: partial). Proved under four conditions on the text (final newline, no cut-off character, closed links and verbatim blocks), each of which is needed.
- **C67 Plain text is lexed word by word** — Induction over lines and words with the exact cursor after each token; counterexamples from words that begin like a keyword and from an indented table. Theorems: `C67_plain_text_partial`, `C67_plain_text_refuted`, `C67_separator_refuted` (status: partial). Proved for words of letters that do not begin with http or src; the rest of the claim is false.
- **C68 Regrouping loses nothing** — Lines, groups and conversion as total functions; token sequence of each stage related to the one before. Theorems: `C68_regroup_keeps_tokens`, `C68_grouping_finishes`, `C68_text_unchanged` (status: proved). For all token sequences.
- **C69 Nesting markers match the indentation** — Balance by induction over groups; nesting depth against a separate definition of the lists open after a sequence of indentations, for regular sequences, with a counterexample for the others. Theorems: `C69_markers_balanced`, `C69_list_nesting_partial`, `C69_list_nesting_refuted` (status: partial). Balance for all documents; nesting for lists of one-line items with regular indentation. Missing: items with more lines or blocks between them.
- **C70 Source code keeps its shape** — Minimum over the lines; grouping of the lines of a block inverted; whitespace-only lines as counterexample to ignoring them. Theorems: `C70_source_deindented_partial`, `C70_blank_line_refuted` (status: partial). For a document that is one source block. Missing: a block inside other text.
- **C71 Two empty lines end a list** — The separator between equally indented items in lists of one-line items; counterexample with an item of two lines. Theorems: `C71_list_break_partial`, `C71_list_break_refuted` (status: partial). For lists of one-line items with regular indentation; false for items with more lines.
- **C72 The kind of a token says what its text is** — One specification with the spelling of every kind, and an invariant that every case of the lexer adds only such tokens. Theorems: `C72_tokens_look_like_their_kind`, `C72_newlines_and_markers`, `C72_command_has_a_name`, `C72_latex_commands_refuted`, `C72_brace_refuted` (status: partial). Proved for all texts and all kinds, except that seven kinds of free text are not described and braces may be anything.
- **C73 Every lexed document can be regrouped** — Invariants of the lexer's output (command names, list markers not last, source lines) carried through lines and groups; a counterexample for the one condition. Theorems: `C73_regroup_succeeds_partial`, `C73_document_partial`, `C73_regroup_succeeds_refuted` (status: partial). Proved for texts where double angle brackets are not followed by a command on the same line; false otherwise.
- **C74 The tokens given to the parser are the tokens of the document** — A relation that says what becomes of every kind of token, proved for all inputs on which the stage succeeds; consequences for positions and words; counterexamples for three delimiters. Theorems: `C74_tokens_recombined`, `C74_positions_in_order`, `C74_words_survive`, `C74_footnote_refuted`, `C74_inline_source_refuted`, `C74_property_name_refuted` (status: partial). Order, positions and words for all texts; false that what is cut off is only a delimiter and that the name of a property is its argument.
- **C75 Marks around words open and close markup** — From the text to the final tokens for lines of words with single spaces and any marks; counterexamples for other surroundings. Theorems: `C75_markup_partial`, `C75_markup_refuted`, `C75_monospace_refuted` (status: partial). For lines of words with single spaces between them, with any of five marks on either side of any word; false for some other surroundings.
- **C76 Parsing gives one tree** — A program logic for parser steps (what a step takes and what it adds), proved for every parser function; soundness of the final check of the structure. Theorems: `C76_parse_gives_a_tree`, `C76_flat_parse_gives_a_tree` (status: proved).
- **C77 Parsing loses no text** — Every parser step keeps or drops each token it passes, dropping only tokens whose kind is checked to be notation; sub-lexers, backtracking and the folding of nested markup included. Theorems: `C77_parse_keeps_tokens`, `C77_every_word_refuted` (status: proved). The refuted theorem is the statement without the exception for names of days.
- **C78 Every document can be parsed** — False: documents on which the modelled pipeline throws, and one on which it runs forever, for every number of rounds. Theorems: `C78_parse_returns_refuted`, `C78_parse_ends_refuted` (status: partial). False of the code; the refutations go from the text of a document through all stages.
- **C79 Headings nest by their level** — The whole parser is modelled; the array with the rewritten extents is shown to be the flat form of a tree that is well nested and that unnests to the statements, and such a tree is unique. Theorems: `C79_headings_nest`, `C79_one_nesting` (status: proved). Holds when no heading is inside another statement (a quote can hold one) and when no leaf has the nil token, which assertValidStructure refuses.
- **C80 Nodes of the parse tree have the fields of their kind** — A program logic for the parser (ParseShape) that follows what every function appends to the tree; the layouts are a table of the kinds of fields written apart from the parser. Theorems: `C80_nodes_have_their_fields`, `C80_nested_nodes_have_their_fields` (status: proved). The kinds allowed for a field are those the parser makes; DESIGN.md says where OrgSpec.cpp's table asks for other kinds.
- **C81 A slice of a string is the characters between its ends** — str_at models Str::at on top of the modelled getSpan; equivalence with the characters between the ends exactly when the slice starts at place 1; a counterexample otherwise. Theorems: `C81_slice_partial`, `C81_slice_refuted` (status: partial). Right exactly for slices that start at place 1.
- **C82 Conversion gives each construct its meaning** — The converter is modelled function by function; the meaning is a relation written apart from it, with one rule for each construct; induction over the size of the tree. Theorems: `C82_conversion_partial`, `C82_one_meaning`, `C82_document_partial`, `C82_gathered_once`, `C82_zone_refuted` (status: partial). For trees of the forms of `means` (ConvSpec.v): words, marks, paragraphs, headings with completion, tags and times, lists, quotes, examples, tables, links, footnotes, times, ranges, targets, criticism marks, macros, attributes, symbols, fixed text, captions, names and source code with arguments. Missing: drawers, properties, logbooks, counters of list items, inline export and calls, includes, and the checks of times, formulas and column formats, which are parameters.
- **C83 Commands are attached to the statement they stand before** — A logic for the results of the converter shows that no converted statement has anything attached yet; the gathering relation has one result for each list; counterexamples for containers that do not use it. Theorems: `C83_statements`, `C83_heading`, `C83_document`, `C83_attached_refuted` (status: partial). For all statements in statement lists, headings and documents; false for centred text, dynamic blocks and list items.
- **C84 Conversion keeps the text and the outline** — Words and outline of trees and of documents are two small functions; induction over the meaning relation of C82; counterexamples outside it. Theorems: `C84_words_partial`, `C84_document_partial`, `C84_text_refuted` (status: partial). For the forms of C82; outside them text is lost.
- **C85 Every parsed document can be converted** — False: documents on which the modelled pipeline, from text to document, throws. Theorems: `C85_converted_refuted` (status: partial). False of the code; the forms of C82 are always converted (C82_conversion_partial).
- **C86 Carrying out the edits between two trees gives the second tree** — patch (EagerSpec.v) carries out edits on a tree and knows nothing of how they are found; induction over the second tree with the edits below a pair of places as the invariant; a counterexample for roots of different kinds. Theorems: `C86_edits_partial`, `C86_places`, `C86_root_refuted` (status: partial). For roots of the same kind; false otherwise. Node ids are assumed to be unique in a tree.
- **C87 No edits mean equal trees, and equal trees give no edits** — One direction from C86; the other by induction when no two siblings are equal; a counterexample for repeated siblings. Theorems: `C87_no_edits`, `C87_same_partial`, `C87_identical_refuted` (status: partial). Proved in one direction for all trees and in the other when no node has two equal children; false otherwise.
- **C88 Nothing is removed and added again under the same node** — The counts of equal children left on the two sides are the invariant of the loop. Theorems: `C88_kept`, `C88_update` (status: proved). C88_update shows that the update edit for matched nodes of different value is never used below the root.
- **C89 Matching two trees ends and gives a one-to-one matching of nodes that may be matched** — The tables after computeForestDist satisfy the recurrence of the distance (an invariant of its loops); reading back keeps to allowed pairs and ends by a measure on the pairs of subtrees; the first phase links disjoint subtrees that are the same. Counterexamples for costs other than one. Theorems: `C89_matching`, `C89_costs_refuted`, `C89_bounds_refuted` (status: proved). Proved for costs of one for removing and inserting, the only ones the public options have by default; the refuted theorems are about other values of these two options.
- **C90 The list of changes accounts for every node** — Each mark is shown to be decided once, by the mapping; the shifted positions count the siblings that are not shifted; a counting argument over the permutation of the siblings gives their order. Counterexamples for the order in general, the update flag of moves and the places of moves. Theorems: `C90_reports`, `C90_order_partial`, `C90_order_refuted`, `C90_update_refuted`, `C90_places_refuted` (status: partial). The account of nodes is proved for all trees. The order of siblings is proved for parents that no node enters or leaves by a move, and is false in general; the update flag and the places of moves are wrong.
- **C91 No changes mean equal trees** — From C90: all nodes are matched under matched parents; going from the last sibling to the first shows that none is shifted, so their places agree; induction over the tree. Theorems: `C91_no_changes` (status: proved).
- **C92 Equal trees give no changes** — Trees higher than MinHeight are matched in the first phase; for the others the distance tables are zero on the diagonal and never negative, so reading back stays on the diagonal. A counterexample for wide flat trees. Theorems: `C92_same_partial`, `C92_default_partial`, `C92_flat_refuted` (status: partial). Proved for trees with more levels than MinHeight or at most MaxSize nodes; false for the others.
- **C93 Comparison of documents sees every change of text** — The store and the callbacks are modelled on the documents of the modelled converter; C89-C91 for words reached by subnodes; counterexamples, from the text of documents, for titles and code. Theorems: `C93_same_words`, `C93_unchanged_partial`, `C93_compared`, `C93_titles_refuted`, `C93_code_refuted` (status: partial). Proved for what subnodes reach and for the text of the six kinds of leaves; false for titles and code.
- **C94 Edits between immutable documents fit the matching** — getEdits is modelled with the trees it passes to getMapped; proved for equal documents; counterexamples otherwise. Theorems: `C94_same_partial`, `C94_insert_refuted`, `C94_delete_refuted` (status: partial). Proved for equal documents; false in general.
- **C95 A document of headings and paragraphs is read as it is meant** — The text is cut into lexemes and roles are given to marks as for C75, the parser is followed forward statement by statement, headings are nested by C79 and its uniqueness, and the tree is converted by C82. No fuel is assumed beyond a linear bound. Theorems: `C95_plain_document` (status: proved). For all documents of `plain_document` (PlainSpec.v): words of letters, single blanks, marks around groups of words, one blank line or more between paragraphs.
- **C96 A keyword at the start of a heading is its keyword** — A counterexample from the text of a heading; C82 has the reading of headings whose tree has the keyword. Theorems: `C96_keyword_refuted` (status: partial). False of the code without a priority; with one the keyword is read (C82_conversion_partial).
- **C97 A block without alternatives is printed as it is built** — The layout functions of C43-C45 with an invariant that carries the printed text of each piece of the solution; the text is a function of the block in LayoutTextSpec.v. Theorems: `C97_block_text` (status: proved). For blocks of texts, lines and stacks; choices, wraps and verbatim blocks are C43-C45.
- **C98 A document of headings and paragraphs is formatted as it was meant** — The formatter is modelled for all kinds of nodes (FormatModel.v); its blocks for plain documents are texts, lines and stacks without empty ones, so C97 gives the text. Theorems: `C98_plain_format` (status: proved). For all documents of `plain_document` that are not empty; the newline at the end of the text is left out.
- **C99 Formatting and reading again gives the same document** — C98 followed by C95: true after a newline is added at the end, false of the text as it is returned. Theorems: `C99_round_trip`, `C99_last_line_refuted`, `C99_unended_refuted` (status: partial). Proved for plain documents when a newline is added to the formatted text; false without it.
- **C100 Formatting keeps the words of a document** — The layout keeps the visible characters of any block; induction over trees of the kinds in `keeps` (FormatSpec.v); counterexamples for the others. Theorems: `C100_layout`, `C100_words_partial`, `C100_document_partial`, `C100_break_refuted`, `C100_error_refuted`, `C100_include_refuted` (status: partial). Proved for trees of `keeps`: words, marks, paragraphs, headings, lists, quotes, tables, links with a description, footnotes, symbols and simple commands. False for line breaks inside marks, errors and some commands.
- **C101 Formatting is stable** — For plain documents C99 gives it; counterexamples from the text of documents for example blocks, description lists, targets and empty titles. Theorems: `C101_plain_partial`, `C101_example_refuted`, `C101_term_refuted`, `C101_target_refuted`, `C101_empty_title_refuted` (status: partial). True of plain documents; false in general.
- **C102 Every construct is written in its syntax** — The syntax is a relation between trees and lines (WriteSpec.v) that does not use the formatter; induction over trees shows that the blocks of the formatter have these lines, C97 gives the text. Theorems: `C102_constructs`, `C102_document`, `C102_protocol_refuted`, `C102_level_refuted`, `C102_call_refuted`, `C102_repeated_refuted` (status: partial). Proved for trees of `writes` (WriteSpec.v). Not in it: quoted attribute values, settings, drawers and logs, extended tables, code with results, calls, errors. False for links of unknown protocols or to titles below the first level, for calls with arguments and for attributes given twice.
- **C103 Slices of tables** — Slices are a relation on arrays (EvalSpec.v); induction over the spans, for the paths the code follows from the whole array. Theorems: `C103_slice`, `C103_ragged_refuted` (status: partial). Proved for rectangular arrays with a span for every dimension considered. For tables with rows of different length reading past the end of a row is possible.
- **C104 Variables of code blocks** — Invariant of the loop over blocks: the names known are those of the document, each with the content it has there; the map of arguments by induction over the settings. Theorems: `C104_arguments`, `C104_table`, `C104_unnamed_refuted`, `C104_file_refuted`, `C104_text_result_refuted` (status: partial). Proved for every question that is asked. False: a setting without variable or with a file reference ends the evaluation; a block whose result is text is replaced by its name.
- **C105 Options of results** — Tables of words (EvalSpec.v); fold over the words. Theorems: `C105_options`, `C105_readable` (status: proved).
- **C106 Order of evaluation** — Document order is a relation on places; the collected places are strictly ordered by it and are all the blocks; invariant of the loop. Theorems: `C106_questions`, `C106_total` (status: proved). Of evaluations that end without an error; which errors end one is in C104 and C107.
- **C107 Results are stored in the document** — Invariant of the loop: the document is the given one until a question changes its block, then that one with this change. That later answers are stored too is false. Theorems: `C107_stored_partial`, `C107_second_refuted`, `C107_reference_refuted`, `C107_call_table_refuted` (status: partial). Holds for the first question that changes its block. False for all later ones: their answers are lost.
- **C108 JSON text means the value** — The grammar of RFC 8259 as a relation (JsonSpec.v); induction over values, for every size function. Theorems: `C108_compact`, `C108_sorted`, `C108_short`, `C108_null_refuted`, `C108_name_refuted`, `C108_bytes_refuted` (status: partial). Proved for values without null, with UTF-8 text and field names without quotes, backslashes and control characters; and, if the value fits on one line, for null and all names too. False for the others.
- **C109 Removing fields from JSON** — Places in a value are paths (JsonSpec.v); induction over paths in both directions. Theorems: `C109_places`, `C109_values` (status: proved).
- **C110 Values survive JSON** — One type of C++ types and one of C++ values (JsonModel.v), the template instances as functions on types; induction over types. Theorems: `C110_round_trip`, `C110_unknown`, `C110_missing`, `C110_variant_refuted`, `C110_nested_refuted`, `C110_pointer_refuted`, `C110_default_refuted`, `C110_hidden_refuted` (status: partial). Proved for the types of `restorable` (JsonSpec.v). False for variants, C strings, optionals of optionals, records with two fields of one name, and optional fields that a new record does not leave empty when empty ones are not written. Real numbers are their text.
- **C111 Demoting a heading** — Trees before and after (DemoteSpec.v). Invariant of the recursion over subtrees; a commit with the edits below a place is simulated by the commit with one edit there (C37). Theorems: `C111_levels`, `C111_moves`, `C111_text_refuted`, `C111_twin_refuted`, `C111_physical_refuted` (status: partial). Proved for headings with only headings below them, different from the other headings of their parent, nodes with at most 15 references. False with text below, for equal headings and for demoting a heading alone.
- **C112 Wrapping text** — Invariant of the loop over the words; the padding loop ends after one pass; the greedy division is compared with every other one by induction. Theorems: `C112_plain`, `C112_fewest`, `C112_justified`, `C112_words`, `C112_exact_refuted`, `C112_last_refuted` (status: partial). Exact for all words and widths. False: words that fill the line exactly are torn apart; the last line of justified text is stretched.
- **C113 Tables of text** — Places of rows and columns are sums over the table (WrapSpec.v); induction over rows and columns. Theorems: `C113_table`, `C113_empty`, `C113_letters_refuted` (status: partial). Proved with places and widths counted in bytes; false for characters, since widths are counted in bytes.
- **C114 Numbers in groups of digits** — Positional value of digits; induction over the loops. Theorems: `C114_digits`, `C114_distinct` (status: proved).
- **C115 All places of a node are found** — Histories of added and replaced nodes (PathsSpec.v). Invariant: a node is in the list of another exactly if it refers to it and was not replaced since it was made. Ids of parents are larger, so the recursion ends; induction over it. Theorems: `C115_history`, `C115_document`, `C115_imports`, `C115_edited`, `C115_twin_refuted`, `C115_dropped_refuted` (status: partial). Exact for every history; complete for imported documents, and after edits for documents none of whose nodes was replaced. False if one of several equal nodes is edited, and for contents of dropped nodes. Only kinds that take part in tracking are listed (by default all but words, spaces and the like).
- **C116 Nodes are found by their keys** — Histories of added and replaced nodes (PathsSpec.v), keys of nodes (KeysSpec.v). Invariant: the maps hold exactly the keys of nodes not replaced. Theorems: `C116_lookup`, `C116_swap_refuted`, `C116_radio_refuted`, `C116_hashtag_refuted` (status: partial). Proved as long as at no time two nodes that were not replaced share a key; nodes dropped from the document count as not replaced. False when names are swapped in one edit, for radio targets that occur twice, and for hash tags that are no longer defined.
- **C117 Printed comparisons** — Induction over the lines with the count of unchanged lines before; the range loops from both ends (ShowSpec.v). Theorems: `C117_lines`, `C117_shown`, `C117_shown_refuted`, `C117_cut_refuted`, `C117_limit_refuted`, `C117_undefined_refuted`, `C117_grouped`, `C117_grouped_refuted` (status: partial). Which lines are kept is proved in general; the printed text only where every element stands on the line of its own number. False after any insertion or deletion, with a limit on widths, for empty comparisons, and not side by side.
- **C118 Reports of errors** — Text as lines joined by breaks (ReportProofs.v); the line of a position by the search for it; per line, at most one note for a label, by uniqueness of ids; invariant of the grouping loop (ReportGroups.v). Theorems: `C118_place`, `C118_place_refuted`, `C118_report`, `C118_break_refuted`, `C118_end_refuted`, `C118_repeated_refuted`, `C118_twice_refuted`, `C118_width_refuted` (status: partial). Proved for labels inside the text that do not end with a line break, except that a label of several lines may also be written below its first line. False for the others; drawing of margins and arrows is not modelled.
- **C119 Times** — The calendar is the relation of a second to the next one (TimeSpec.v), every time is reached from 1970; the formats one by one over digit texts; writing and reading composed, and the spelling of fields is unique. Theorems: `C119_instant`, `C119_read`, `C119_write`, `C119_spelling`, `C119_fields`, `C119_minute_refuted`, `C119_zone_refuted`, `C119_negative_refuted`, `C119_digit_refuted`, `C119_hours_refuted`, `C119_clock_refuted`, `C119_warning_refuted`, `C119_noon_refuted` (status: partial). Proved for times from 1677 to 2262, years of four digits, alignment to days, minutes or seconds, no zone or one of whole hours east of Greenwich. False for the others. cctz is not in the repository and modelled after its documentation.
- **C120 Properties of headings** — Which properties a line can hold is said in PropSpec.v. The line is told apart by patterns, compared with the names written out; values by trimming, splitting and decimal digits. C120_lexed links the line to the model of the lexer. Parsing of paragraphs, arguments and JSON text are parameters. Theorems: `C120_kept`, `C120_again`, `C120_id`, `C120_lexed`, `C120_unread_refuted`, `C120_archive_time_refuted`, `C120_throws_refuted`, `C120_json_refuted`, `C120_hashtag_refuted`, `C120_cookie_refuted` (status: partial). Proved for plain properties, ids, radio ids, archive files, categories, states, targets and paths, efforts, visibility, creation times, JSON values that are no lists or objects, and arguments. False for the other kinds. Values of the texts of paragraphs, arguments and JSON are parameters.
- **C121 Entries of logbooks** — The sentence of each kind of entry is a list of pieces (LogSpec.v), and the nodes of the line are any that fit; the description is any that does not disturb. The items that stop the reading are described exactly. Examples run the models of lexer, parser and converter from the text. Theorems: `C121_read`, `C121_written`, `C121_unknown`, `C121_stops`, `C121_state_time_refuted`, `C121_removed_refuted`, `C121_number_refuted`, `C121_deadline_refuted`, `C121_unknown_twice_refuted`, `C121_throws_refuted` (status: partial). Reading proved for all lines of the sentences and all descriptions (for changes of state: those that do not say on, and have no names in capitals if there was no state before); writing proved for the same entries; C121_stops says exactly which items throw. False for removed and numbered priorities, deadlines, unknown entries. That the line written is split into the nodes that fit its sentence is shown by examples only.
- **C122 Settings of a document** — The spec (OptSpec.v) is a table of the names and values of the manual, and for each setting the last request about it. Lines are any sequence of items with any spaces. The settings no line can reach are found by an invariant over all lines. Examples run the models of lexer and parser from the text. Theorems: `C122_read`, `C122_default`, `C122_unknown`, `C122_startup`, `C122_indent`, `C122_marked`, `C122_signs_refuted`, `C122_fixed_refuted`, `C122_no_value_refuted`, `C122_tasks_refuted`, `C122_dropped_refuted`, `C122_lost_refuted`, `C122_five_refuted`, `C122_keywords_refuted` (status: partial). Reading proved for all lines of items whose names have letters; reading and writing of #+startup: for all values but five levels; unknown items reported. False for names of signs, fixed-width sections, items without a value, tasks, wrong values, and for writing all settings but marked broken links.
- **C123 What is attached to a statement** — The queries are modelled on the converted trees. The spec (AttachSpec.v) picks the lines by relations over the list of what is attached; names are compared by their letters and digits. Examples run the models of lexer, parser and converter from the text. Theorems: `C123_captions`, `C123_attributes`, `C123_description`, `C123_made`, `C123_kinds_refuted`, `C123_attr_list_refuted`, `C123_numbered_refuted` (status: partial). Proved for all statements and kinds, for lines of attributes whose target does not start with attr. False for lines of other kinds, targets called attr..., and numbered lists.
- **C124 Editing of lists, and creation times** — Lists are split as a ++ x :: b at the index. The spec (EditSpec.v) says what a header, a first time and a path are. The clean text of a header is a parameter. In C++ lists are changed in place; in the model the changed list is returned. Theorems: `C124_one_node`, `C124_header_index`, `C124_set_body`, `C124_inserted`, `C124_paragraph`, `C124_heading`, `C124_paths`, `C124_creation_refuted`, `C124_outside_refuted` (status: partial). Proved but for the creation time of a heading with both a time in its title and a property, and for inserting at an index outside of the list, which is undefined.
- **C125 Column views** — The spec (ColSpec.v) is the grammar of a line as relations between its parts and texts, with a table of the names of summaries. The reader takes each part off the text; what may follow a part decides where it ends. lexy is not in the repository and modelled after its documentation. Theorems: `C125_read`, `C125_written`, `C125_sum_refuted`, `C125_rest_refuted`, `C125_written_refuted` (status: partial). Reading proved for all lines with one space between columns, for the summaries the code knows; writing for columns without summaries. False for other summaries, for lines that are no list of columns, and for writing summaries.
- **C126 Windows into vectors, and partitions** — A window shows c of p ++ c ++ q (SpanSpec.v); groups are an inductive predicate. Partition by induction over the rest of the vector, for any window shown so far. Theorems: `C126_start`, `C126_end`, `C126_partition`, `C126_fixed_refuted`, `C126_back_refuted` (status: partial). Proved for moves of the start forward, of the end both ways, and partitions. False for the end of a window of fixed size and for moving the start back.
- **C127 Writing of XML** — The spec (XmlSpec.v) is a part of the grammar of XML as a relation between nodes and texts, with the meaning of references; that a text has one meaning is proved. Induction over trees, and over the text of a comment with the flag of the last dash. Theorems: `C127_written`, `C127_escaped`, `C127_comment`, `C127_set_attr`, `C127_dash_refuted`, `C127_cdata_refuted`, `C127_raw_refuted` (status: partial). Proved for trees of elements, comments that do not end with a dash, and CDATA sections without their end in them. False for the others and for raw data.

## Trusted base

- The Coq 8.16.1 kernel.
- `Print Assumptions` stands under every property theorem and prints `Closed under the global context` for all of
  them: no theorem uses an axiom, neither one of the standard library nor one of this development. A scan of all
  loaded modules lists seven constants of the sealed module `Coq.ssr.ssrunder.Under_rel`, which the standard
  library loads with the `ssreflect` tactics; no theorem depends on them.
- The reading of the C++ source. Nothing is executed: the tie between code and model is the file and the lines cited
  at each definition, and the differences named there.
- The model of the lexer and of the regrouping was run by `vm_compute` on those documents of
  `/repo/tests/org/corpus` whose expected tokens are written in full (fifteen cases) and gave the expected tokens.
  This is a check of the model, not a proof, and is not part of the development.
- Contracts of libraries: standard and boost containers are finite maps, sets and sequences, with the iteration
  order of hashed ones left open; immer vectors are persistent lists; `std::sort` returns a sorted permutation when
  its comparison is a strict weak order and is undefined otherwise; hashes agree with equality; the character tests
  of the C library are those of the "C" locale.
- Numbers: `int` is unbounded unless a theorem is about overflow (ids, C01-C06, and slices); costs of the layouter
  are exact integers instead of `float`.

## What is modelled

| Code | Model | Left out |
| --- | --- | --- |
| hstd/stdlib/dod_base.hpp, dod_base_intern.hpp; imm/ImmOrgBase | DodModel | unordered stores, printing |
| lexbase/Node.{hpp,cpp}, NodeStore.hpp | TreeModel | printing of nodes |
| lexbase/Lexer.hpp | LexModel | messages |
| lexbase/SourceManager.cpp, hstd/ext/bimap_wrap.hpp | BimapModel | hashing |
| hstd/stdlib/IntSet.hpp, SetCommon.hpp | SetModel | complement (does not compile) |
| hstd/stdlib/Slice.hpp; Str::at of Str.hpp | SliceModel, SliceStrModel | |
| hstd/stdlib/RangeTree.hpp, RangeSegmentation.cpp | RangeModel | |
| hstd/stdlib/RecursivePathTracker.hpp | TrackModel | |
| Vec.hpp comparison, paths of imm/ImmOrg.hpp | OrderModel | |
| hstd/stdlib/strutils.cpp, Str.cpp | StrModel, WrapModel | format_number, names of characters |
| hstd/stdlib/Json.cpp, JsonSerde.hpp, {Opt,Map,Set,IntSet,Variant}Serde.hpp | JsonModel | nlohmann::json itself: its dump is modelled from its documentation; the text of real numbers; conversions between integers and reals |
| hstd/stdlib/diffs.{hpp,cpp} | DiffModel, ShowModel | formatInlineDiff, colours |
| hstd/ext/graph/base/* | HierModel, EdgeModel, PortModel | attributes, serialisation |
| hstd/ext/error_write.{hpp,cpp} | ReportModel | drawing of margins and arrows, help and notes |
| hstd/stdlib/Time.{hpp,cpp}, sem/SemConvert.cpp:161-222, 1028-1130 | TimeModel | zones that are not fixed, hashes; cctz is modelled after its documentation (time points in nanoseconds) |
| parse/base_token_tokenize.cpp:1009-1026,1071-1145; sem/SemConvert.cpp:151-158, 234-269, 662-905; sem/SemOrgFormat.cpp:1201-1404 | PropModel | parsing of paragraphs, of arguments and of JSON text; formatting of arguments (parameters); ARCHIVE lines of logbooks |
| sem/SemConvert.cpp:347-595; sem/SemOrgFormat.cpp:145-161, 1407-1548 | LogModel | layout of descriptions, texts of link targets and of spans of time (parameters); times are their texts |
| sem/SemConvert.cpp:2749-2889, 2927-2956; sem/SemOrgFormat.cpp:187-203, 277-325 | OptModel | diagnostics are the text they are about; titles, columns and properties of the document |
| sem/SemOrgSharedApi.cpp:589-663, 719-751 | AttachModel | immutable trees (the same templates) |
| api/SemBaseApi.cpp:213-230, 355-417 | EditModel | clean text, getAllSubnodes, sharing of pointers |
| sem/SemConvert.cpp:2302-2408; sem/SemOrgFormat.cpp:204-270, 755-758 | ColModel | lexy is modelled after its documentation; its recovery from errors |
| hstd/stdlib/Span.hpp:31-109, algorithms.hpp:73-94 | SpanModel | pointers are indices of one vector; slices of spans (C25 and others model slices) |
| hstd/stdlib/Xml.cpp | XmlModel | moving of children, streams |
| hstd/ext/textlayouter.{hpp,cpp} | LayoutModel, FormatModel (SimpleStringStore) | wrap blocks, float rounding |
| sem/SemOrgFormat.{hpp,cpp} | FormatModel | the text of times and real numbers, the signature written for kinds without a writer, drawers and document settings other than the title, which are parameters |
| api/EvalContext.cpp | EvalModel | the node store below it (C36-C38 model it): nodes are trees, a path of a node is its place in a version, names are the map of the track; the evaluator and the parser of its output are parameters; attributes are as C28 leaves them |
| imm/ImmOrgStore.cpp, ImmOrgEdit.cpp, navigation of ImmOrg.cpp | ImmModel, DemoteModel, RadioModel, PathsModel, KeysModel | the generated field accessors |
| imm/ImmOrgGraph.cpp | MmapModel | link resolution is a parameter |
| sem/SemOrgApi.cpp, SemOrgSharedApi.cpp (attributes, properties, hashtags, paragraphs, periods) | AttrModel, ParaModel | the rest of these files |
| api/ParseContext.cpp (file loading, comment blocks) | LoadModel, CommentModel | diagnostics |
| base_lexer/base_token_tokenize.cpp | TokModel | tracing |
| parse/OrgTokenizer.cpp | RegroupModel | tracing |
| parse/OrgParser.cpp, OrgParserUtils.cpp, OrgSpec.cpp (fields) | ParseModel, LayoutKindSpec | tracing, reports |
| hstd/ext/astdiff/astdiff_eager.cpp | EagerModel | tracing |
| hstd/ext/astdiff/astdiff.{hpp,cpp} | AstDiffModel | printing; costs are integers; the priority list is the list of its elements |
| haxorg/sem/SemAstDiff.{hpp,cpp} | AstDiffSem | printing; DirectSubnodes = false, which is not implemented |
| sem/SemConvert.cpp, SemConvertUtils.cpp, lexbase/AstSpec.hpp | ConvModel | log entries, properties, options, and the grammars of times, formulas and columns, which are parameters |

Not modelled at all: exporters, msgpack serialisation,
geometry and constraint layout, loggers and tracers, the
language bindings under py_libs and wrappers, and the applications under app.

## Findings

Each item is a place where the code, as modelled, does not do what a user of the API would rely on.

- `dod::Id::setUnmasked` (dod_base.hpp) ORs the shifted-down mask into the index bits: the mask is always cleared and the index corrupted when the mask is non-zero (`id_set_unmasked_keeps_mask_refuted`).
- `dod::Id::operator+` saturates at the whole word, not at the index part: stepping the largest index carries into the mask (`id_step_saturates_refuted`). For an id type without mask bits the shift amount equals the word width, undefined behaviour (`id_step_defined_iff_masked`).
- `dod::Store::insert` above the end returns normally and drops the value (`store_insert_stores_value_refuted`).
- `dod::InternStore::insert` at an existing id leaves the old value in the reverse map: the next add of the old value returns an id that reads back the new one (`intern_insert_keeps_interning_refuted`).
- A default constructed `ImmId` is not nil (`imm_default_id_is_nil_refuted`).
- `NodeGroup::parent` (Node.cpp:78-94) never moves the candidate when it has no extent: the query loops forever for every node that is not a first child (`parent_lookup_terminates_refuted`; `parent_lookup_partial` is the exact behaviour). The repository's test only asks for first children.
- `Node::operator==` (Node.hpp:119-127) reports a token node and a non-terminal of the same kind as equal, so the relation is not transitive (`node_equality_refuted`).
- `LexerCommon::tok(offset)` (Lexer.hpp:20-21) is not overridden by `SubLexer`: look-ahead in a selection with gaps reads the wrong token (`sub_cursor_lookahead_refuted`).
- `LexerCommon::getInside` (Lexer.hpp:312-346) counts a run of adjacent opening (or closing) delimiters once: `{a{b}}c` returns everything up to the end of input including the group's own closing delimiter, `{a{{b}c}d}` ends too early (`bracket_group_nested_refuted`, `bracket_group_double_open_refuted`).
- `IntSet` iteration turns a bit position into a value by a plain cast (IntSet.hpp:24-27) while insertion goes through `value_domain::ord`: for enums whose values do not start at zero, such as `Style` (ColText.hpp:89-115), a set holding Italic iterates as Dim, so coloured text output shows the wrong style (`set_iteration_lists_members_refuted`).
- `IntSet` over a signed integer type throws for every negative value (`set_signed_values_refuted`).
- `Slice::overlap` (Slice.hpp:75-83) compares strictly: inclusive ranges that meet in one boundary point, even two equal one-point ranges, are reported as disjoint (`slice_overlap_refuted`).
- `sliceT<char>()` and `slice(char(0), char(255))`, which the iterator comment names as supported, throw: char is signed and '\xFF' is -1 (`slice_all_chars_refuted`).
- `RangeTree::build` (RangeTree.hpp:113-122): the sort comparator returns true for two equal ranges in both directions, undefined behaviour of std::sort for any input with a repeated range (`range_index_duplicates_refuted`). A reversed range makes the construction recurse forever (`range_index_reversed_refuted`).
- `annotateSequence` (RangeSegmentation.cpp:83) drops a one-point segment at the end of the sequence (`segmentation_covers_refuted`).
- `itemwise_less_than` (Vec.hpp:25-38) answers true as soon as any position is smaller: neither asymmetric nor transitive (`vector_order_refuted`). `ImmPath::operator<` and `ImmUniqId::operator<` combine two comparisons with `&&`: all paths of one document are equivalent to an ordered container (`path_order_same_root_incomparable`).
- `Str::replaceAll` (Str.cpp:61-69) and `split(value, delimiter)` (strutils.cpp:692-706) loop forever on an empty pattern, whatever the text (`C20_member_empty_pattern_diverges`, `C19_split_str_empty_diverges`); `replace_all` guards against it.
- `escape_for_write` (strutils.cpp:248-265) does not escape the backslash: a newline and the two characters backslash-n give the same output (`C22_escape_refuted`).
- `left_aligned` (strutils.cpp:231-236): a text ending inside a multi-byte character swallows the padding (`C23_left_aligned_refuted`).
- `longestCommonSubsequence` (diffs.cpp:41-44, 72-80): when the prefixes before a matching pair share nothing, the reconstruction returns no result and the match itself is lost: "ab" / "cb" gives the empty subsequence (`C28_lcs_maximal_refuted`).
- `ShiftedDiff(diff)` (diffs.cpp:293-295) pushes a replacement only to the old side: the new item of every replacement is missing from the side-by-side form (`C30_shift_of_script_refuted`, exact in `C30_shift_of_any_script_partial`).
- `IVertexHierarchy::trackSubVertexRelation` (graph_hierarchy.cpp:135-168) accepts a relation that closes a cycle; ancestor chains, removal and nesting level then never return (`C32_acyclic_refuted`).
- `untrackSubVertexRelation` (graph_hierarchy.cpp:186-206) leaves the edge record behind: re-adding the relation always throws (`C33_readd_throws`), and the removed edge stays listed. Because the edge is registered last, a relation refused there is nevertheless in force, and edge queries of its parent throw (`C49_failed_call_refuted`).
- `IGraph::untrackVertex` (graph_base.cpp:219-228) asks each hierarchy twice to drop the vertex; the second request throws, so the call never succeeds on a graph with a hierarchy (`C50_remove_vertex_refuted`).
- `IEdgeCollection::untrackEdge` (graph_edge.cpp:152-156) removes every occurrence of the source from the incoming list, so a parallel edge disappears from `getIncoming` and survives removal of its target (`C34_incoming_refuted`). `isTrackingEdge` throws for every removed edge (`C34_is_tracking`). `getInNodes` maps edges to their target: it can only return the vertex itself (`C34_predecessors_refuted`).
- `getHierarchyCrossings` (graph_hierarchy.cpp:56-122): the common-ancestor search advances both sides in lockstep, so a source nested deeper than the target yields repeated vertices or an exception; downward edges are listed backwards; edges between trees throw (`C51_crossings_refuted`, `C51_crossings_downward`, `C51_different_trees_throw`).
- `getCommonAncestor` (graph_hierarchy.cpp:350-376) appends each vertex after its own ancestors, so a vertex that is itself the answer is passed over, depending on hash order (`C52_common_ancestor_refuted`). `getParentChainUntil` (411-422) never stops at the given vertex (`C53_chain_until_refuted`).
- `minSolution` (textlayouter.cpp) loops forever when at some column the first cheapest alternative is tied with one that grows more slowly (`C42_min_returns_iff`, `C42_min_returns_refuted`). It also merges neighbouring pieces that lie on one line although they carry different layouts, so the layout printed can be dearer than the cost reported (`C42_min_layout_refuted`).
- `vSumSolution` (textlayouter.cpp): a knot beyond column 4096, e.g. from a right margin of 5000, makes stacking two lines hang (`C43_stack_sums_refuted`).
- `doOptTextLayout` (textlayouter.cpp:392) multiplies the excess by `rightMargin` instead of `rightMarginCost`: texts wider than the margin are mispriced by `(span - rightMargin) * (rightMargin - rightMarginCost)` (`C55_text_cost_exact`, `C55_text_cost_refuted`).
- `doOptLineLayout`/`doOptLayout`: an Empty block inside a Line discards everything to its right (`C57_block_reading_refuted`). Not modelled but visible in the source: `doOptVerbLayout` (650-661) dereferences a null solution; the layout cache is keyed without the options, so a second call with other options returns stale layouts.
- `groupUpdatedSubnodes` (ImmOrgStore.cpp:137-159) sorts all updated children of a node by field with std::sort, which does not keep the order of equal elements: with GCC's library every edit below a node with more than 16 children permutes those children (`C37_order_refuted`; the modelled sort agrees with a run of the real one on 17, 40 and 60 elements).
- Nodes are interned without regard to their source location (ImmOrgHash.cpp:9-42): an imported or edited node that equals an earlier one takes over that one's location (`C37_location_refuted`, `C58_location_refuted`).
- Child-list edits (ImmOrgEdit.cpp:11-80, 210-269): an edit that leaves the list as it was throws (swapping or moving equal children, setting the same child, inserting nothing; `C38_unchanged_refuted`); insertion at -1 or past the end appends, dropping position -1 doubles the child list, overwriting or swapping outside the list is undefined (`C38_out_of_range_refuted`).
- `getParentChain` (ImmOrg.cpp) lists the root twice, and the root as its own ancestor (`C39_root_twice_refuted`). `isDirectParentOf`, `isIndirectParentOf`, `getSelfIndex`, `getAdjacentNode` compare ids, so a node counts as parent of the children of an equal node elsewhere and the next sibling of a repeated child is that child itself (`C39_twins_refuted`).
- `extractCommentBlocks` (ParseContext.cpp:18-108) treats the lines of one block differently: a doubled marker is kept on the first line and removed on the others (`C47_repeated_prefix_refuted`), an empty last comment line is lost (`C47_last_empty_refuted`), and of two prefixes at one place the earlier in the list wins over the longer one (`C47_longer_prefix_refuted`).
- `getSubnodeGroups` (ImmOrg.cpp:1325-1458): `sub.at(groupingIdx + sourceOffset)` (1269) throws when the paragraph ends with a proper beginning of a radio target, so such a paragraph cannot be grouped at all (`C40_end_refuted`).
- `updateTracking` (ImmOrg.cpp:609-750): removing a name forgets it even when another node has it too (`C59_duplicate_refuted`); hashtag definitions are inserted on removal as well, so they are never forgotten (`C59_stale_tag_refuted`); a heading with two radio ids that begin with the same word, or a second paragraph with the same radio target, cannot be edited because the removal assertion fails (`C59_edit_fails_refuted`).
- `Paragraph_dropAdmonitionNodes` (SemOrgSharedApi.cpp:512-520) does not push the link that ends the lead: a paragraph that begins with a link loses it from its body (`C45_link_lost`, `C45_body_refuted`). `Org_getLeadNodes` stops at the colon of "NOTE:" and at footnotes, which the body skips: timestamps and hashtags after them are in neither (`C45_reported_refuted`).
- `Org_combinePropertyStack` (SemOrgSharedApi.cpp:1007-1023) asserts that names are spelled alike, while `isMatching` (SemOrgApi.cpp:232-257) ignores case and punctuation: "HEADER-ARGS" below "header-args" makes the query throw (`C46_spelling_refuted`). `isMatching` ignores the subkind of properties with arguments, and lets export options answer any query with their backend as subkind (`C46_subkind_refuted`).
- `Subtree_getTimePeriodsImpl` (SemOrgSharedApi.cpp:307-327, 389-400) ignores the requested kinds for title and creation times (`C60_periods_refuted`).
- `setPropertyStrValue`/`setProperty` (SemOrgApi.cpp:186-222): removal compares spelled names, reading normalised ones, so a value set under another spelling is not read back; a subkind prevents replacement; `getName` of a property with arguments is the name of the kind, so setting one deletes all others (`C61_set_refuted`).
- `Cmd_getFirstAttr` (SemOrgSharedApi.cpp:574-587): `isBoolFalse` is constantly false for attribute groups, so the attached lines are never consulted (`C62_first_refuted`).
- Loading never normalises paths (ParseContext.cpp:341-345, 399-402): two files that include one another by '../b/y.org' and '../a/x.org' are loaded for ever under ever longer spellings, until the stack or the system's path limit ends it (`C44_refuted`); one file under two spellings is parsed twice (`C44_spelling_refuted`); `parseFileWithIncludes` does not record its own file, so a cycle parses it twice, and with a bare file name the first include throws since "" is not a directory (`C44_ex_file`, `C44_bare_name`).
- `postProcessFileReferences` (ParseContext.cpp:516-530) walks into the subtrees it has just attached: includes inside an included file are tried again against the directory of each outer file, which adds an error or loads an unrelated file of the same name, and links get one reference per enclosing file (`C64_refuted`).
- Seen in the source, not modelled: `resolveSymlink` returns the target as stored, so a relative target is tested against the process directory (ParseContext.cpp:352-372, 558-601); the Example include writes into a null node (454-456) and the include itself is cast to a code block (437, 451, 463).
- `ImmPath::operator<` and `ImmUniqId::operator<` (ImmOrg.hpp:203-206, 244) are conjunctions over the root, the path and the id, so all nodes of one document are equivalent as set keys (`C41_order_refuted`). The duplicate filter of the mind map (ImmOrgGraph.cpp:617-627) therefore keeps one result per added node (`C41_one_edge`): a paragraph with two links gets one edge and the other link is forgotten (`C41_lost_refuted`); of two nodes waiting for one target the second stays unresolved or is forgotten (`C41_waiting_refuted`).
- A link to a heading that occurs at two places is dropped from the unresolved list as soon as one of them is added (ImmOrgGraph.cpp:552-561, 70-93; `C41_places_refuted`).
- `itemwise_less_than` (Vec.hpp:25-38) is not asymmetric: [0,1] and [1,0] are each less than the other (`C41_order_refuted`).
- The location of a token has line 0 whatever line it is on, except for newlines, which have the line and column after them (base_token_tokenize.cpp:364-425; `C65_lines_refuted`). Columns count bytes in some tokens and characters in others (`C65_columns_bytes_refuted`).
- `is_iat` and `is_at_unicode` (base_token_tokenize.cpp:153-162, 205-207) read the character without testing for the end: a text without a final newline that ends in a time ("at 12:30"), or in a word that is a beginning of "http" ("a h"), or with a four byte character, throws (`C66_no_newline_refuted`, `C66_no_newline_word_refuted`, `C66_cut_character_refuted`).
- An open verbatim block (`#+begin_src` without end) makes the lexer's progress guard throw from a destructor, which ends the process (Func.hpp:43, base_token_tokenize.cpp:458-484, 771-816; `C66_open_block_refuted`); an open link `[[file:a` dereferences an empty optional (1281-1296; `C66_open_link_refuted`); `#+attr_x: :` at the end of a text without a final newline loops for ever (572-574; `C66_colon_diverges_refuted`).
- A word that begins with "src" ("srcs are nice") is lexed as inline source code whose content is everything up to a closing brace or the end of the document (base_token_tokenize.cpp:960-972; `C67_plain_text_refuted`).
- The separator row of an indented table swallows the newline and the beginning of the next row, because the span already contains the skipped spaces, which are added again (base_token_tokenize.cpp:1046-1068, 1097-1098; `C67_separator_refuted`).
- A list item that is indented less than the first one of its list (indentations 4, 2), or between two levels (0, 4, 2), gets no marker at all: the level is closed and the item is left outside any list (OrgTokenizer.cpp:1113-1134; `C69_list_nesting_refuted`).
- A line of spaces in a source block counts as code and limits how much indentation is removed (OrgTokenizer.cpp:1188-1200; `C70_blank_line_refuted`).
- Two empty lines do not end a list when the item before them has more than one line (OrgTokenizer.cpp:587-593, 1135-1154; `C71_list_break_refuted`).
- The LaTeX commands (`#+latex_class:` and others) are looked up by names with underscores after the underscores have been removed, so their token kinds are never produced and the parser's cases for them are dead; they end up as custom commands (`C72_latex_commands_refuted`).
- In an inline source block the opening and closing brace tokens are whatever characters are there, possibly none (`C72_brace_refuted`).
- A source block closed directly after `<<` or `>>` on the same line is not recognised as closed when regrouping: the text after it becomes part of the block, and a block in that text makes the conversion throw (OrgTokenizer.cpp getLeaf on a nested group; `C73_regroup_succeeds_refuted`).
- The name of a footnote keeps its brackets when the prefix is written in upper case, `[FN:a]`, because the lexer ignores letter case and the conversion does not (`C74_footnote_refuted`).
- Inline code without the underscore, `srcpython{x}`, loses the first letter of the language (`C74_inline_source_refuted`).
- For `#+property: description text` the argument that should be the name of the property is the space in front of it, or the line end when the name is on the next line (OrgTokenizer.cpp:377-381; `C74_property_name_refuted`).
- Bold text at the beginning of the line after a list is not recognised, because the marker that closes the list is not among the tokens that may precede markup; the same holds for text followed by an exclamation mark or within quotes, and nested marks get no role (OrgTokenizer.cpp:248-267; `C75_markup_refuted`).
- Markup within `~…~` is interpreted unless there is a space in front of the first tilde (`C75_monospace_refuted`).
- The parser runs forever on a target in which brackets are opened twice, `<<a<<b>>`: the loop of parseAngleTarget has no case for the second opening bracket and does not advance (OrgParser.cpp:1158-1187; `C78_parse_ends_refuted`). A target in capital letters, `<<ABC>>`, is not recognised, and `<<a>>` and `<<<a>>>` give the same node.
- The parser throws on `#+end_quote` or `#+end_src` without a block, `[fn::]`, `{++++}`, `{{{a b}}}`, a heading as the first thing in a quote that goes on, and `#+results:` as the last line after a source block (`C78_parse_returns_refuted`).
- `#+property: description foo` takes the rest of the document, headings included, as its text (seen by running the model).
- The name of the day in a time stamp is not in the tree (`C77_every_word_refuted`).
- OrgSpec.cpp's table and the parser disagree: the urgency of a heading is SubtreeUrgency in the tree and SubtreeImportance in the table; a drawer with only a logbook has it in the place of the properties; arguments are InlineStmtList and not Attrs; `#+caption:` and the like have one field and not two; the result of a source block is a CmdResults node and not text.
- Str::at(slice) takes the end of the slice as its length, so every slice that does not start at 1 is wrong or reads over the end; the reading of `:ARCHIVE_TIME:` uses such slices (Str.hpp:48-57, SemConvert.cpp:806-821; `C81_slice_refuted`).
- A caption in centred text, in a dynamic block or in a list item is not attached to what it is a caption of (`C83_attached_refuted`).
- A heading with a time that cannot be read (`DEADLINE: <%%(foo)>`) is replaced, with all its text and all headings below it, by one error node; a quote with an empty example in it loses its text (`C84_text_refuted`).
- Conversion throws on a table with only a separator row, an empty example block, `#+filetags:` without tags, `#+startup: fold`, a completion with a large number, a time range after SCHEDULED, `#+name:` without a name or with a name of several words, and an unknown block with only an empty line (`C85_converted_refuted`).
- Seen while modelling the converter: `#+language: en` gives an empty language and a paragraph "en"; a link with an unknown protocol (`[[foo:bar]]`) keeps the protocol and loses the target; inline mathematics keeps no text; the times of deadline log entries are dropped (SemConvert.cpp:490-497); `[/]` is not read as a completion; `:EXPORT_OPTIONS:` asks for a field that DrawerProperty does not have (685) and throws; a code callout `(ref:x)` stays text.
- getEdits of two trees whose roots are of different kinds reports one update and nothing about the children (astdiff_eager.cpp:266-272; `C86_root_refuted`).
- getEdits prefers an equal child at another place to the equal child at the same place, so a tree with two equal siblings compared with itself gives two moves (astdiff_eager.cpp:135-138; `C87_identical_refuted`).
- shouldPreferInsert counts the child itself, so a child without an equal one on the other side is always inserted anew: matches by kind (diaIdMatch, findMatchingByKind) are never accepted, nothing below the root is ever updated, and a change of one value deletes and inserts the whole subtree (`C88_update`).
- The tables of the tree matcher are filled with the costs of the options and read back with costs of one, so other costs lead to matches of nodes that must not be matched or to places outside of the tables (astdiff.cpp:336-345; `C89_costs_refuted`, `C89_bounds_refuted`).
- The update flag of a Move is set when the kind of change is Update, which it is not in this branch, so a node that has moved and has another value is reported as only moved (astdiff.hpp:464-466; `C90_update_refuted`).
- The places of a Move are shifted positions: they do not count siblings that have been moved or removed and are -1 for a moved first child (astdiff.hpp:467-476; `C90_places_refuted`).
- Two siblings can be swapped without a report when as many nodes have been moved in before them (`C90_order_refuted`).
- A node with a hundred or more leaves below it and nothing deeper, compared with itself, gives a deletion and an insertion for each leaf (`C92_flat_refuted`).
- SemNodeDiff compares subnodes only, so a change of a title, of tags, of a table formula or of code is no change (SemAstDiff.cpp:9-38,99-109; `C93_titles_refuted`, `C93_code_refuted`).
- ImmNodeDiff::getEdits passes the wrong tree to getMapped in both loops: a document with a new node in front makes it throw, and nodes that are kept are reported as inserted (SemAstDiff.cpp:124,153; `C94_insert_refuted`, `C94_delete_refuted`).
- Seen while modelling the tree matcher: the greedy first pass defines a function and never calls it (astdiff.cpp:131-149); getDstChain returns the chain of the first tree (astdiff.hpp:413).
- A zone west of Greenwich cannot be written: the parser takes a sign only as the `+` that opens a strike mark, so `<2024-01-02 10:00 -0500>` becomes a group of errors, although the converter would read a minus sign (OrgParser.cpp:941-945, SemConvert.cpp:165-186; `C82_zone_refuted`).
- A keyword is taken from a heading only when a priority follows it: `* TODO buy milk` has no keyword and the title `TODO buy milk` (OrgParser.cpp:1904-1911; `C96_keyword_refuted`).
- Formatted text has no newline at its end, and the text without it is another document: an empty line at the end is lost, and `* h` formatted is a text on which the lexer throws (textlayouter.cpp:1110-1139; `C99_last_line_refuted`, `C99_unended_refuted`).
- A line break inside a mark is dropped by the formatter and the words beside it become one: bold `a`, newline, `b` is written as `ab` (`C100_break_refuted`).
- A group of errors is written as its message, without the text that was read (`C100_error_refuted`); `#+include` and `#+tblfm` are written as the signature of a C++ function (`C100_include_refuted`).
- Each formatting adds empty lines to an example block of two lines and to a description list with two paragraphs (`C101_example_refuted`, `C101_term_refuted`); a target is written as a radio target (`C101_target_refuted`); a document with a heading without title cannot be formatted (`C101_empty_title_refuted`).
- Seen while modelling the formatter (SemOrgFormat.cpp), each visible in FormatModel.v: keywords of `#+todo` are written with the brackets around the transition swapped, done keywords only if there are none; the Max aggregate of a column is written as min; a LaTeX class at the document level is written as `#+latex_header`; the contents of `#+columns` are not written; `#+call` writes the inner header arguments twice and the end arguments never; a list item with a header and no body loses the header; center, comment and other blocks lose their attributes; a paragraph that is one link loses what is attached to it; quoted attribute values are escaped twice; spaces at the ends of lines are stripped in verbatim text too.
- A link whose protocol is not known is written without its target, and the level of a link to a title is not written (SemConvert.cpp:1289, SemOrgFormat.cpp:655; `C102_protocol_refuted`, `C102_level_refuted`). Attributes of one name are written below each other, which tears the line of a block or command (SemOrgFormat.cpp:60-67; `C102_repeated_refuted`); `#+call: f[x](a) y` is written as `#+call: f[x](a) x` (`C102_call_refuted`).
- **Evaluating a document keeps only the first result.** The blocks are collected with the id of the root before the evaluation, and the replacement of a node is keyed by root, path and id; once one block has changed the root, every later replacement is made for the old root and never becomes part of the returned document (EvalContext.cpp:398, 466-523, ImmOrgStore.cpp:305-318, 396, 446; `C107_second_refuted`, and `C107_stored_partial` for what does hold). The node written for it has no parent, so a later variable or call that names such a block throws "has no paths" (EvalContext.cpp:197, 233; `C107_reference_refuted`).
- Variables of code blocks: a table with rows of different length is sliced with the column count of its first row, so that a cell is read past the end (EvalContext.cpp:25-86; `C103_ragged_refuted`); a value after `:var` without a variable name, or a file reference, ends the evaluation of the document with an exception (lines 360, SemOrgApi.cpp:293; `C104_unnamed_refuted`, `C104_file_refuted`); a variable that names an evaluated block whose result is text receives the block's name as text (lines 121-206; `C104_text_result_refuted`); a call of a name that belongs to a table throws (`C107_call_table_refuted`). Also seen: references to other blocks inside code throw (logic_todo), header arguments of calls are never used, `result-code-language` sets the export language, after `prepend` a reference reads the oldest result.
- to_compact_json writes nothing for a null that does not fit on a line, so `[null]` becomes an empty array and `{"a": null}` no JSON at all; field names are not escaped in objects that take several lines; a string that is not UTF-8 throws when it fits on a line and loses bytes when it does not (Json.cpp:28-103; `C108_null_refuted`, `C108_name_refuted`, `C108_bytes_refuted`).
- JsonSerde of std::variant: from_json builds the value and does not return it, which is undefined behaviour (VariantSerde.hpp:23-28; `C110_variant_refuted`). A C string is read as a null pointer; an empty optional in an optional is lost; JsonSerdeDescribedRecordBaseEx does not write empty optionals, so one that is filled in a new record cannot be emptied (`C110_pointer_refuted`, `C110_nested_refuted`, `C110_default_refuted`).
- Demoting headings (ImmOrgEdit.cpp:82-208): a heading with a paragraph below it cannot be demoted, because every node below is read as a heading (lines 90-107; `C111_text_refuted`); nodes are found by id, so that of two equal headings in one parent the wrong one is moved, or both are changed, or none is moved (lines 109-148; `C111_twin_refuted`); demoting a heading alone puts the headings that were below it in front of it (lines 165-203; `C111_physical_refuted`). EnsureLevels and ForceLevels do the same.
- wrap_text counts a space for the first word of a line too, because it tests whether the buffer is empty after adding to it, so that words that would fill a line exactly are put on two lines (strutils.cpp:387; `C112_exact_refuted`). The last line of justified text is stretched to the full width as well (`C112_last_refuted`).
- format_table counts bytes where columns of text are meant; cells with letters outside ASCII are not lined up (strutils.cpp:639, 671; `C113_letters_refuted`).
- Parents are tracked by id, and equal nodes share one: when one of two equal paragraphs is edited, setNode removes the links from the paragraph to its contents, and getPathsFor finds nothing for contents that are still shown at the other place (ImmOrgStore.cpp:97, ImmOrg.cpp:560-573; `C115_twin_refuted`). A dropped paragraph keeps its links, so its contents have a path from a root that is no document (`C115_dropped_refuted`); EvalContext.cpp:197 takes the first path found.
- updateTracking erases a key when a node that had it is replaced, even if another node has taken the key already: after swapping two names in one edit one of them is lost (ImmOrg.cpp:674-680; `C116_swap_refuted`). A paragraph that contains the same radio target twice, or a heading with two radio ids that start with the same word, cannot be edited: the target is listed once and removed twice, and the second removal throws (611-648; `C116_radio_refuted`). Hash tag definitions are set, not erased, when the heading is replaced (722-730; `C116_hashtag_refuted`).
- Printed comparisons (FormattedDiff, diffs.cpp:396-644): texts are formatted line by line but looked up by the index of the element in its own sequence, so after an inserted or removed element the text of another line is shown, or none (629, 635; `C117_shown_refuted`), and after unchanged lines were left out the lookup can throw (`C117_cut_refuted`). maxLhsSize and maxRhsSize cut with a slice that includes its end: texts that fit make it throw, others get one character too many (551-559; `C117_limit_refuted`). An empty comparison takes the maximum of an empty range before the check for it (564, 590); not side by side, the columns have different length (`C117_undefined_refuted`). Grouping drops the last line and is undefined for a single one (473; `C117_grouped_refuted`), and printing grouped output is not implemented.
- Reports of errors (error_write.cpp): a label that ends with a line break is taken for a label of its line but lies outside the line, and is not written (912, 712; `C118_break_refuted`); one of several lines that reaches the end of a text with a final line break is not written either (`C118_end_refuted`), and one of a single line is written below every line before it (716; `C118_repeated_refuted`). The message of a label of several lines is written at its first line too if another label is drawn in the margin there, because draw_msg is not tested (1041; `C118_twice_refuted`). The position behind a final line break is reported in the line before (1317-1332; `C118_place_refuted`). A label one character behind the end leads to a line number wider than the margin computed for it when the text has 10, 100, ... lines, and Str::repeated with a negative count throws (1362, 482; `C118_width_refuted`); labels further behind fail an assertion.
- Times: a zone with minutes is written as the number of its minutes, so that +0530 becomes +0330 and is read as another zone (Time.cpp:69-73; `C119_zone_refuted`); a zone west of Greenwich is written with a minus, which the parser does not take for a zone: the time is cut off with an error (OrgParser.cpp:944, `C119_negative_refuted`); a zone of one or three digits is read as no difference (SemConvert.cpp:175-180; `C119_digit_refuted`). Comparing the fields of two times does not look at minutes (Time.hpp:32-39; `C119_minute_refuted`). Dates before 1677 or after 2262 overflow the clock's nanoseconds when read or turned into timestamps (SemConvert.cpp:209-215, Time.cpp:105; `C119_clock_refuted`). Times aligned to hours, months or years are written but not read (`C119_hours_refuted`). The mode of a warning period is never set (SemConvert.cpp:1112-1117; `C119_warning_refuted`). Clocks with am or pm are lexed as times and then refused (`C119_noon_refuted`).
- Properties of headings: ordered, nonblocking, trigger, unnumbered, blocker, export options, LaTeX class, class options, header and compiler, and cookies are written under names that convertPropertyList does not know (cookies are read as cookie_data and written as cookie), so they come back as plain properties (SemConvert.cpp:662-905, SemOrgFormat.cpp:1205-1404; `C120_unread_refuted`). A line `:export_options: ...` throws because of a field that does not exist (671), and lines of description and hashtag because the text of a paragraph is asked for (`C120_throws_refuted`). The archive time is written in brackets, and throws when it is read; so does the form that Emacs writes, with the name of the day, and the sign of a zone is dropped (806-835; `C120_archive_time_refuted`). Lists and objects in JSON are written with dump(0), one line for every element, which ends the drawer (`C120_json_refuted`); every name that starts with prop_json is parsed as JSON. The definition of a hash tag is written without its sign, and then a node that does not exist is asked for its kind (716-736; `C120_hashtag_refuted`). CookieData::isRecursive has no initial value and is never set to false (`C120_cookie_refuted`). Efforts that are no numbers, unknown visibility, and archive targets without `::` throw; an effort with seconds is read as zero.
- Entries of logbooks: the time of a change of state is searched after the word on, in the description too, and so is the state before after from; a description that says so replaces them (SemConvert.cpp:372-399, 465-473; `C121_state_time_refuted`). The removal of a priority is read without its priority, because that is searched after from (531-535), and a priority that is a number is not read, being a word; writing such an entry throws bad_optional_access (SemOrgFormat.cpp:1494-1520; `C121_removed_refuted`, `C121_number_refuted`). A change of the deadline is read without any of its times (497-503), and writing it throws if it has no description (`C121_deadline_refuted`). An entry of an unknown kind is written twice, on its line and below it (1527-1546; `C121_unknown_twice_refuted`). An item without words and times, a tag without a second word, a refiling without a time and a priority without one of three words make the conversion of the document throw (`C121_stops`, `C121_throws_refuted`).
- Settings of a document: names of #+options: are compared without the characters that are no letters or digits, so that each of `-:`, `':`, `::`, `<:`, `^:`, `|:` sets emphasis, and no line can set special strings, smart quotes, fixed width, timestamps, sub- and superscripts and tables (SemConvert.cpp:145-147, 2786-2829; `C122_signs_refuted`). The text of the line starts with a space, the empty value before it is taken for `:`, and so every line turns on fixedWidthSections (2878; `C122_fixed_refuted`). `author:` without a value, `:` alone, and `H:all` throw, and the document is not read (2757, 2831; `C122_no_value_refuted`). `tasks:todo` asks for tasks done, `tasks:done` is ignored, and a list of keywords cannot be given (2855-2865; `C122_tasks_refuted`). Wrong values of toc, broken-links, arch, tags and tasks are dropped without a report (`C122_dropped_refuted`). Of all the settings only broken-links is written, and `ignore`, as it is written, is not read (SemOrgFormat.cpp:304-325; `C122_lost_refuted`). `show5levels` is written but throws when read, because show4levels is compared twice (2943; `C122_five_refuted`). Keywords are written without the colon and a space after #+keywords, and those of done tasks only if there are none (SemOrgFormat.cpp:279-299; `C122_keywords_refuted`).
- What is attached to a statement: calls and columns are attached to the statement after them, but getAttached never gives them when asked for a kind (SemOrgSharedApi.cpp:600-614; `C123_kinds_refuted`). The attributes of a list are also taken from lines `#+attr_attr_list:` (604; `C123_attr_list_refuted`). isNumberedList only asks whether an item has a bullet, and the converter sets the bullet of every item, so that each list `- a` of a document is numbered (SemOrgSharedApi.cpp:738-747, SemConvert.cpp:1319-1321; `C123_numbered_refuted`).
- getCreationTime asks for the periods of kind Created first, but the periods of the title are given whatever is asked for and come first: a heading with a time in its title is said to be created at this time even if it has a property :CREATED: (SemBaseApi.cpp:218-224, SemOrgSharedApi.cpp:300-327; `C124_creation_refuted`). insertDescriptionListItem and insertListItemBody do not check the index: -1, as getListHeaderIndex gives it for a header that is not found, is undefined behaviour (SemBaseApi.cpp:387-403; `C124_outside_refuted`).
- Column views: the summaries `{+}`, `{:}`, `{mean}` and any name that is not known are read like the checkbox summary `{X}` (SemConvert.cpp:2308-2329; `C125_sum_refuted`). The grammar does not ask for the end of the line: `%A-B %C` is read as the column A alone, without a report, and with two spaces between columns nothing is read (2382-2386; `C125_rest_refuted`). Summaries are written in `[]` instead of `{}`, so that they and all columns after them are lost when read again, the largest is written as min, sums and means under names that are not read (SemOrgFormat.cpp:218-262); a line of columns that is a node of the document is written empty (755-758; `C125_written_refuted`).
- Windows (Span): moveEnd with a fixed size does not keep the size but adds the steps to it, and throws for a step as long as the window, where moveStart gives nothing (Span.hpp:104-106; `C126_fixed_refuted`). Moving the start of a window back makes it larger, which fails the assertion of moveStart (84; `C126_back_refuted`).
- Writing of XML: a comment that ends with a dash gets another one, because the dash was written already when its reference is added (Xml.cpp:119-134; `C127_dash_refuted`). A CDATA section with `]]>` in its text ends there (50-53; `C127_cdata_refuted`). Raw nodes are not looked at and written as an element without a name, `<>...</>`, with their data escaped (`C127_raw_refuted`).
