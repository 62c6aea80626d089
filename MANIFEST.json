{
 "claims": [
  {
   "property": "C01",
   "status": "proved",
   "theorems": [
    "C01_new",
    "C01_builder",
    "C01_representation_unique",
    "C01_union",
    "C01_subtract",
    "C01_bitxor",
    "C01_length_mismatch",
    "C01_complement",
    "C01_count",
    "C01_delete",
    "C01_delete_union"
   ],
   "note": ""
  },
  {
   "property": "C02",
   "status": "proved",
   "theorems": [
    "C02_expand",
    "C02_shrink",
    "C02_shrink_expand",
    "C02_transform_union",
    "C02_delete_commutes",
    "C02_length_mismatch"
   ],
   "note": ""
  },
  {
   "property": "C03",
   "status": "proved",
   "theorems": [
    "C03_mapper",
    "C03_mapper_goes_forward"
   ],
   "note": ""
  },
  {
   "property": "C04",
   "status": "proved",
   "theorems": [
    "C04_builder",
    "C04_delete_is_replace",
    "C04_unsorted_refused",
    "C04_simple_edit",
    "C04_empty_builder",
    "C04_recognisers"
   ],
   "note": ""
  },
  {
   "property": "C05",
   "status": "proved",
   "theorems": [
    "C05_factor",
    "C05_factor_parts"
   ],
   "note": ""
  },
  {
   "property": "C06",
   "status": "proved",
   "theorems": [
    "C06_synthesize",
    "C06_synthesize_minimal"
   ],
   "note": ""
  },
  {
   "property": "C07",
   "status": "proved",
   "theorems": [
    "C07_summary",
    "C07_new_length"
   ],
   "note": ""
  },
  {
   "property": "C08",
   "status": "proved",
   "theorems": [
    "C08_transform_expand",
    "C08_tie_break",
    "C08_transform_shrink"
   ],
   "note": ""
  },
  {
   "property": "C09",
   "status": "proved",
   "theorems": [
    "C09_transform",
    "C09_transform_in_text",
    "C09_transform_monotone",
    "C09_untouched",
    "C09_untouched_converse_refuted"
   ],
   "note": "The claim only asks for soundness of the untouched test; C09_untouched_converse_refuted records that the converse fails."
  },
  {
   "property": "C10",
   "status": "partial",
   "theorems": [
    "C10_inserts_partial",
    "C10_deletions_partial",
    "C10_deletions_refuted",
    "C10_inserts_refuted"
   ],
   "note": "The full claim is false of the code: C10_deletions_refuted and C10_inserts_refuted are counterexamples. Proved for deltas without adjacent insertions (inserts) and without insertions (deletions)."
  },
  {
   "property": "C11",
   "status": "proved",
   "theorems": [
    "C11_new",
    "C11_head_edit"
   ],
   "note": ""
  },
  {
   "property": "C12",
   "status": "proved",
   "theorems": [
    "C12_revisions_stable",
    "C12_revisions_readable",
    "C12_head_revision"
   ],
   "note": ""
  },
  {
   "property": "C13",
   "status": "proved",
   "theorems": [
    "C13_delta_to_head",
    "C13_missing"
   ],
   "note": ""
  },
  {
   "property": "C14",
   "status": "proved",
   "theorems": [
    "C14_concurrent_edit",
    "C14_priority_order"
   ],
   "note": ""
  },
  {
   "property": "C15",
   "status": "proved",
   "theorems": [
    "C15_engine_implements_document",
    "C15_undo_total",
    "C15_last_undo_wins",
    "C15_undo_same_set",
    "C15_undo_redo",
    "C15_undo_new_edits"
   ],
   "note": ""
  },
  {
   "property": "C16",
   "status": "proved",
   "theorems": [
    "C16_gc_invisible",
    "C16_unsafe_collection_breaks"
   ],
   "note": ""
  },
  {
   "property": "C17",
   "status": "proved",
   "theorems": [
    "C17_peers_converge",
    "C17_merge_delivers",
    "C17_exchange_converges",
    "C17_merge_appends",
    "C17_merge_needs_common_origin"
   ],
   "note": ""
  },
  {
   "property": "C18",
   "status": "partial",
   "theorems": [
    "C18_edit_outcome",
    "C18_ill_formed_refuted"
   ],
   "note": "The full claim is false for ill-formed deltas, as the refuted theorems show; it is proved for well-formed ones."
  },
  {
   "property": "C19",
   "status": "proved",
   "theorems": [
    "C19_ids_unique",
    "C19_head_found",
    "C19_new_id_fresh",
    "C19_equivalent_sound",
    "C19_undo_redo_equivalent"
   ],
   "note": ""
  },
  {
   "property": "C20",
   "status": "proved",
   "theorems": [
    "C20_ropes_are_strings",
    "C20_delta_on_ropes",
    "C20_slice_to_string",
    "C20_byte_at",
    "C20_lines",
    "C20_raw_lines_determined",
    "C20_lines_determined"
   ],
   "note": ""
  },
  {
   "property": "C21",
   "status": "proved",
   "theorems": [
    "C21_line_of_offset",
    "C21_offset_of_line",
    "C21_line_round_trip",
    "C21_offset_round_trip",
    "C21_utf16"
   ],
   "note": ""
  },
  {
   "property": "C22",
   "status": "proved",
   "theorems": [
    "C22_new",
    "C22_set",
    "C22_next",
    "C22_prev",
    "C22_is_boundary",
    "C22_at_or_next",
    "C22_at_or_prev",
    "C22_text_metrics"
   ],
   "note": ""
  },
  {
   "property": "C23",
   "status": "proved",
   "theorems": [
    "C23_leaves",
    "C23_split_point"
   ],
   "note": ""
  },
  {
   "property": "C24",
   "status": "partial",
   "theorems": [
    "C24_exact",
    "C24_find_exact",
    "C24_case_insensitive_partial",
    "C24_case_insensitive_ascii",
    "C24_uppercase_first_refuted",
    "C24_final_sigma_refuted",
    "C24_regex_lines",
    "C24_regex_multiline",
    "C24_regex_stuck_refuted"
   ],
   "note": "Exact and regular-expression searches over the whole rope are proved for every rope, pattern, start and step schedule. Case-insensitive: proved unless the pattern starts with a non-ASCII character that changes in lowercase, which is never found (C24_uppercase_first_refuted); final sigmas are missed too. A regular expression whose lines end before the searched text never finishes (C24_regex_stuck_refuted)."
  },
  {
   "property": "C25",
   "status": "proved",
   "theorems": [
    "C25_breaks"
   ],
   "note": ""
  },
  {
   "property": "C26",
   "status": "partial",
   "theorems": [
    "C26_build",
    "C26_merge",
    "C26_merge_lengths",
    "C26_delete_after",
    "C26_apply_shape",
    "C26_edit",
    "C26_transform",
    "C26_hypotheses",
    "C26_delete_after_refuted",
    "C26_overlap_refuted"
   ],
   "note": "For spans in order and not overlapping (what the builder asks for): built spans read back exactly, merging combines the values at each offset, and editing, following a delta and transforming keep each value over its text. delete_after keeps exactly the spans before the first that intersects the interval; the claim that those after the interval go is false when none intersects it (C26_delete_after_refuted). Overlapping spans: C26_overlap_refuted."
  },
  {
   "property": "C27",
   "status": "partial",
   "theorems": [
    "C27_diff_partial",
    "C27_diff_ascii",
    "C27_reload_partial",
    "C27_reload_one_change",
    "C27_reload_refuted",
    "C27_near_miss_refuted"
   ],
   "note": "Applying the difference gives the target, proved for all texts without two different characters ending with the same byte (so whenever either is ASCII); reloading leaves the buffer equal to the file, as one undo step, when the delta's copies go left to right, which is proved for one changed stretch. False in general: near misses panic (C27_near_miss_refuted) and repeated lines give overlapping copies that the engine loses (C27_reload_refuted)."
  },
  {
   "property": "C28",
   "status": "partial",
   "theorems": [
    "C28_bytes",
    "C28_bytes_back",
    "C28_forward",
    "C28_backward_partial",
    "C28_range_partial",
    "C28_backward_refuted"
   ],
   "note": "The vector loops and the scan forwards are proved exact for all texts, chunkings and stops. The scan backwards and the range of the difference are proved exact unless the last differing characters end with the same byte; then the scan may report one byte too many, in the middle of a character (C28_backward_refuted)."
  },
  {
   "property": "C29",
   "status": "partial",
   "theorems": [
    "C29_invariant",
    "C29_add",
    "C29_determined",
    "C29_order_independent",
    "C29_query_partial",
    "C29_query_refuted",
    "C29_delete_touching_partial",
    "C29_delete_overlapping_partial",
    "C29_delete_at_caret_refuted",
    "C29_delete_touching_refuted",
    "C29_distinct_partial",
    "C29_distinct_refuted",
    "C29_edit"
   ],
   "note": "Invariant, union semantics, order independence and edits are proved for all histories. The range query and the touching deletion miss a region starting at the range's end when another ends there (refuted theorems), and two calls panic on carets (refuted theorems); proved otherwise."
  },
  {
   "property": "C30",
   "status": "partial",
   "theorems": [
    "C30_sets",
    "C30_history",
    "C30_complement",
    "C30_backward_partial",
    "C30_backward_refuted",
    "C30_edit"
   ],
   "note": "Union, deletion, forward complement and edits are proved for all histories. Backward iteration of minus_one_range is wrong when a range of the set starts beyond the end (C30_backward_refuted); proved otherwise."
  },
  {
   "property": "C31",
   "status": "partial",
   "theorems": [
    "C31_update_in_step",
    "C31_request_in_step",
    "C31_carets_partial",
    "C31_positive",
    "C31_idle_carets_refuted",
    "C31_absent_carets_refuted",
    "C31_empty_request_refuted",
    "C31_backward_request_refuted"
   ],
   "note": "Text, styles, numbers, line count and the window are proved for all histories. Carets: right in the window, and everywhere after an update that renders; false otherwise (C31_idle_carets_refuted), and false for a client that keeps absent carets as the protocol document says (C31_absent_carets_refuted). Empty and backward line requests break the protocol (refuted theorems)."
  },
  {
   "property": "C32",
   "status": "proved",
   "theorems": [
    "C32_timeline",
    "C32_bookkeeping",
    "C32_reports",
    "C32_undo_redo_edit"
   ],
   "note": ""
  },
  {
   "property": "C33",
   "status": "partial",
   "theorems": [
    "C33_insert",
    "C33_insert_newline",
    "C33_transform",
    "C33_surround",
    "C33_delete",
    "C33_extract",
    "C33_delete_by_movement",
    "C33_indent",
    "C33_outdent",
    "C33_insert_tab_partial",
    "C33_duplicate_line",
    "C33_backspace_safe",
    "C33_delete_backward_partial",
    "C33_backspace_unit",
    "C33_change_number_partial",
    "C33_capitalize_partial",
    "C33_transpose_partial",
    "C33_transpose_regions",
    "C33_paste",
    "C33_capitalize_letter_refuted",
    "C33_two_carets_refuted",
    "C33_capitalize_next_word_refuted",
    "C33_capitalize_regions_refuted",
    "C33_insert_tab_refuted",
    "C33_delete_backward_refuted",
    "C33_tab_size_refuted",
    "C33_transpose_refuted",
    "C33_duplicate_last_line_refuted"
   ],
   "note": "Insert, newline, transform, surround, delete, extract, delete by movement, indent, outdent, duplicate, transposing of selections and paste are proved for every selection; backspace for every single region. Tab, backspace with several carets, changing numbers, capitals and transposing at carets are proved under hypotheses that the code needs: the refuted theorems show panics and wrong results without them."
  },
  {
   "property": "C34",
   "status": "partial",
   "theorems": [
    "C34_new",
    "C34_update_layer",
    "C34_add_scopes",
    "C34_remove_layer",
    "C34_theme_changed",
    "C34_edit_partial",
    "C34_update_spans_partial",
    "C34_history_partial",
    "C34_hypotheses",
    "C34_delete_at_end_refuted",
    "C34_delete_panics_refuted",
    "C34_insert_at_end_refuted",
    "C34_open_refuted",
    "C34_scopes_refuted"
   ],
   "note": "An invariant over all histories from a new buffer of scope additions, plugin updates (also through deltas), removals, theme changes and edits: every layer and the merged spans have the text's length, the merged style at each unit is the combination of the layers' styles in plugin order, and nothing fails. Excluded, and shown to fail: edits that delete near the end of the text (C34_delete_at_end_refuted, C34_delete_panics_refuted), updates of an interval with text inserted exactly at its end (C34_insert_at_end_refuted), buffers opened with a text (C34_open_refuted), empty stacks and unknown scopes (C34_scopes_refuted)."
  },
  {
   "property": "C35",
   "status": "partial",
   "theorems": [
    "C35_server",
    "C35_core_source",
    "C35_contents",
    "C35_update",
    "C35_get_line",
    "C35_get_region",
    "C35_get_document",
    "C35_offset_of_line",
    "C35_line_of_offset",
    "C35_get_region_past_end_refuted"
   ],
   "note": "The contents, all queries and the core's answers are proved for all histories. A region that ends after the text makes get_region loop for ever (C35_get_region_past_end_refuted); an offset inside a character only gets the weaker bound for line_of_offset."
  },
  {
   "property": "C36",
   "status": "proved",
   "theorems": [
    "C36_aligned",
    "C36_text",
    "C36_update",
    "C36_replace",
    "C36_set",
    "C36_get_prev"
   ],
   "note": ""
  },
  {
   "property": "C37",
   "status": "proved",
   "theorems": [
    "C37_operation",
    "C37_history"
   ],
   "note": ""
  },
  {
   "property": "C38",
   "status": "partial",
   "theorems": [
    "C38_in_order",
    "C38_all_answered",
    "C38_answered_once",
    "C38_waiting",
    "C38_resolution",
    "C38_delivered",
    "C38_response_says",
    "C38_disconnect",
    "C38_no_panic_partial",
    "C38_sync_returns_partial",
    "C38_late_request_refuted",
    "C38_race_refuted",
    "C38_response_id_refuted",
    "C38_callback_refuted",
    "C38_request_id_refuted"
   ],
   "note": "For every input and every interleaving of the reader, the main thread and other threads that send: calls are handled in order, one at a time; each request with a numeric id is answered once, with what the handler returned; each of our requests is resolved at most once, and by a response with its id, a failed write or the disconnection. Not panicking needs responses with numeric ids, and being told of the disconnection needs the request to be entered before the input ends: shown to fail otherwise (the _refuted theorems), as are requests with ids that are not numbers and callbacks that send."
  },
  {
   "property": "C39",
   "status": "partial",
   "theorems": [
    "C39_lf",
    "C39_crlf_partial",
    "C39_crlf_small",
    "C39_ending_occurs",
    "C39_mixed_missed_refuted",
    "C39_split_ending_refuted",
    "C39_indentation",
    "C39_indentation_text",
    "C39_indent_unit",
    "C39_most_used_refuted"
   ],
   "note": "Indentation is proved a function of the lines for every rope. Line endings: proved for texts without carriage returns, and for texts with only CRLF when no chunk boundary splits one. False otherwise: mixed endings in one chunk are not reported and a split CRLF is reported as mixed (refuted theorems). The indentation most lines use need not be found (C39_most_used_refuted)."
  },
  {
   "property": "C40",
   "status": "partial",
   "theorems": [
    "C40_tokens_resolve",
    "C40_resolved_is_right",
    "C40_tokens_unique",
    "C40_codepoint_mono",
    "C40_failed_measure_refuted",
    "C40_dropped_batch_refuted"
   ],
   "note": "Proved for every history in which each batch is resolved before the next begins and the front end answers. False otherwise: a failed measurement leaves zero widths for good, a dropped batch leaves tokens shared by two strings (refuted theorems)."
  },
  {
   "property": "C41",
   "status": "partial",
   "theorems": [
    "C41_survivors_partial",
    "C41_plain",
    "C41_never_undo",
    "C41_session",
    "C41_not_while_recording",
    "C41_nested_undo_refuted"
   ],
   "note": "Recording, sessions and the absence of undo/redo are proved for all histories. The saved recording is the surviving events when undo and redo concern the latest event only; false for two undos in a row (C41_nested_undo_refuted)."
  },
  {
   "property": "C42",
   "status": "proved",
   "theorems": [
    "C42_scope_ids"
   ],
   "note": ""
  },
  {
   "property": "C43",
   "status": "partial",
   "theorems": [
    "C43_queries_partial",
    "C43_chunk_partial",
    "C43_converges_partial",
    "C43_rows_partial",
    "C43_needs_wrap_partial",
    "C43_line_range_partial",
    "C43_unwrapped",
    "C43_same_lines_partial",
    "C43_iterator_partial",
    "C43_edit_partial",
    "C43_order_partial",
    "C43_edit_refuted",
    "C43_report_refuted"
   ],
   "note": "For every history of widths, edits and chunks of wrapping in which edits find the outstanding work in ascending order: nothing panics, wrapping finishes, the lines depend only on text and width, each row fits or holds one wide word and no row could have taken the next word, the queries and the iterator agree with the lines, and the lines not reported by a chunk, or by an edit after wrapping was finished, are kept. Without the order an edit panics (C43_edit_refuted), and while wrapping is not finished an edit can report too few lines (C43_report_refuted). Break opportunities and widths are parameters with laws; C62_wrap_partial proves the laws of the actual break opportunities."
  },
  {
   "property": "C44",
   "status": "proved",
   "theorems": [
    "C44_next_boundary",
    "C44_prev_boundary",
    "C44_select_word"
   ],
   "note": ""
  },
  {
   "property": "C45",
   "status": "partial",
   "theorems": [
    "C45_three_peers_refuted"
   ],
   "note": "False of the code: C45_three_peers_refuted is a counterexample. The two-peer case is C17."
  },
  {
   "property": "C46",
   "status": "partial",
   "theorems": [
    "C46_merge_after_undo_refuted"
   ],
   "note": "False of the code: merge panics on every engine with an undo in its history (C46_merge_after_undo_refuted)."
  },
  {
   "property": "C47",
   "status": "partial",
   "theorems": [
    "C47_next_codepoint",
    "C47_prev_codepoint",
    "C47_at_or_prev_codepoint",
    "C47_at_or_next_codepoint_refuted",
    "C47_at_or_next_codepoint_partial"
   ],
   "note": "False of the code for at_or_next_codepoint_boundary inside a codepoint (refuted theorem); the other three are proved for every offset, and this one at boundaries."
  },
  {
   "property": "C48",
   "status": "partial",
   "theorems": [
    "C48_empty_chunks_refuted",
    "C48_slice_refuted",
    "C48_line_of_offset_refuted",
    "C48_offset_of_line_partial"
   ],
   "note": "False of the code: the refuted theorems give inputs that are clipped or answered with lines that do not exist instead of panicking. offset_of_line does keep its promise."
  },
  {
   "property": "C49",
   "status": "partial",
   "theorems": [
    "C49_playback_is_one_step_partial",
    "C49_idle_playback_refuted"
   ],
   "note": "One step for undo and redo, for every history where each playback contains an edit. False in general: 20 playbacks of recordings without edits make garbage collection collect a group still in use, and 22 edits later the engine panics (C49_idle_playback_refuted)."
  },
  {
   "property": "C50",
   "status": "partial",
   "theorems": [
    "C50_plugin_edit_partial",
    "C50_unknown_revision",
    "C50_edit_after_undo_refuted"
   ],
   "note": "Proved when the plugin's undo group is in effect, and for unknown revisions. False after an undo: the plugin is told the undone group, and its answer does not show (C50_edit_after_undo_refuted)."
  },
  {
   "property": "C51",
   "status": "partial",
   "theorems": [
    "C51_edit_pending_partial",
    "C51_pending_lost_refuted"
   ],
   "note": "Proved: the edited line stays covered, and pending lines before it. False for pending lines after it (C51_pending_lost_refuted)."
  },
  {
   "property": "C52",
   "status": "partial",
   "theorems": [
    "C52_move_partial",
    "C52_safe_partial",
    "C52_selection_partial",
    "C52_right_left",
    "C52_down_up",
    "C52_view_lines_partial",
    "C52_paragraph_start_refuted",
    "C52_paragraph_kill_refuted",
    "C52_exact_down_refuted",
    "C52_exact_column_refuted",
    "C52_panic_refuted"
   ],
   "note": "Every movement is proved to go to its place, for every text, wrapping and selection in which visual lines begin at grapheme boundaries, but for five cases in which the code does something else: each has a refuted theorem. Without them no movement panics. Visual lines are those of any history of C43; grapheme boundaries are a parameter."
  },
  {
   "property": "C53",
   "status": "partial",
   "theorems": [
    "C53_history_partial",
    "C53_style_refuted"
   ],
   "note": "Proved for plugins that add each stack after the one it extends, and without the outermost scope's own style, which the code never applies; otherwise false (C53_style_refuted)."
  },
  {
   "property": "C54",
   "status": "proved",
   "theorems": [
    "C54_idle",
    "C54_messages_first"
   ],
   "note": "For every input and interleaving; messages that wait come first."
  },
  {
   "property": "C55",
   "status": "partial",
   "theorems": [
    "C55_view_env_partial",
    "C55_sound_partial",
    "C55_commands_partial",
    "C55_edit",
    "C55_click",
    "C55_multi_click",
    "C55_extend",
    "C55_drag",
    "C55_multi_drag",
    "C55_extend_drag",
    "C55_drag_ends",
    "C55_select_all",
    "C55_goto_line",
    "C55_collapse",
    "C55_move_partial",
    "C55_add_partial",
    "C55_into_lines_partial",
    "C55_into_lines_refuted",
    "C55_scroll_refuted",
    "C55_toggle_refuted",
    "C55_click_refuted",
    "C55_into_lines_panic_refuted"
   ],
   "note": "Proved for all histories of commands, wrappings and edits. Partial: scrolling to an empty window, splitting into lines a region that ends within a line, adding above or below from an empty last line, and the deprecated click are wrong in the code, each with a refuted theorem; places are those of visual lines that begin at grapheme boundaries. Not in this model: find and replace commands."
  },
  {
   "property": "C56",
   "status": "partial",
   "theorems": [
    "C56_carets_partial",
    "C56_caret_place",
    "C56_selection",
    "C56_styles",
    "C56_style_numbers",
    "C56_numbers_refuted",
    "C56_repaint_partial",
    "C56_repaint_session",
    "C56_drawn",
    "C56_caret_twice_refuted",
    "C56_stale_caret_refuted"
   ],
   "note": "Proved for all histories of commands, wrappings and edits, and all styles. Partial: a caret at the end of a text that ends in a line break is drawn twice and left behind, and more than seven queries clash with style numbers (refuted theorems). What an edit makes stale is in C43 and C31; that it covers the carets it moves is not proved."
  },
  {
   "property": "C57",
   "status": "partial",
   "theorems": [
    "C57_whole_text",
    "C57_all_shown",
    "C57_part",
    "C57_search_ends",
    "C57_set_find",
    "C57_queries",
    "C57_whole_words_partial",
    "C57_in_turn_all",
    "C57_whole_words_refuted",
    "C57_empty_match_refuted",
    "C57_edit_refuted",
    "C57_edits_partial",
    "C57_edits_total_partial"
   ],
   "note": "Proved for all texts, queries that are text, batches and windows. Partial: regular expressions only as in C24; whole words if the edges of matches are one byte; edits: any sequence of insertions, and of deletions not at the end of the text nor just before something shown; the other edits are refuted in four ways or (several changes at once) not covered."
  },
  {
   "property": "C58",
   "status": "partial",
   "theorems": [
    "C58_find_next",
    "C58_find_previous_partial",
    "C58_find_all",
    "C58_searched",
    "C58_selection_for_find",
    "C58_wrap_refuted",
    "C58_find_previous_refuted"
   ],
   "note": "Proved for all histories of a view and all sets of occurrences. Partial: going back misses an occurrence where two meet one byte before the selection, and wrap_around=false still wraps (refuted theorems)."
  },
  {
   "property": "C59",
   "status": "partial",
   "theorems": [
    "C59_starts",
    "C59_settings",
    "C59_client_partial",
    "C59_client_language",
    "C59_reports",
    "C59_bad_table_refused",
    "C59_no_panic_partial",
    "C59_detected",
    "C59_client_refuted",
    "C59_taken_away_refuted",
    "C59_close_refuted",
    "C59_plugin_defaults_refuted",
    "C59_save_as_refuted"
   ],
   "note": "The settings, the reports and the refusals are proved for all histories. Partial: the client lags if a change comes before a view is announced, keys taken away are not reported, closing an unannounced view and bad plugin defaults panic (refuted theorems)."
  },
  {
   "property": "C60",
   "status": "partial",
   "theorems": [
    "C60_atomic",
    "C60_no_panic",
    "C60_save",
    "C60_round_trip",
    "C60_unedited",
    "C60_reopened_partial",
    "C60_no_lost_update_partial",
    "C60_not_refused",
    "C60_told_partial",
    "C60_told",
    "C60_pristine_partial",
    "C60_final_newline",
    "C60_swap_refuted",
    "C60_deleted_refuted",
    "C60_twice_refuted",
    "C60_untold_refuted",
    "C60_created_refuted",
    "C60_race_refuted",
    "C60_same_time_refuted",
    "C60_bom_refuted",
    "C60_permissions_refuted"
   ],
   "note": "Atomicity, what a save writes, the round trips and the reactions to others' changes are proved for all histories. Partial: that no change is lost needs care (one buffer per file, the editor told of changes, no race with the look at the time); the other cases, the swap file, a deleted file, a leading byte order mark and the permissions in a crash are refuted."
  },
  {
   "property": "C61",
   "status": "partial",
   "theorems": [
    "C61_class",
    "C61_texts",
    "C61_listed",
    "C61_total",
    "C61_hard",
    "C61_uax14_partial",
    "C61_uax14_text_partial",
    "C61_joiner_refuted",
    "C61_spaces_refuted",
    "C61_brace_refuted",
    "C61_hebrew_refuted",
    "C61_flag_refuted"
   ],
   "note": "Totality, order, boundaries, classes and mandatory breaks are proved in full; agreement with UAX 14 is proved at every place of every text except five kinds of places, each refuted by a witness. For 19 classes the characters are taken from the code's tables."
  },
  {
   "property": "C62",
   "status": "partial",
   "theorems": [
    "C62_rope",
    "C62_leaves",
    "C62_resume_partial",
    "C62_wrap_partial",
    "C62_same_lines_partial",
    "C62_rows_partial",
    "C62_resume_refuted",
    "C62_last_refuted"
   ],
   "note": "Independence of leaves is proved in full, and that reading on from any break finds the breaks that follow unless a joiner follows; that exception and the flag of the last break are refuted. The laws C43 assumes of break opportunities hold for texts in which no line but the first begins with a joiner."
  },
  {
   "property": "C63",
   "status": "partial",
   "theorems": [
    "C63_search",
    "C63_tests",
    "C63_tables",
    "C63_classes",
    "C63_backspace_partial",
    "C63_backspace_other",
    "C63_tones_refuted",
    "C63_digits_refuted"
   ],
   "note": "The search, the tables and single characters are proved in full, and that an emoji goes whole unless an element after the first has a skin tone; that exception is refuted, and so that digits go one by one. Pictures before tags are taken without selector or skin tone."
  },
  {
   "property": "C64",
   "status": "partial",
   "theorems": [
    "C64_wants",
    "C64_registered",
    "C64_arrives",
    "C64_taken",
    "C64_watched",
    "C64_only",
    "C64_unwatched",
    "C64_paths",
    "C64_modes_partial",
    "C64_modes_refuted",
    "C64_errors_refuted",
    "C64_links_refuted"
   ],
   "note": "Who is told what is proved in full for histories without an error from the system, and that exactly the watched paths are watched; that each has the mode asked for is proved where all who watch a path ask for the same one, and refuted otherwise. Events after an error and calling off by a link are refuted."
  },
  {
   "property": "C65",
   "status": "partial",
   "theorems": [
    "C65_shown",
    "C65_update_partial",
    "C65_first_partial",
    "C65_clear",
    "C65_edit_partial",
    "C65_first_refuted",
    "C65_insert_refuted",
    "C65_behind_refuted"
   ],
   "note": "What is shown is proved in full. Updates are proved for types already sent for this much text (and first ones from the start of the text), edits for those that change annotated text. First updates elsewhere, updates behind all earlier ones and insertions are refuted."
  },
  {
   "property": "C66",
   "status": "partial",
   "theorems": [
    "C66_server",
    "C66_positions",
    "C66_range_partial",
    "C66_edits",
    "C66_delete_partial",
    "C66_delete_ascii_partial",
    "C66_whole",
    "C66_join_refuted",
    "C66_word_refuted",
    "C66_delete_panic_refuted",
    "C66_beyond_refuted"
   ],
   "note": "Proved for positions, insertions, edits that are neither insertions nor deletions, whole texts, deletions reaching beyond the new text, deletions inside a line followed by at least as much of it as was deleted, less one unit, and for ranges of the server that end on a line or beyond the last. For other deletions and for positions beyond other lines there are counterexamples."
  },
  {
   "property": "C67",
   "status": "partial",
   "theorems": [
    "C67_write",
    "C67_read",
    "C67_stream",
    "C67_cut",
    "C67_any",
    "C67_end_refuted",
    "C67_field_refuted",
    "C67_line_refuted"
   ],
   "note": "Proved in full but for the last sentence, which is refuted: after the end of the stream reading goes on with an error in each round. Fields the protocol does not have make the reader lose the next message."
  },
  {
   "property": "C68",
   "status": "partial",
   "theorems": [
    "C68_shown_partial",
    "C68_all_shown_partial",
    "C68_first",
    "C68_second_refuted",
    "C68_closed_refuted"
   ],
   "note": "Proved in full while no view is closed; with a view closed before its answer is shown it is refuted, and so is that no message makes the plugin panic."
  },
  {
   "property": "C69",
   "status": "partial",
   "theorems": [
    "C69_root",
    "C69_none",
    "C69_unreadable_refuted"
   ],
   "note": "Proved exactly, but where a nearer folder cannot be read: then there is an error, even if a folder above it has the mark (refuted)."
  }
 ]
}