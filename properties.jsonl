{"id": "C01", "title": "Subset set-algebra is pointwise", "statement": "For subsets of the same string, union, subtract, bitxor and complement report at every position exactly the pointwise sum, difference, xor and membership-complement of their arguments; the results cover the same string length and deleting with them keeps exactly the characters not in them, in order.", "quantifier": "all pairs of subsets built by any sequence of builder calls, all string lengths, all strings", "why_tests_cant": "the space of run-length encodings is infinite; the randomised tests sample short strings only", "anchors": ["rust/rope/src/multiset.rs: Subset::union, subtract, bitxor, complement_iter, delete_from, count"]}
{"id": "C02", "title": "Subset coordinate transforms are exact", "statement": "Expanding a subset through another inserts zero-count gaps exactly at that other subset's characters; shrinking removes exactly them; shrinking undoes expanding; transform_union is the union of the other set and the expansion; and expansion commutes with deletion: deleting the expanded subset plus the other from the long string equals deleting the subset from the shortened string.", "quantifier": "all subsets, all transforming subsets of matching length, all strings", "why_tests_cant": "must hold for all run-length layouts, including adjacent, empty and full runs", "anchors": ["rust/rope/src/multiset.rs: transform_expand, transform_shrink, transform_union, transform"]}
{"id": "C03", "title": "Index mapping through a subset is the rank function", "statement": "For non-decreasing query sequences, the mapper sends index i of the string to the number of kept characters before i (zero-count matcher) or counted characters before i, for every subset.", "quantifier": "all subsets, all non-decreasing query sequences", "why_tests_cant": "stateful cursor; correctness depends on the whole query history", "anchors": ["rust/rope/src/multiset.rs: Subset::mapper, Mapper::doc_index_to_subset"]}
{"id": "C04", "title": "DeltaBuilder builds the edit it was asked for", "statement": "Replacing/deleting a sorted list of disjoint intervals through the builder and applying the built delta yields the base text with exactly those intervals replaced and every other character kept, and the length of the result equals what the delta predicts.", "quantifier": "all base texts, all sorted disjoint interval/replacement lists", "why_tests_cant": "unbounded number and layout of replacements", "anchors": ["rust/rope/src/delta.rs: Builder::replace, delete, build, Delta::apply, new_document_len, simple_edit"]}
{"id": "C05", "title": "Factoring a delta loses nothing", "statement": "Splitting a delta into an insert-only delta and a deletion set, then applying the inserts and deleting the (expanded) set, gives the same text as applying the delta; and inserting first, deleting second uses a deletion set over exactly the base length.", "quantifier": "all well-formed deltas, all base texts", "why_tests_cant": "history dependent: used on every edit", "anchors": ["rust/rope/src/delta.rs: Delta::factor, InsertDelta::inserted_subset"]}
{"id": "C06", "title": "Synthesised deltas turn old visible text into new visible text", "statement": "Given a union string's tombstones and two deletion sets, the synthesised delta applied to the old visible text gives the new visible text.", "quantifier": "all union strings, all pairs of deletion sets", "why_tests_cant": "arbitrary interleavings of tombstones and visible text", "anchors": ["rust/rope/src/delta.rs: Delta::synthesize"]}
{"id": "C07", "title": "Delta summary bounds the change", "statement": "Everything outside the summary interval is untouched: the result of a delta is the base prefix before the interval, new text of the reported length, and the base suffix after it.", "quantifier": "all well-formed deltas and base texts", "why_tests_cant": "all shapes of delta", "anchors": ["rust/rope/src/delta.rs: Delta::summary, is_simple_delete, as_simple_insert, is_identity"]}
{"id": "C08", "title": "Insert deltas commute with subset transforms", "statement": "Rebasing an insert delta over a concurrent insertion set keeps both insertions, in the order chosen by the tie-break flag; shrinking it drops only deleted base characters; the inserted-subset marks exactly the inserted characters.", "quantifier": "all insert deltas, all concurrent subsets, both tie-break values", "why_tests_cant": "CRDT correctness needs it for all interleavings", "anchors": ["rust/rope/src/delta.rs: InsertDelta::transform_expand, transform_shrink, inserted_subset"]}
{"id": "C09", "title": "Offsets are carried correctly across an edit", "statement": "Transforming an offset through a delta gives an offset inside the new text, is monotone, sends the offset of every surviving character to that character's new position, and the untouched test only answers yes when the interval is copied verbatim.", "quantifier": "all well-formed deltas, all offsets, both after flags", "why_tests_cant": "every cursor, selection, span and index set depends on it for every edit", "anchors": ["rust/rope/src/delta.rs: Transformer::transform, interval_untouched"]}
{"id": "C10", "title": "Delta region iterators report every insertion and deletion", "statement": "The deletions iterated from a delta are exactly the base ranges that the delta does not copy, and inserts are reported at their correct old and new offsets.", "quantifier": "all well-formed deltas", "why_tests_cant": "coordinate bookkeeping only fails on some layouts", "anchors": ["rust/rope/src/delta.rs: iter_inserts, iter_deletions"]}
{"id": "C11", "title": "An edit against the head revision applies exactly", "statement": "Editing the current revision with a delta makes the buffer exactly delta.apply(buffer).", "quantifier": "all engine states reachable by any history of edits, undos and gcs; all well-formed deltas", "why_tests_cant": "histories are unbounded", "anchors": ["rust/rope/src/engine.rs: Engine::edit_rev, try_edit_rev, mk_new_rev, get_head"]}
{"id": "C12", "title": "Old revisions never change", "statement": "The text of any revision still held by the engine is the same after any later edit or undo, including concurrent ones.", "quantifier": "all histories, all held revisions", "why_tests_cant": "revision text is reconstructed from tombstones through all later edits", "anchors": ["rust/rope/src/engine.rs: Engine::get_rev, rev_content_for_index, deletes_from_cur_union_for_index"]}
{"id": "C13", "title": "Revision-to-head deltas are correct", "statement": "The delta reported from any held revision to head, applied to that revision's text, gives the head text.", "quantifier": "all histories, all held revisions", "why_tests_cant": "what views and plugins use to catch up; arbitrary histories", "anchors": ["rust/rope/src/engine.rs: Engine::try_delta_rev_head"]}
{"id": "C14", "title": "Concurrent edits keep everybody's intent", "statement": "An edit against an older revision inserts all of its new characters, deletes exactly the characters it deleted at that revision, and leaves every other visible character of head in place and in order.", "quantifier": "all histories, all base revisions, all priorities", "why_tests_cant": "all interleavings of concurrent edits", "anchors": ["rust/rope/src/engine.rs: mk_new_rev"]}
{"id": "C15", "title": "Undo and redo are exact", "statement": "After undoing a set of groups, a character is visible iff it was inserted by a group not undone and not deleted by any group not undone; so undo then redo restores the text exactly and undoing the latest edits restores the text before them.", "quantifier": "all histories, all undo sets, any order of undo/redo", "why_tests_cant": "toggle state interacts with all previous edits", "anchors": ["rust/rope/src/engine.rs: Engine::undo, compute_undo, find_first_undo_candidate_index"]}
{"id": "C16", "title": "Garbage collection is invisible", "statement": "Collecting undo groups leaves the buffer text unchanged and does not change the effect of undoing or redoing the surviving groups.", "quantifier": "all histories, all sets of collectable groups", "why_tests_cant": "gc rewrites every stored revision", "anchors": ["rust/rope/src/engine.rs: Engine::gc"]}
{"id": "C17", "title": "Merging peers converges", "statement": "Two peers with distinct session ids start from the empty document, edit it independently (against any revision they hold) and send each other their states, delivered in order and possibly lost. A delivered state always merges, adding exactly the sender's revisions, and whenever the two peers hold the same revisions they show the same text.", "quantifier": "all schedules of edits, sends, deliveries and losses between two peers that do not undo", "why_tests_cant": "all concurrent interleavings", "anchors": ["rust/rope/src/engine.rs: Engine::merge, rearrange, compute_deltas, compute_transforms, rebase"]}
{"id": "C18", "title": "Bad edits are rejected without effect", "statement": "An edit naming an unknown revision, or whose base length does not match, or that overflows, returns an error and leaves the engine unchanged.", "quantifier": "all engine states, all edits", "why_tests_cant": "untrusted plugin input", "anchors": ["rust/rope/src/engine.rs: try_edit_rev, mk_new_rev, try_delta_rev_head"]}
{"id": "C19", "title": "Revision identities are unique", "statement": "No two held revisions share an identifier, the head's identifier is always found, and revisions a pure undo/redo returns to are recognised as equivalent only if their text is equal.", "quantifier": "all histories", "why_tests_cant": "needs induction over histories", "anchors": ["rust/rope/src/engine.rs: next_rev_id, find_rev, find_rev_token, is_equivalent_revision"]}
{"id": "C20", "title": "Rope edits are string edits", "statement": "Concatenation, slicing, editing and building of ropes give exactly the corresponding string, and keep the tree balanced (all leaves at one depth, node fan-out within limits, cached lengths and counts correct).", "quantifier": "all rope trees built by any sequence of operations, all intervals", "why_tests_cant": "tree shapes are unbounded", "anchors": ["rust/rope/src/tree.rs: Node::concat, push_subseq, subseq, edit, TreeBuilder"]}
{"id": "C21", "title": "Line and UTF-16 conversions are exact and mutually consistent", "statement": "line_of_offset counts the newlines before the offset, offset_of_line returns the start of that line, and converting there and back is consistent for every rope shape.", "quantifier": "all ropes, all offsets and line numbers", "why_tests_cant": "leaf boundaries may fall anywhere", "anchors": ["rust/rope/src/tree.rs: convert_metrics, count, count_base_units", "rust/rope/src/rope.rs: LinesMetric, Utf16CodeUnitsMetric, line_of_offset, offset_of_line"]}
{"id": "C22", "title": "Cursor navigation finds the next and previous boundary", "statement": "next/prev on a cursor move to the nearest boundary strictly after/before the position, in any tree, for any metric; none is skipped.", "quantifier": "all trees, all positions, all metrics", "why_tests_cant": "leaf-crossing cases depend on tree shape", "anchors": ["rust/rope/src/tree.rs: Cursor::next, prev, is_boundary, at_or_next, at_or_prev"]}
{"id": "C23", "title": "Text is never split inside a codepoint", "statement": "Every leaf produced by building or merging ropes holds whole UTF-8 codepoints and stays within the leaf size limits, and concatenated leaves equal the input.", "quantifier": "all valid UTF-8 strings", "why_tests_cant": "long multi-byte strings at leaf boundaries", "anchors": ["rust/rope/src/rope.rs: find_leaf_split, push_maybe_split, push_str"]}
{"id": "C24", "title": "Find reports the first occurrence", "statement": "Searching from a position returns the smallest later offset where the pattern occurs, and none exactly when there is none, regardless of how the text is chunked.", "quantifier": "all texts, patterns, start offsets and chunkings", "why_tests_cant": "matches crossing leaf boundaries", "anchors": ["rust/rope/src/find.rs: find, find_core, compare_cursor_str"]}
{"id": "C25", "title": "Soft breaks form a correct break sequence", "statement": "Building, concatenating and slicing break sequences keeps every break at its offset, and conversions between break counts and offsets are rank/select.", "quantifier": "all break sequences", "why_tests_cant": "run-length layouts", "anchors": ["rust/rope/src/breaks.rs: BreakBuilder, BreaksLeaf, BreaksMetric"]}
{"id": "C26", "title": "Span merge and editing keep values attached to the right text", "statement": "Merging two span sets gives at each offset the combination of the values there; deleting after an interval and shifting through an edit keep each remaining span over its text.", "quantifier": "all span sets, all intervals, all deltas", "why_tests_cant": "arbitrary overlaps", "anchors": ["rust/rope/src/spans.rs: Spans::merge, delete_after, apply_shape, transform, iter"]}
{"id": "C27", "title": "Diff is faithful", "statement": "The delta computed between two texts applied to the first gives the second, and it can be fed to the edit engine so that reloading a changed file leaves the buffer equal to the file.", "quantifier": "all pairs of texts", "why_tests_cant": "content-dependent heuristics", "anchors": ["rust/rope/src/diff.rs: LineHashDiff::compute_delta, longest_increasing_region_set", "rust/core-lib/src/editor.rs: Editor::reload"]}
{"id": "C28", "title": "Common prefix/suffix scan is exact", "statement": "The scan returns the length of the longest common prefix and of a common suffix not overlapping it, always at character boundaries.", "quantifier": "all pairs of texts and chunkings", "why_tests_cant": "multi-byte boundaries and chunk alignment", "anchors": ["rust/rope/src/compare.rs: ne_idx, ne_idx_rev, RopeScanner::find_min_diff_range"]}
{"id": "C29", "title": "Selections stay sorted, disjoint and complete", "statement": "Adding regions in any order keeps a selection sorted with no mergeable neighbours, covers everything added and nothing more; range queries return exactly the touching regions; deletion removes exactly them; applying an edit keeps the invariant.", "quantifier": "all sequences of selection operations and edits", "why_tests_cant": "unbounded operation sequences", "anchors": ["rust/core-lib/src/selection.rs: Selection::add_region, search, regions_in_range, delete_range, add_range_distinct, apply_delta"]}
{"id": "C30", "title": "Index sets are sets", "statement": "union_one_range, delete_range and minus_one_range implement set union, difference and complement-within-range on indices and keep ranges sorted and disjoint.", "quantifier": "all sequences of operations", "why_tests_cant": "unbounded operation sequences", "anchors": ["rust/core-lib/src/index_set.rs: IndexSet"]}
{"id": "C31", "title": "The client's line cache never goes stale", "statement": "Whatever was edited, restyled, scrolled or selected before, an update the core sends can be applied by the client and brings it in step: it has as many lines as the view, every line it holds shows the view's text, styles, carets and logical line number, it holds the lines of the window (and those it asked for), and every operation is for at least one line.", "quantifier": "all sequences of edits, invalidations, scrolls, line requests and updates", "why_tests_cant": "unbounded histories", "anchors": ["rust/core-lib/src/line_cache_shadow.rs: LineCacheShadow, RenderPlan, PlanIterator", "rust/core-lib/src/view.rs: send_update_for_plan, encode_line", "docs/docs/frontend-protocol.md: View update protocol"]}
{"id": "C32", "title": "The undo stack is coherent", "statement": "No sequence of edits, undos, redos and collections makes the editor's undo bookkeeping panic; the undone set is exactly the redoable suffix (plus groups awaiting collection) and at most the configured number of groups stay live.", "quantifier": "all command sequences", "why_tests_cant": "assertions depend on the whole history", "anchors": ["rust/core-lib/src/editor.rs: calculate_undo_group, do_undo, do_redo, gc_undos"]}
{"id": "C33", "title": "Editing commands change exactly the selected text", "statement": "Insert, delete, transform, surround and backspace commands produce the buffer with exactly the selected regions replaced, for any multi-region selection, and never crash.", "quantifier": "all texts and all valid selections", "why_tests_cant": "arbitrary numbers of cursors", "anchors": ["rust/core-lib/src/edit_ops.rs: insert, surround, delete_sel_regions, extract_sel_regions, delete_backward, insert_tab, change_number, capitalize_text", "rust/core-lib/src/backspace.rs"]}
{"id": "C34", "title": "Styling layers stay the length of the text", "statement": "Every layer and the merged style spans have exactly the buffer's length after any sequence of edits and plugin updates, and merging never asserts.", "quantifier": "all sequences of edits, layer updates and removals", "why_tests_cant": "asserts depend on history", "anchors": ["rust/core-lib/src/layers.rs: Layers"]}
{"id": "C35", "title": "A plugin's text cache agrees with the buffer", "statement": "After any sequence of fetches and edits notified to the plugin, cached contents equal the corresponding slice of the document, cached line offsets are exactly its newlines, and get_line/offset_of_line/line_of_offset answer as the document would.", "quantifier": "all documents, all sequences of fetches and updates", "why_tests_cant": "depends on alignment of edits and cached chunk", "anchors": ["rust/plugin-lib/src/base_cache.rs: ChunkCache"]}
{"id": "C36", "title": "A plugin's state cache stays aligned with lines", "statement": "Cached per-line states keep increasing line numbers and offsets and stay at line starts of the document after edits.", "quantifier": "all sequences of set and update", "why_tests_cant": "depends on edit history", "anchors": ["rust/plugin-lib/src/state_cache.rs: StateCache"]}
{"id": "C37", "title": "The trace ring buffer keeps the newest samples", "statement": "The buffer never exceeds its limit and always contains the most recent pushed elements in order, under any sequence of pushes, appends, resizes and limit changes.", "quantifier": "all operation sequences", "why_tests_cant": "unbounded sequences", "anchors": ["rust/trace/src/fixed_lifo_deque.rs: FixedLifoDeque"]}
{"id": "C38", "title": "RPC requests are answered once and in order", "statement": "Each request from the peer gets exactly one response carrying its id; each response resolves at most one pending request, the one with its id; messages are handled in arrival order; malformed messages do not crash the loop.", "quantifier": "all message sequences and interleavings of the reader and main threads", "why_tests_cant": "concurrency", "anchors": ["rust/rpc/src/lib.rs: RpcLoop::mainloop, RawPeer", "rust/rpc/src/parse.rs"]}
{"id": "C39", "title": "Line-ending and indentation detection depend only on the text", "statement": "The detected line ending/indentation is a function of the text, not of how it is stored in chunks, and reports mixed styles as an error.", "quantifier": "all texts and chunkings", "why_tests_cant": "chunk boundaries", "anchors": ["rust/core-lib/src/line_ending.rs: LineEnding::parse", "rust/core-lib/src/whitespace.rs: Indentation::parse"]}
{"id": "C40", "title": "The width cache returns measured widths", "statement": "Each token resolves to the measured width of the string and style it was requested for, across any sequence of batches.", "quantifier": "all sequences of batches", "why_tests_cant": "token allocation history", "anchors": ["rust/core-lib/src/width_cache.rs: WidthCache"]}
{"id": "C41", "title": "Recordings replay the surviving events", "statement": "A saved recording contains the recorded events in order with undone events removed, and nothing else.", "quantifier": "all event sequences", "why_tests_cant": "undo/redo nesting", "anchors": ["rust/core-lib/src/recorder.rs: Recorder::record, toggle_recording, save_recording_buffer"]}
{"id": "C42", "title": "Scope identifiers are stable and unique", "statement": "Looking up a scope stack always returns the same identifier, different stacks get different identifiers, and new identifiers are consecutive.", "quantifier": "all sequences of lookups", "why_tests_cant": "history dependent trie", "anchors": ["rust/syntect-plugin/src/stackmap.rs: StackMap::get_value"]}
{"id": "C43", "title": "Line wrapping covers the text and depends only on text and width", "statement": "Whatever edits, width changes and chunks of wrapping went before: no step panics; wrapping finishes; when it has finished the visual lines depend only on the text and the width, rows fit the width unless they hold a single too wide word, and no row could have taken the next word; line queries and the iterator over visual lines agree; lines that a step does not report as changed are shown as before.", "quantifier": "all texts, widths, and sequences of edits, width changes and wrap steps, with any visible region at each", "why_tests_cant": "history dependent", "anchors": ["rust/core-lib/src/linewrap.rs: Lines::set_wrap_width, rewrap_chunk, after_edit, add_task, patchup_tasks, update_tasks_after_wrap, visual_line_of_offset, offset_of_visual_line, iter_lines, MergedBreaks, RewrapCtx"]}
{"id": "C44", "title": "Word motion makes progress and stops at word boundaries", "statement": "Moving by word strictly advances, stays inside the text and stops at the first word boundary.", "quantifier": "all texts, all positions", "why_tests_cant": "all texts", "anchors": ["rust/core-lib/src/word_boundaries.rs: WordCursor"]}
{"id": "C45", "title": "More than two peers converge", "statement": "Any number of peers with distinct session ids that have merged the same revisions show the same text, whatever the order of the merges.", "quantifier": "all merge orders of three or more peers", "why_tests_cant": "all merge orders and priorities", "anchors": ["rust/rope/src/engine.rs: Engine::merge, compute_transforms"]}
{"id": "C46", "title": "Undo and merge can be combined", "statement": "A peer that has undone an edit can merge another peer's state and be merged by it.", "quantifier": "all engines with an undo in their history", "why_tests_cant": "all histories", "anchors": ["rust/rope/src/engine.rs: Engine::undo, Engine::merge, rearrange"]}
{"id": "C47", "title": "Codepoint helpers of a rope find the neighbouring codepoint", "statement": "next_codepoint_offset and prev_codepoint_offset return the nearest codepoint boundary strictly after/before the offset (none at the end/start); at_or_prev_codepoint_boundary and at_or_next_codepoint_boundary return the offset itself if it is a boundary and the nearest one on that side otherwise.", "quantifier": "all ropes, all offsets", "why_tests_cant": "codepoints of every width at every position relative to leaf ends", "anchors": ["rust/rope/src/rope.rs: prev_codepoint_offset, next_codepoint_offset, at_or_next_codepoint_boundary, at_or_prev_codepoint_boundary"]}
{"id": "C48", "title": "Rope queries refuse offsets outside the text", "statement": "As documented, slice, line_of_offset and offset_of_line panic when given an offset or a line beyond the text, whatever the shape of the tree, and iter_chunks yields one empty chunk for the empty text.", "quantifier": "all ropes, all out-of-range arguments", "why_tests_cant": "the tree shape decides which code path sees the bad argument", "anchors": ["rust/rope/src/rope.rs: line_of_offset, offset_of_line, iter_chunks, slice", "rust/rope/src/tree.rs: subseq, convert_metrics"]}
{"id": "C49", "title": "Playing a recording is one undoable step", "statement": "Playing a recording of edits and caret movements changes the text as running its events would, and is taken back by a single undo and brought back by a single redo; the editor keeps working whatever is played, however often.", "quantifier": "all editing histories, all recordings of edits and movements", "why_tests_cant": "histories of every length mix edits, playbacks, undos and redos", "anchors": ["rust/core-lib/src/event_context.rs: do_special, SpecialEvent::PlayRecording", "rust/core-lib/src/editor.rs: set_force_undo_group, calculate_undo_group, gc_undos"]}
{"id": "C50", "title": "A plugin's edit against a revision it was told of takes effect", "statement": "An edit a plugin computed against a revision it was told about, though not the latest, is transformed past what happened since and shows up in the text; an edit against an unknown revision leaves the editor unchanged.", "quantifier": "all editing histories, all well-formed plugin edits", "why_tests_cant": "the interleaving of user edits, undos and plugin edits is unbounded", "anchors": ["rust/core-lib/src/editor.rs: apply_plugin_edit, add_delta", "rust/core-lib/src/event_context.rs: update_plugins"]}
{"id": "C51", "title": "A plugin's pending work survives edits", "statement": "After any edit, every line a plugin still had to process (the frontier of its state cache), and the edited line, is still covered by the frontier or by an entry before it whose processing reaches it.", "quantifier": "all texts, all histories of sets, edits and frontier updates", "why_tests_cant": "depends on the edit history and on which states happen to be cached", "anchors": ["rust/plugin-lib/src/state_cache.rs: StateCache::patchup_frontier, truncate_frontier, get_frontier, update_frontier, close_frontier"]}
{"id": "C52", "title": "Movement commands go where they say", "statement": "Each movement takes the caret to its documented place: by grapheme, by word, to the edges of the visual line, by lines or pages keeping the remembered column (so down and up again returns), to the nearest line that has the exact column, to the edges of the paragraph or of the text; the start of a region follows unless the selection is being extended, regions that meet are joined, the caret stays between characters and no movement panics.", "quantifier": "all texts, wrappings, selections with remembered columns and movements", "why_tests_cant": "the target depends on the wrapping, the grapheme boundaries and the remembered column together, for every text", "anchors": ["rust/core-lib/src/movement.rs: selection_movement, region_movement, vertical_motion, vertical_motion_exact_pos", "rust/core-lib/src/line_offset.rs: LineOffset"]}
{"id": "C53", "title": "Scopes have the style of the current theme", "statement": "At every moment each stretch of text to which a plugin has given a scope is shown in the style that the current theme has for that scope's stack of names, whatever was added, edited or changed before.", "quantifier": "all histories of scope additions, plugin updates, edits and theme changes", "why_tests_cant": "styles are computed incrementally from a cache whose content depends on the history", "anchors": ["rust/core-lib/src/layers.rs: ScopeLayer::styles_for_stacks, theme_changed, add_scopes, update_styles"]}
{"id": "C54", "title": "Idle work runs once and in order", "statement": "Work scheduled for idle time runs in the order it was scheduled, each piece at most once and none lost while the loop runs; a timer fires at most once and not before its time; and neither runs while a message is waiting to be handled, but for the last piece when the connection ends.", "quantifier": "all message sequences, schedules of work and interleavings of the threads", "why_tests_cant": "concurrency", "anchors": ["rust/rpc/src/lib.rs: RpcLoop::mainloop, next_read, RawPeer::try_get_idle, check_timers, schedule_idle, schedule_timer"]}
{"id": "C55", "title": "Gestures and commands do to the selection what they say", "statement": "Whatever clicks, drags, movements, commands, re-wrappings and edits came before, the selection has at least one region, its regions are in order and do not overlap, and their ends lie between characters. A click selects exactly the place, word or line under it; with the key to add it adds that, or takes away the region that is there; a click to extend takes the last region from where it began to what is under the click; a drag selects from what was pressed to what is under the mouse, in the unit of the press, whatever way the mouse took, and keeps what an adding press kept. Select all, go to line, collapse, add above and below, and split into lines do what they say. No command panics, and the caret that moved is in the window, which scrolls no further than it must.", "quantifier": "all histories of commands, wrappings and edits; all texts, wrappings, places and granularities", "why_tests_cant": "the selection is the result of an unbounded history, over every text and wrapping", "anchors": ["rust/core-lib/src/view.rs: View::do_edit, do_gesture, select, extend_selection, do_drag, range_region, unit, deselect_at_offset, select_all, goto_line, collapse_selections, add_selection_by_movement, do_split_selection_into_lines, set_selection, scroll_to_cursor, set_scroll, after_edit"]}
{"id": "C56", "title": "A line shows the carets, selections and styles that are on it", "statement": "On every visual line that is sent, the carets are those of the regions that end on it, each once and at its column; the pieces marked as selected, or as found, are exactly the bytes that are selected, or found, on that line, in order and not overlapping; the style of every byte is the style the text has there, over the theme's default, and the number it is sent under has been defined before, means nothing else, and is not one of the reserved ones. When a command changes the selection, every line whose carets or selected pieces change is sent again.", "quantifier": "all histories of a view, all lines, all styles and sets of occurrences, all sequences of styles sent", "why_tests_cant": "it ranges over every selection, wrapping and history; a stale caret shows only after a particular sequence of updates", "anchors": ["rust/core-lib/src/view.rs: View::encode_line, encode_styles, get_or_def_style_id, set_selection_raw, invalidate_selection, clamp", "rust/core-lib/src/styles.rs: Style::merge, ThemeStyleMap::lookup, add, merge_with_default, set_theme", "docs/docs/frontend-protocol.md: styles, def_style"]}
{"id": "C57", "title": "A search shows every occurrence of the query", "statement": "After a search of the text, in however many steps and from wherever it begins, what is shown of each query is the first place where it occurs, the first one after that, and so on to the end: nothing that is no occurrence, no two with a character in common, and no occurrence that could still be added; with whole words, only those that begin and end as words do. A search ends, without a panic. A query that did not change keeps what is shown, one that did is searched for anew. An edit leaves shown what a new search would show.", "quantifier": "all texts, queries, window positions, batch sizes, numbers of queries, edits", "why_tests_cant": "what is shown depends on where the batches begin and end, on what has been found before, and on the edit: an occurrence across a batch's end or next to an edit is missed only there", "anchors": ["rust/core-lib/src/find.rs: Find::set_find, update_find, update_highlights, is_matching_whole_words", "rust/core-lib/src/view.rs: View::do_find, set_find, FindProgress", "rust/rope/src/find.rs: find", "rust/core-lib/src/selection.rs: add_range_distinct, delete_range"]}
{"id": "C58", "title": "Find next goes to the nearest occurrence, find all selects them all", "statement": "Going on from the last region of the selection takes, for each query, the first occurrence that ends after it (not before it, if it is a caret), or if there is none the first in the text that is not selected, and of these the nearest; going back likewise the last one that begins before it. It alone is then selected, or it is added to what is selected, or put in place of the last region, as asked for, and is brought into the window; if there is none, nothing changes. Finding all selects exactly what the occurrences of all queries cover. The selected text, or the word at the caret, can be made the query. Nothing panics. If one is not to wrap around, nothing beyond the end is taken.", "quantifier": "all histories of a view, texts, wrappings, queries and sets of occurrences, both directions, all modifiers", "why_tests_cant": "which occurrence is next depends on the whole selection and on all occurrences: adjacent ones, carets at their edges, several queries at once", "anchors": ["rust/core-lib/src/find.rs: Find::next_occurrence", "rust/core-lib/src/view.rs: View::do_find_next, select_next_occurrence, do_find_all, do_selection_for_find", "rust/core-lib/src/selection.rs: regions_in_range, delete_range, add_region", "docs/docs/frontend-protocol.md: find_next, find_previous, find_all, selection_for_find"]}
{"id": "C59", "title": "A setting comes from its most specific source, and the client is told of every change", "statement": "Whatever views are opened, saved and closed, languages chosen, and settings and settings files changed: each setting of an open view is the one set for that view, or else the one found in its text, or else the one set for its language, or else the language's default, or else the general preference, or else the editor's default; the settings the editor uses always have the right type. A table with a bad setting is refused as a whole, with an alert. What is reported for a view after an event is exactly what changed, and a client that keeps what it is told, has every setting of every view and knows each view's language. Nothing panics.", "quantifier": "all histories of opening, saving, closing, choosing languages, changing settings and files, and idle handlers; all settings, language definitions and files", "why_tests_cant": "settings are cached per source and per buffer and only the differences are sent: a cache or a report is wrong only after particular orders of changes", "anchors": ["rust/core-lib/src/config.rs: ConfigManager, TableStack, ConfigPair, Table checks", "rust/core-lib/src/syntax.rs: Languages", "rust/core-lib/src/tabs.rs: CoreState::do_new_view, do_save, do_close_view, do_modify_user_config, do_set_language, do_get_config, finalize_new_views, detect_whitespace, load_file_based_config, remove_config_at_path", "docs/docs/frontend-protocol.md: modify_user_config, config_changed, language_changed, get_config"]}
{"id": "C60", "title": "A save is all or nothing, round-trips, and loses nobody's changes", "statement": "Wherever a save is cut off, the file is as it was or has all of the new bytes. A save that goes through writes the buffer's text, with the final line ending if asked for, the byte order mark the file had and its permissions, and changes no other file; one that fails or is refused changes no text and no file. A file that is opened and saved unedited has the same bytes; a text that is saved and opened again is the same. A save replaces only bytes that the buffer has read or written itself: when others change the file, a buffer in which nothing was typed takes the new text, and one in which something was keeps its text and is not saved there. Only others' changes make a save be refused. Nothing panics.", "quantifier": "all histories of opening, editing, saving, closing, of changes of files by others and of reports of them; all crash points; all bytes", "why_tests_cant": "a crash can come at any byte, another program can write between any two steps, and whether that is noticed depends on all that came before", "anchors": ["rust/core-lib/src/file.rs: FileManager::open, save, save_new, save_existing, check_file, close, try_load_file, try_save, try_decode, CharacterEncoding::guess", "rust/core-lib/src/tabs.rs: CoreState::do_new_view, do_save, do_close_view, handle_open_file_fs_event", "rust/core-lib/src/event_context.rs: EventContext::text_for_save, after_save, reload", "rust/core-lib/src/editor.rs: Editor::set_pristine, is_pristine, reload"]}
{"id": "C61", "title": "Line breaking follows UAX 14 for every text", "statement": "Asking for the line breaks of a string never panics and gives ascending offsets between characters, the last at the end of the text and none for the empty text. Every character has a class, the same whether looked up by code point or in a text, and the classes of newlines, spaces, joiners, hyphens, Hangul and Hebrew letters, flags and emoji modifiers are those of the standard. A break is mandatory exactly after a newline of any kind, CR LF being one. Between any two characters there is a break, optional or mandatory, exactly if the rules LB2-LB31 of UAX 14 say so.", "quantifier": "all texts (sequences of Unicode scalar values of any length), all positions in them, all code points", "why_tests_cant": "the state machine is generated and its effect depends on all that stands before a place; conformance files hold a few thousand short strings", "anchors": ["rust/unicode/src/lib.rs: linebreak_property, linebreak_property_str, LineBreakIterator", "rust/unicode/src/tables.rs: LINEBREAK_1_2, LINEBREAK_3_ROOT, LINEBREAK_3_CHILD, LINEBREAK_4_ROOT, LINEBREAK_4_MID, LINEBREAK_4_LEAVES, LINEBREAK_STATE_MACHINE"]}
{"id": "C62", "title": "The breaks of a buffer do not depend on how it is stored or where reading began", "statement": "The breaks that line wrapping finds in a rope, from any place between two characters on, are those of the rest of the text as a string, however the text is cut up into leaves. Reading on from a break finds exactly the breaks that follow it, so that each line of the text has its own breaks and wrapping depends only on the text and the width.", "quantifier": "all ropes and all cuts into leaves, all starting places, all breaks", "why_tests_cant": "the state of the machine is carried over leaf boundaries and thrown away when reading starts anew; leaf boundaries depend on the history of edits", "anchors": ["rust/unicode/src/lib.rs: LineBreakLeafIter", "rust/core-lib/src/linewrap.rs: LineBreakCursor::new, LineBreakCursor::next, RewrapCtx::new, RewrapCtx::refill_pot_breaks"]}
{"id": "C63", "title": "A backspace takes an emoji whole, and nothing but it", "statement": "Every character can be asked whether it is an emoji or takes a skin tone; the answer is whether it is in the library's table and never a panic, and the tables agree with each other and with the classes of line breaking. With the caret after an emoji - a picture with or without selector, with a skin tone, several joined by zero width joiners, a flag among flags, a keycap, a picture with tags - one backspace removes exactly it, whatever stands before and after. After any other character it removes that character alone.", "quantifier": "all code points, all ascending tables, all texts before and after, all emoji sequences of any length, all ropes and configurations", "why_tests_cant": "sequences can be joined to any length, and what goes depends on the characters before the caret back to the start of the sequence; the tables have over a thousand entries, and a search in them can be wrong for single characters only", "anchors": ["rust/unicode/src/lib.rs: is_in_asc_list, EmojiExt", "rust/unicode/src/tables.rs: EMOJI_TABLE, EMOJI_MODIFIER_BASE_TABLE", "rust/core-lib/src/backspace.rs: offset_for_delete_backwards"]}
{"id": "C64", "title": "Changes of files are told to those who watch them, once per watch, and to nobody else", "statement": "Someone who asks to watch a path is told of every later change of that path, of what is directly in it or, if asked recursively, of anything below it, subject to the filter, until they call the watch off; renames count for both names. Changes are told in the order they arrive, once for each watch, and taking the events hands out all that are waiting, none lost and none twice. Nobody is told of a change they did not ask for. The operating system is asked to watch exactly the paths that somebody watches, also after watches of directories above or below are called off.", "quantifier": "all histories of watch, unwatch, arriving events and taking of events by any number of tokens; all paths, modes, filters and events", "why_tests_cant": "events come from another thread at any point between calls, and which watches are in force depends on the whole history of overlapping watches of any number of clients", "anchors": ["rust/core-lib/src/watcher.rs: FileWatcher::new, watch_impl, unwatch, take_events, Watchee::wants_event, applies_to_path"]}
{"id": "C65", "title": "Annotations stay on the text a plugin put them on", "statement": "When a plugin sends annotations for an interval of the text as it saw it, exactly these take the place of its annotations of that type there, on the text they were meant for even if the text was edited since, and no other annotation changes. An edit leaves no annotation on text it was not put on. What the client is sent for the visible range are exactly the annotations that touch it, in order, each with the lines and columns of its ends and its own payload.", "quantifier": "all stores of annotations of any number of plugins and types, all intervals, spans, edits and visible ranges", "why_tests_cant": "annotations come asynchronously for old revisions, and whether each is still on its text depends on every interleaving of updates and edits and on how the intervals lie to each other", "anchors": ["rust/core-lib/src/annotations.rs: AnnotationStore, Annotations", "rust/core-lib/src/editor.rs: update_annotations", "rust/core-lib/src/view.rs: after_edit, send_update_for_plan"]}
{"id": "C66", "title": "A language server has the text of the buffer", "statement": "The position the plugin computes for a place in the text is the line and the number of UTF-16 units before it on that line, and leads back to that place; a range the server sends is taken for the text the protocol says. A language server that had the text before an edit and applies the change it is sent then has exactly the text after the edit, whatever kind of updates it asked for; the plugin does not panic.", "quantifier": "all texts, all places in them, all edits, all states of the plugin's cache, both kinds of synchronization", "why_tests_cant": "the text of the server is the sum of all changes ever sent, so one wrong range for one kind of edit makes all later answers wrong; which ranges are wrong depends on the characters and newlines around the edit", "anchors": ["rust/lsp-lib/src/conversion_utils.rs: get_position_of_offset, offset_of_position, core_range_from_range, count_utf16", "rust/lsp-lib/src/utils.rs: get_document_content_changes, get_change_for_sync_kind"]}
{"id": "C67", "title": "Messages to and from a language server arrive whole", "statement": "What is written for a message is a message of the protocol. Each message of the protocol in what the server writes is read whole and in order, and nothing of one becomes part of another; a message that is cut off is not handed on in part, and what is handed on is text of the stream, whatever is in it. When the server is gone, reading stops.", "quantifier": "all messages, all header fields of the protocol in any order and case, all streams of bytes and where they end", "why_tests_cant": "messages have any length and content, including what looks like a header, and where one ends depends on all before it in the stream", "anchors": ["rust/lsp-lib/src/parse_helper.rs: read_message, parse_header", "rust/lsp-lib/src/language_server_client.rs: prepare_lsp_json", "rust/lsp-lib/src/utils.rs: start_new_server"]}
{"id": "C68", "title": "The answer to a hover is shown where it was asked for", "statement": "When the user asks for a hover in a view, the answer of the language server to that request, or that there is none, is shown once, in that view and with the id of the request, whatever the order in which requests are made and answered and whichever other views ask or are closed meanwhile. No message of a server makes the plugin panic.", "quantifier": "all numbers of views, all interleavings of requests, answers, errors, idle rounds and closing of views", "why_tests_cant": "requests, answers and the showing of answers happen at different times and in any order for any number of views", "anchors": ["rust/lsp-lib/src/lsp_plugin.rs: get_hover, idle", "rust/lsp-lib/src/result_queue.rs: ResultQueue", "rust/lsp-lib/src/language_server_client.rs: send_request, handle_response", "rust/plugin-lib/src/dispatch.rs: idle"]}
{"id": "C69", "title": "The workspace of a document is the nearest folder that has the mark", "statement": "The workspace of a document is the nearest of all folders the document is in that has an entry with the given name, at any depth; there is none exactly if no such folder has one.", "quantifier": "all file trees, all paths of documents, all names, with folders and entries that cannot be read anywhere", "why_tests_cant": "the depth of the path and what the folders on it have are unbounded", "anchors": ["rust/lsp-lib/src/utils.rs: get_workspace_root_uri"]}
