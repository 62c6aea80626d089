# A Rocq model of xi-editor

## Technique

Every modelled Rust function is a total Gallina function.
* `usize` is `nat` (no overflow; see trusted base).  A rope is the list of its code units; the balanced
  tree that stores it is modelled separately (`Tree*.v`) and refined to that list.
* `&mut self` becomes "returns the new state".
* A panic (`assert!`, `unwrap`, slice out of range, usize underflow) is `None`; theorems say when it cannot happen.
* `while` loops are recursion on fuel.  Running out of fuel is also `None`, and the theorems prove the answer is
  `Some`, so running out of fuel can never be mistaken for a result.

Files: `XxxModel.v` holds only the transcription (with file/line citations), `XxxSpec.v` the independent
specification, `XxxProofs.v` the lemmas, and `PropertiesXxx.v` only the theorems listed in `MANIFEST.json`,
each followed by `Print Assumptions` and by examples that meet its hypotheses.

## Plan per property

| id | what is modelled | how it is proved |
|----|------------------|------------------|
| C01-C03 | `Subset`, `SubsetBuilder`, zip/range iterators, `Mapper` as run-length lists | denotation `flat` to a list of counts; each operation commutes with the denotation; canonical form invariant |
| C04-C07, C10 | `Delta`, `Builder`, apply, factor, synthesize, summary, iterators | denotation of a delta as a list of copied positions and inserted characters |
| C08 | `InsertDelta` transforms | simulation of the nested loop by a character-by-character merge |
| C09 | `Transformer` | induction over delta elements |
| C11-C16, C18, C19 | `Engine` (edit, undo, gc, get_rev, delta_rev_head) with ropes as lists | invariant over all histories: the tombstone/text split and deletion counts are the replay of all edits under the current undone set |
| C17 | `Engine::merge` and helpers | diamond (TP1) lemma lifted to lists of revisions; three-peer counterexample if it exists |
| C20-C23 | B-tree nodes, builder, cursor, leaf splitting, metrics | structural invariants and refinement to lists |
| C24 | find on chunked text | refinement to first-occurrence specification |
| C25, C26 | breaks and spans leaves | refinement to sets of offsets / lists of intervals |
| C27, C28 | diff and rope comparison | every copied region is equal text, so apply gives the target; counterexample for reload |
| C29 | `Selection` | sortedness invariant by induction over operations |
| C30 | `IndexSet` | refinement to sets of naturals |
| C31 | `LineCacheShadow`, `RenderPlan` | refinement to a map from lines to client lines |
| C32 | undo bookkeeping of `Editor` | inductive invariant over commands |
| C33 | edit_ops, backspace, logical lines, paste | each command is a run of sorted edits of the builder (C04); lines by counting newlines; counterexamples for crashing multi-cursor cases |
| C34 | `Layers` | length invariant over operations |
| C53 | styles of scopes in `ScopeLayer` | invariant of lookup table and cache over histories; counterexample |
| C35, C36 | plugin caches | coherence invariant with the document over fetches and edits |
| C37, C42 | `FixedLifoDeque`, `StackMap` | refinement to list/injective map |
| C38 | rpc queue, pending map, dispatch as a transition system | invariant over all interleavings; counterexamples |
| C54 | idle work and timers in the same system | invariant over all interleavings |
| C39-C41, C44 | line endings, width cache, recorder, word boundaries | invariants / refinement; counterexamples where the code is wrong |
| C43 | `Lines`: visual lines, wrap tasks, edits | invariant over histories: the tasks begin at lines and cover every line that is not wrapped as it should be; counterexamples |
| C45, C46 | merge of three peers, merge after undo | counterexamples executed by the model, recorded as `_refuted` theorems |
| C47, C48 | codepoint boundaries, arguments out of range | from the cursor and metric lemmas of the tree; counterexamples where the code clips |
| C51 | frontier of the plugin's state cache | from the model of C36; counterexample |
| C52 | movements over texts, visual lines and graphemes | each target characterised; the view's lines of C43 meet what is assumed of lines; counterexamples |
| C55 | the selection, drag state and window of a view under its commands | invariant over all histories of commands, wrappings and edits; each gesture characterised; counterexamples |
| C56 | the carets, pieces and styles of an encoded line, the numbers of styles, what a change of selection makes stale | regions asked for are a block of the selection; the styles are read back as the protocol says; a change is two `Change` events of C31, by way of the lines without selection; counterexamples |
| C57 | the loop of `update_find`, the batches of `do_find`, `set_find`, whole words, `update_highlights` | one lemma about the loop, from any set of matches found before: its result reads on from the cursor; a match within the searched part is one of its text; for edits, a second lemma about the loop that joins what it finds to what is known of the lines after; counterexamples |
| C58 | `next_occurrence`, `select_next_occurrence`, `do_find_next`, `do_find_all`, `do_selection_for_find` | from C29's queries, and C55's lemmas about setting a selection; counterexamples |
| C59 | the whole settings manager, the language lookup, and the calls from the core that open, save, close and change settings | a sheet of what was set where, kept beside the core; invariant that caches and stacks agree with it, then what each event reports; counterexamples |
| C60 | opening, saving and reloading files down to the single steps on the file system, crashes at every byte, other programs, and the core's calls | what a sequence of steps and a prefix of it leave; invariants of all histories, of careful ones, and of those where no file disappears; counterexamples |
| C61 | the classes of characters, with the tables as data, the state machine with its table, and the iterator over the breaks of a string | UAX 14 (revision 39, Unicode 10) is written down as rules over the classes that stand before a place; a finite summary of what stands before is shown to be enough for the rules, and the product of the machine's states with these summaries is explored and checked by computation in the kernel; induction over the text carries this to texts of any length. Where the code departs from the rules is written down too (`doubtful`), with a refutation of each kind |
| C62 | the iterator over the breaks in a leaf and the cursor over the breaks of a rope | induction over the leaves with the machine's state as invariant; a bisimulation between the states after a break and the states at the start of a text; the laws that C43 assumes of break opportunities are proved of these |
| C63 | the tests of characters with the emoji tables and the search in them; backspace (from C33) with these tests | the search by induction for every ascending table; the tables checked by computation against each other and the classes; the scan backwards by induction over the elements of a sequence |
| C64 | the file watcher: its list of watches, its queue, the thread that fills it, and what the notify crate is asked to watch; histories are lists of calls and arrivals in the order of taking the lock | induction over histories from the end; who watches is given by an inductive relation of its own; the paths asked of the system by an invariant |
| C65 | the store of annotations, what the editor does with those a plugin sends and with an edit, and what is sent to the client | from the theorems of C26 on spans, for each plugin and type; what is sent by induction over the store |
| C66 | the positions and changes a language server is sent, on top of the cache of C35 | the protocol as a relation between the old text, a change and the new text, with a unique result; positions carry over from the new text to the old one as far as the two agree |
| C67 | the writing and reading of messages of a language server, on streams of bytes | the protocol as a relation between a message and its bytes; reading by induction over the header fields; the length as decimal digits by induction |
| C68 | how a hover is asked for, answered and shown: the table of requests, the queue of results and the idle queue | an invariant over histories of requests, answers and idle rounds that relates the two queues to the answers that came |
| C69 | the search for the workspace of a document, on any file tree | by induction over the folders above the document: the nearest that has the name or cannot be read |
| C49, C50 | groups of playbacks, plugin edits in `Editor` | same invariant as C32, extended with the plugin's revision; counterexamples |

How the larger proofs are organised:

* **Engine (C11-C16, C18, C19).** `EngineHist` replays a history of edits and undos from scratch; `EngineInv`
  states that text, tombstones and deletion counts are that replay; every operation keeps it (`EngineFacts`, `EngineGc`).
* **Merge (C17, C45, C46).** Two peers: `MergePath` relates the revisions of the two, `MergeRebase` is the
  rebase loop, `MergeSys` the system of two peers exchanging engines; convergence is proved for all schedules of the two.
* **Trees (C20-C25, C47, C48).** `TreeModel` is `Node`/`TreeBuilder` over an arbitrary leaf type and metric, with the
  invariants of balance and of cached lengths in `TreeProofs`; `CursorModel` is the cursor with its path cache.
  Ropes and breaks are instances (records of functions and hypotheses in sections; no functors).
* **Line wrapping (C43).** `LinewrapMerged` and `LinewrapLines` are the cursor over hard and soft breaks, `LinewrapTask` the wrapping of one task,
  refined to greedy filling of rows (`LinewrapWrap`), `LinewrapWork` the lists of tasks; `LinewrapInv`, `LinewrapRun` and `LinewrapEdit` are the steps,
  `LinewrapHist` the histories.
* **Movement (C52).** `MovementSpec` says for each movement where it is to go, over the list of places where visual lines begin; `MovementProofs` has the arithmetic of
  these rows, then one lemma per movement. Safety (`move_safe`) is separate, as it needs less: no assumption that lines begin at graphemes and only one excluded case.
* **Gestures (C55).** `ViewModel` is the part of view.rs that acts on the selection; `ViewSpec` says what a unit, a reached region, a toggle and a sound selection are, and which
  histories there are (`vreach`). The invariant `VI` of `ViewProofs` says that the selection is sound and the drag state's regions and places lie between characters; one lemma per
  command keeps it and says what the command did. `C55_view_env_partial` shows that the surroundings assumed are those of a view after any history of C43.
* **Drawing (C56).** `DrawModel` has the encoding of styles and the style map; the carets and pieces of a line are in `ViewModel`. `DrawSpec` says which carets are on a line, what pieces show,
  how a client reads the triples, and which lines are drawn for a selection. `DrawProofs` shows that nothing outside the regions asked for matters for a line, that a map of styles numbers them
  one to one, and that both halves of a change of selection only touch lines told to be stale.
* **Searching (C57).** `SearchModel` is on top of the models of `find` (C24), words (C44) and selections (C29). `SearchSpec` says what a match is and what it is to read the matches in turn.
  `SearchProofs` has `find_loop_ok`, about one call from any cursor and any set of matches found before, and `update_eq`, which cuts the text that is looked at out of the whole one; `PropertiesSearch` puts the batches together.
  `SearchEdit`: after an edit what is before it reads on as it did (a match depends only on the text up to its end), what follows the end of the line does too (no match has a line break inside it),
  and the loop in between goes on over what it finds shown already. `PropertiesSearchEdit` says this of any number of insertions and deletions, except the ones that lose something.
* **Settings (C59).** `ConfigSpec` keeps a sheet: what was last set for each source, which views are open, their languages, and which are still to be announced. `ConfigInv` says
  that the manager's sources, caches and stacks agree with the sheet; `ConfigStep` and `ConfigIdle` that every event keeps this and reports the difference; `ConfigRun` that a client
  who adds up the reports has the sheet's settings; `ConfigTotal` that nothing panics while the plugins' defaults are good and views are closed in time.
* **Files (C60).** `FileProofs` says what the steps of a save leave behind, done and cut off, and that reading inverts writing. `FileRun` has four invariants: `sound` of all histories,
  `fit` of careful ones (what is noted of a file against what it is), `calm` (only others' changes are taken for such) and `shows` (an untouched buffer against what it last
  read or wrote). `FileSpec` keeps beside the core which changes the editor has not been told of, and which times files have had. `FileRope` is for the final newline on the rope.
* **Line breaks (C61, C62).** `LineBreakTables` is generated from tables.rs. `LineBreakSpec` has UTF-8, the rules of UAX 14, the kinds of departure, and the characters of 24 classes.
  `LineBreakRules` checks the product of the state machine and the rules (`all_checked`), `LineBreakChars` the tables and UTF-8, `LineBreakCodes` which characters a class has, `LineBreakProofs`
  the iterator over a string, `LineBreakHard` mandatory breaks, `LineBreakRope` the cursor over a rope, `LineBreakResume` reading on from a break and the laws of `LinewrapSpec.opps_laws`.
* **Emoji (C63).** `EmojiTables` is generated from tables.rs. `EmojiSpec` has the sequences of UTS 51 by code points. `EmojiProofs` has the search, the facts of the tables and the scan; texts are joined to the bytes of C33 by `encode` of `LineBreakSpec`.
* **Watching files (C64).** `WatchSpec` says whom an event concerns and, by an inductive relation over histories, who watches. `WatchProofs` has `told_snoc`, what one more step adds to what is told, and `covers_after`, the invariant of the paths the system watches.
* **Annotations (C65).** `AnnotationsSpec` has `marks`, what a plugin has annotated under a type. `AnnotationsProofs` has the store as a map, and `carried`, that spans sent for an old revision are on the same text in the new one.
* **Language servers (C66).** `LspSpec` is what the protocol says of positions and changes. `LspProofs` has that a position is of one offset only, what the code answers for it, `position_prefix` and `position_extend`, and what the summary of an insertion and of a deletion is.
* **Messages of language servers (C67).** `LspWireSpec` is the format of a message by the protocol. `LspWireProofs` has the parsing of a line, the loop over lines, and that the digits of a number stand for it.
* **Hovers (C68).** `HoverSpec` has which request has which id, and the answers in the order they came. The invariant `inv` of `HoverProofs` has that both queues together are the answers not shown yet.
* **Views (C31).** `ShadowSpec` has a client that follows doc/docs/frontend-protocol.md; the invariant relates the
  shadow to that client line by line over every session.

## What is modelled

| code | model |
|------|-------|
| rope/src/multiset.rs | `MultisetModel`: all of `Subset`, its builder, iterators and mapper |
| rope/src/delta.rs | `DeltaModel`: `Delta`, `InsertDelta`, `Builder`, `Transformer`, synthesis, iterators |
| rope/src/engine.rs | `EngineModel`, `MergeModel`: editing, undo, gc, revisions, deltas between revisions, merge. Not: serialisation, session ids beyond equality and order |
| rope/src/tree.rs | `TreeModel`, `CursorModel`: nodes, builder, slicing, editing, metrics, cursor. Not: `Arc` sharing, the deserialiser |
| rope/src/rope.rs | `RopeModel`, `RopeIterModel`: strings as UTF-8 bytes, leaves and splitting, base/lines/UTF-16 metrics, chunks, lines. Not: graphemes |
| rope/src/breaks.rs | `BreaksModel` |
| core-lib/src/index_set.rs, selection.rs | `IndexSetModel`, `SelectionModel` |
| core-lib/src/editor.rs | `EditorModel`: undo bookkeeping, plugin edits. Not: rendering, find |
| core-lib/src/recorder.rs | `RecorderModel` |
| core-lib/src/line_cache_shadow.rs, view.rs (updates) | `ShadowModel` |
| rope/src/find.rs | `FindModel`: all of it. The Unicode tables and the regular expression engine are parameters |
| rope/src/compare.rs | `CompareModel`: all of it, vector code included; a vector is a list of bytes, and the memory after a slice is arbitrary |
| rope/src/diff.rs | `DiffModel`: all of it; the hash map is an association list, and the binary search a linear one |
| rope/src/spans.rs, and what it uses of interval.rs | `SpansModel`: leaf, builder, iterator, `apply_shape`, `delete_after`, `transform`, `merge`; the unread summary is left out |
| core-lib/src/layers.rs; editor.rs `update_spans` | `LayersModel`: all but logging; a scope is a number, and the theme a function from stacks to modifiers |
| rpc/src/lib.rs, parse.rs | `RpcModel`: reader thread, main thread and requests being sent, interleaved at locks, atomics and I/O. Deserialisation is a parameter; lines come parsed as JSON |
| core-lib/src/line_ending.rs, whitespace.rs | `DetectModel` |
| core-lib/src/width_cache.rs | `WidthCacheModel` |
| core-lib/src/linewrap.rs; what it uses of rope/src/interval.rs | `LinewrapModel`: all but logging, and `rewrap_all`. Break opportunities, widths of words and arithmetic on widths are parameters with stated laws; debug assertions are panics |
| unicode/src/lib.rs: `linebreak_property`, `linebreak_property_str`, `LineBreakIterator`, `LineBreakLeafIter`; the tables for these in tables.rs; `LineBreakCursor` of core-lib/src/linewrap.rs | `LineBreakModel`, `LineBreakTables`: all. `refill_pot_breaks` without its limit on how many breaks are asked for at once. The emoji predicates and tables of unicode/src/lib.rs are not in it |
| unicode/src/lib.rs: `is_in_asc_list`, `is_variation_selector`, `EmojiExt`, `is_keycap_base`; the tables for these in tables.rs | `EmojiModel`, `EmojiTables`: all, for characters. That the tables are right for a version of Unicode is not claimed |
| core-lib/src/watcher.rs | `WatchModel`: all but the printing. Paths are lists of components; what `canonicalize` gives is part of the call. Of the notify crate: the set of watched paths with modes, with calls that succeed; watching again sets the mode, unwatching a recursive path drops all below. Which events the system then sends is not modelled |
| core-lib/src/annotations.rs: `AnnotationStore`, `Annotations`; editor.rs `update_annotations`; view.rs `after_edit` (annotations) | `AnnotationsModel`. Types are numbers, the hash map a list, and the line and column of an offset a parameter. Not JSON, nor annotations made of selections and of what is found (for what these are made of see C29, C57) |
| lsp-lib/src/conversion_utils.rs `count_utf16`, `get_position_of_offset`, `offset_of_position`, `core_range_from_range`; utils.rs `get_document_content_changes`, `get_change_for_sync_kind` | `LspModel`, with the cache of `PluginCacheModel`, at the new text as in plugin-lib/src/dispatch.rs. `range_length` is left out. Of lsp-lib not modelled: the processes of the servers, and when they are started and told of documents. |
| lsp-lib/src/parse_helper.rs; language_server_client.rs `prepare_lsp_json`; utils.rs, the loop that reads | `LspWireModel`. Messages are text: serde_json is not modelled. White space and the case of letters in header fields are those of ASCII; a length has no largest value. Waiting for bytes is not modelled: a stream is all its bytes. |
| lsp-lib/src/lsp_plugin.rs `get_hover`, `idle`; result_queue.rs; language_server_client.rs `send_request`, `handle_response`; plugin-lib/src/dispatch.rs `do_get_hover`, `do_close`, `idle` | `HoverModel`: one language server, and no requests but hovers. A callback is one step, as it runs under the lock of the client. Answers are numbers; their conversion is C66. |
| lsp-lib/src/utils.rs `get_workspace_root_uri` | `WorkspaceModel`: absolute paths as lists of names; a file tree says what `read_dir` gives for each path; that a path has no URL is left out. |
| core-lib/src/movement.rs; `LineOffset` of line_offset.rs | `MovementModel`: all but `Movement` values made of RPC commands. The answers about lines are a record of functions, which `C52_view_lines_partial` fills with those of `LinewrapModel`; grapheme boundaries are a parameter. |
| core-lib/src/view.rs: gestures, commands on the selection, scrolling, the selection after an edit, the carets and selections of a drawn line | `ViewModel`. Find, replace and annotations are not in it; lines, graphemes and the range of a logical line are those of `LinewrapModel` |
| core-lib/src/view.rs: encode_styles, get_or_def_style_id, the highlights of encode_line; styles.rs: Style::merge, the style map | `DrawModel`. Themes are their foreground; loading and caching of theme files is not in it |
| core-lib/src/find.rs; view.rs: do_find, set_find, find_next, find_all, selection for find | `SearchModel`. Not the status sent to the client, nor annotations. A regular expression is any function from strings to places; the compiler of expressions is a parameter |
| core-lib/src/config.rs; syntax.rs: Languages; tabs.rs: views, settings and languages of `CoreState` | `ConfigModel`. A file's settings are a table already parsed; a path is its extension. Numbers with a fraction are labels. Not the reading and watching of files, nor what a buffer does with its settings |
| core-lib/src/file.rs; tabs.rs: do_new_view, do_save, do_close_view, handle_open_file_fs_event; event_context.rs: text_for_save, after_save; editor.rs: set_pristine, is_pristine, reload | `FileModel`, with a file system of paths, bytes, times and permissions. Whether two revisions with the same text count as equivalent is left open. Not links, directories or canonical paths, nor the watcher: a change may be reported at any time or never. A write is not lost by a crash once it is done (no `fsync` is called) |
| core-lib/src/word_boundaries.rs | `WordModel` |
| core-lib/src/edit_ops.rs, backspace.rs, line_offset.rs (logical lines); editor.rs `do_paste` | `EditOpsModel`: all of them. Grapheme boundaries, the properties of characters, white space, letter case and arithmetic on numbers are parameters |
| plugin-lib/src/base_cache.rs, state_cache.rs; core-lib editor.rs `plugin_get_data`, plugins/rpc.rs `resolve_offset` | `PluginCacheModel`: all of `ChunkCache` and `StateCache`; the random choice of entries to evict is an argument. Not: the RPC between them |
| syntect-plugin stack map, trace fixed_lifo_deque.rs | `StackMapModel`, `DequeModel` |

Each definition says in its comment where it simplifies.

## Where the code does not keep the property

Each is a `_refuted` theorem with the inputs; the matching property is `partial` in the manifest.

* C10: `iter_inserts` and `iter_deletions` give wrong positions for adjacent insertions and around insertions.
* C16: collecting a group that is still undoable is unsafe; excluded by hypothesis and shown by example.
* C18: a plugin's delta whose copies overlap or go backwards is accepted and corrupts the text.
* C29: `regions_in_range` and `delete_range` miss a region at the range's end when another ends there; both panic on some carets.
* C30: backward iteration of the complement is wrong when a range of the set starts beyond the end.
* C31: a caret that leaves the window in an otherwise idle update stays on the client; an empty caret list is
  omitted although the protocol says absent means unchanged; empty line requests send an empty operation; backward ones underflow.
* C24: a case-insensitive search for a pattern starting with an uppercase non-ASCII character finds nothing, nor does one
  for a word ending with a capital sigma; a regular expression searched in lines that end before the cursor's text never ends.
* C26: `delete_after` an interval that no span intersects keeps the spans after it, against its comment; overlapping spans (nothing stops a plugin from sending them) merge into a sequence that is out of order, and out-of-order ones can make the builder panic.
* C27: reloading a file in which a long line appears twice can copy the line twice, and the engine keeps one copy, so the buffer is not the file; reloading "é" that became "ĩ" panics.
* C28: the scan backwards says that two different characters with the same last byte have that byte in common.
* C33: capitalising panics on a word that begins with a non-ASCII letter and on two regions in neighbouring words, and changes the word after a
  region that ends with a word; two carets in a word or number, or in white space before a tab stop, or around the "\n" of "\r\n", panic; a tab with a caret
  and the start of a selection of several lines on one line panics; transposing at the end of a line after a character of several bytes, or with two
  carets near the end of a line, panics; a tab size of 0, or over 32, panics; the last line is not duplicated, or gets an extra line.
* C34: after deleting at the end of the text the merged styles are longer than the text, or the editor panics when a layer has many spans;
  spans for an interval at whose end text was inserted meanwhile make the layer shorter than the text; a file opened with content has layers
  of length zero; an empty stack of scopes or a scope id not added before panics.
* C38: a handler that asks the peer and waits, when the reader has met the end of the input already or meets it before the request is entered, waits for ever.
* C38: a response with an id that is not a number panics the reader, and the loop never ends. A request with such an id is never answered.
* C38: a callback that sends a request when it is told of the disconnection (or of a failed write) deadlocks.
* C53: the theme's style for the outermost scope of a stack is never applied, nor any when the stack it extends was not added first; the cache of styles survives a change of theme.
* C35: `get_region` of a plugin never returns when the region ends after the text.
* C39: only the first ending of each chunk is looked at; a CRLF split between chunks is reported as mixed;
  the four smallest, not the four commonest, indentations are used.
* C40: a failed measurement leaves widths of zero in the cache for good; a batch dropped before it is resolved makes two strings share a token.
* C41: two undos in a row leave an undone event in the recording.
* C43: an edit while wrapping is not finished can leave the tasks out of order; the next edit can then join tasks far apart, and wrapping begins in the middle of a
  line: an assertion fails. Such an edit can also report too few changed lines, so that the client keeps an outdated one.
* C45: three peers merging in a ring need not converge. C46: merging panics after any undo.
* C47: `at_or_next_codepoint_boundary` inside a codepoint gives the wrong boundary.
* C48: `iter_chunks`, `slice` and `line_of_offset` answer for arguments out of range instead of panicking.
* C49: twenty playbacks without edits make the collector collect a group in use; a later edit panics.
* C50: a plugin edit based on an undone group does not show.
* C51: an edit makes a plugin's state cache forget work still to do further down.
* C52: from the start of a line, `StartOfParagraph` goes to the start of the line before; `EndOfParagraphKill` does not move on a last line that has text; going down to
  the exact position never finds a last line that is just long enough; a remembered column one past the end of the line is not cut down to the line; and going up (or down) to
  the exact position from an empty last line with a remembered column panics (`line_length(..) - 1`).
* C55: `selection_into_lines` drops the last byte of a region that ends within a line (and then panics if that byte is part of a longer character), and makes one that ends within
  the last line longer; a scroll to a window that ends before it begins panics, and one without height makes the next movement panic; where two regions meet, a click takes away
  only one of them; the old `click` request does nothing unless it is to extend, as the gestures it makes are the deprecated ones, which only `gesture` requests have translated.
* C56: a caret at the end of a text that ends in a line break is drawn on the last line and also behind the line before it, and when it moves away the second one stays with the
  client, as that line is not told to be stale. With eight queries or more, the highlights of the eighth are sent with the number of the first style of the theme.
* C57: with whole words, a query or an occurrence that ends in a character of more than one byte makes the search panic (`is_matching_whole_words` looks at `end - 1`), and an occurrence that
  is no whole word hides one that is and overlaps it (`C57_whole_words_refuted`). An expression that matches the empty string panics when the text is searched twice, as all batches are
  (`C57_empty_match_refuted`). After an edit, an occurrence just behind a deletion is no longer shown, nor is one made or left at the end of the text when something was removed, and with whole
  words one that is no longer a whole word still is (`C57_edit_refuted`). A regular expression that cannot be compiled is searched for as text.
* C58: not to wrap around makes no difference, the next unselected occurrence from the start of the text is taken anyway (`C58_wrap_refuted`); going back passes over an occurrence of one
  character that begins where another ends (`C58_find_previous_refuted`, from the defect of the range query, C29). `allow_same` is not used.
* C59: a change of settings between a view's creation and the idle handler is sent to the client at once, and then overwritten there by the settings from before it
  (`C59_client_refuted`); closing a view in that time stops the editor when the idle handler unwraps its context (`C59_close_refuted`). A key that is taken away, and has no
  value elsewhere, is not reported (`C59_taken_away_refuted`). A plugin's defaults are not checked: a bad one stops the editor when a file of that language is opened
  (`C59_plugin_defaults_refuted`). A file saved under an extension nobody knows gets the empty language, but "Plain Text" when it is opened (`C59_save_as_refuted`).
* C60: saving a file destroys another one with its name and `.swp` (`C60_swap_refuted`). When the file of a buffer with no changes is deleted, the buffer is emptied
  and then can not be saved (`C60_deleted_refuted`). A change by others is overwritten if the editor was not told of it yet, as a save does not look (`C60_untold_refuted`); if the file is open
  in two buffers, of which only the last one opened is told (`C60_twice_refuted`); if the file was not there when opened (`C60_created_refuted`); if it came between the reading or
  writing of the bytes and the look at the time (`C60_race_refuted`); and if it left the time as it was (`C60_same_time_refuted`). A text that begins with a byte order mark loses it
  (`C60_bom_refuted`). A crash between the renaming and the setting of permissions leaves a private file readable (`C60_permissions_refuted`).
* C61: the state machine departs from UAX 14 in five kinds of places. A joiner before an emoji or ideograph does not prevent a break, so emoji sequences are torn apart (`C61_joiner_refuted`);
  two or more spaces after ZW, OP, QU, CL, CP or B2 are forgotten (`C61_spaces_refuted`); there is a break between a closing brace and a currency sign (`C61_brace_refuted`; the script that makes
  the table has `PP` for `PR`); there is none at a space after a Hebrew letter and a hyphen (`C61_hebrew_refuted`); and there is one before a no-break space after a flag (`C61_flag_refuted`).
  The rule for the class SA is simplified in the statement as in the code: all of it is AL.
* C62: if a line begins with a joiner, reading from its start finds fewer breaks than reading from the start of the text (`C62_resume_refuted`), so that wrapping there depends on history.
  The last break of a rope that ends in CR, NEL, U+2028 etc. is not marked as mandatory (`C62_last_refuted`).
* C63: of a joined sequence whose second element has a skin tone, only that element goes, and the joiner is left (`C63_tones_refuted`).
  Digits are in the emoji table, so two digits with a joiner between go together (`C63_digits_refuted`).
* C64: who watches a directory recursively that someone already watches not recursively gets no recursive watch from the system (`C64_modes_refuted`; `C64_modes_partial` is what holds).
  After one error from the system no event is told any more (`C64_errors_refuted`). A watch of a link is not called off by the same path (`C64_links_refuted`).
* C65: the first annotations of a type are put at the start of the text, whatever interval they are for (`C65_first_refuted`), and later ones behind all that was annotated before right at the end of
  that (`C65_behind_refuted`). An insertion neither moves nor removes any annotation, so all behind it are then on other text (`C65_insert_refuted`). The annotations of a plugin that is gone stay, as nothing calls `clear`.
* C66: the end of a deletion is looked up in the new text, but the server looks for it in the old one. When two lines are joined nothing is deleted at the server (`C66_join_refuted`), when a word before a
  newline is deleted the newline and more go with it (`C66_word_refuted`), and where the end is inside a character of the new text the plugin panics (`C66_delete_panic_refuted`).
  A position beyond the end of a line is taken for the start of the next line, and by the protocol is the end of that line (`C66_beyond_refuted`).
* C67: when the server is gone the thread that reads from it does not stop but gets an error in each round, at once (`C67_end_refuted`). After a field it does not know it takes the content for fields, and loses the next
  message as well (`C67_field_refuted`). A line that is not UTF-8 is taken for the end of the header (`C67_line_refuted`).
* C68: when a view is closed before the answer to its hover is shown, the answer is shown in the next view that has one, and the answer of that in the next after it, for ever (`C68_closed_refuted`). A second answer
  to a request, or one to no request, makes the plugin panic (`C68_second_refuted`).
* C69: a folder that cannot be read hides a workspace above it: there is an error instead (`C69_unreadable_refuted`).

## Trusted base

* Coq 8.16.1's kernel.
* The fidelity of the model to the Rust source; each definition cites it.
* Axioms: none. `Print Assumptions` says "Closed under the global context" for every theorem in `Properties*.v`.
  The checker also lists seven constants `Coq.ssr.ssrunder.Under_rel.*`: they are the fields of a module type of
  the standard library that is loaded with `lia`'s Boolean support, and no theorem depends on them.
* Not modelled: overflow of `usize` (nat is unbounded; underflow is a panic), memory and allocation, threads other than those of the RPC loop,
  serde, FFI, the file system, the front end beyond the protocol in C31, and the tables of the unicode crates (but those for line breaking and emoji, which are in the model; that the
  19 classes not listed in `LineBreakSpec.listed` have the right characters is not proved).
