{
 "claims": [
  {
   "property": "C01",
   "status": "proved",
   "theorems": [
    "edits_simultaneous",
    "edits_order_irrelevant"
   ],
   "note": ""
  },
  {
   "property": "C02",
   "status": "proved",
   "theorems": [
    "reparse_range_sound",
    "reparse_start_sound"
   ],
   "note": ""
  },
  {
   "property": "C03",
   "status": "partial",
   "theorems": [
    "same_start_edits_partial",
    "same_start_edits_refuted"
   ],
   "note": "True when insertions are listed before the replacement starting at the same offset; false otherwise: the insertion is lost and deleted text reappears (witness)."
  },
  {
   "property": "C04",
   "status": "proved",
   "theorems": [
    "rope_refines_flat_text",
    "legal_batch_never_rejected",
    "chunk_size_respected"
   ],
   "note": ""
  },
  {
   "property": "C05",
   "status": "proved",
   "theorems": [
    "chunk_at_correct",
    "text_in_range_correct"
   ],
   "note": ""
  },
  {
   "property": "C06",
   "status": "partial",
   "theorems": [
    "sources_agree_partial",
    "text_from_correct",
    "sources_agree_past_end_refuted",
    "sources_agree_off_boundary_refuted"
   ],
   "note": "Agreement holds for in-range ranges on character boundaries; refuted for ranges past the end and ranges starting inside a character."
  },
  {
   "property": "C07",
   "status": "proved",
   "theorems": [
    "streaming_is_append"
   ],
   "note": ""
  },
  {
   "property": "C08",
   "status": "proved",
   "theorems": [
    "flat_source_serves",
    "chunked_source_serves",
    "cursor_refines_text",
    "flat_program_deterministic",
    "chunking_unobservable",
    "take_while_byte_correct"
   ],
   "note": ""
  },
  {
   "property": "C09",
   "status": "proved",
   "theorems": [
    "cursor_refines_text",
    "chunking_unobservable"
   ],
   "note": "StartsWith and Consume commands of cursor programs."
  },
  {
   "property": "C10",
   "status": "partial",
   "theorems": [
    "find_str_sound",
    "find_str_flat_correct",
    "find_str_chunked_partial",
    "ascii_chunks_wide",
    "find_str_three_chunks_refuted",
    "find_str_tail_cut_refuted"
   ],
   "note": "Sound everywhere, complete on contiguous text and on wide chunks; refuted in general: occurrences spanning three chunks, or whose kept tail starts inside a character, are missed."
  },
  {
   "property": "C11",
   "status": "proved",
   "theorems": [
    "find_byte_correct",
    "skip_byte_correct",
    "skip_two_bytes_correct",
    "skip_whitespace_correct",
    "skip_digits_correct",
    "skip_ident_correct",
    "skip_hex_correct",
    "find_first_of_4_correct",
    "skip_until_correct",
    "longest_run_determined"
   ],
   "note": ""
  },
  {
   "property": "C12",
   "status": "proved",
   "theorems": [
    "emit_joins_pieces",
    "emit_keeps_words"
   ],
   "note": ""
  },
  {
   "property": "C13",
   "status": "proved",
   "theorems": [
    "find_char_correct"
   ],
   "note": ""
  },
  {
   "property": "C14",
   "status": "partial",
   "theorems": [
    "scan_string_correct",
    "literal_end_unique",
    "quote_as_own_escape_refuted"
   ],
   "note": "Proved when the escape character differs from the quote; with quote = escape the ASCII and non-ASCII paths disagree (witness)."
  },
  {
   "property": "C15",
   "status": "proved",
   "theorems": [
    "scan_comment_correct",
    "unnested_comment_first_terminator",
    "scan_line_comment_correct",
    "scan_block_comment_correct",
    "empty_terminator_refuted"
   ],
   "note": "scan_block_comment panics for an empty terminator (witness); all other configurations are covered."
  },
  {
   "property": "C16",
   "status": "proved",
   "theorems": [
    "guard_makes_progress",
    "guarded_loop_terminates",
    "backward_rule_diverges_refuted"
   ],
   "note": "The hypothesis that rules do not move backwards is necessary: see the refutation."
  },
  {
   "property": "C17",
   "status": "partial",
   "theorems": [
    "cache_reuse_sound_partial",
    "cache_reuse_truncation_refuted",
    "cache_reuse_empty_refuted"
   ],
   "note": "Sound when the first changed byte is before the end of the new text; refuted when the text is truncated at the edit or emptied."
  },
  {
   "property": "C18",
   "status": "proved",
   "theorems": [
    "length_is_leaf_text",
    "node_builds_while_it_fits"
   ],
   "note": ""
  },
  {
   "property": "C19",
   "status": "proved",
   "theorems": [
    "children_tile_node"
   ],
   "note": ""
  },
  {
   "property": "C20",
   "status": "proved",
   "theorems": [
    "leaf_lookup_correct",
    "child_lookup_correct"
   ],
   "note": ""
  },
  {
   "property": "C21",
   "status": "proved",
   "theorems": [
    "cursor_visits_in_order",
    "cursor_moves_correct",
    "cursor_offsets_correct",
    "cursor_end_is_sticky_refuted"
   ],
   "note": "Finding: after reporting the end the cursor is on the root again, so one more step restarts the traversal."
  },
  {
   "property": "C22",
   "status": "proved",
   "theorems": [
    "preorder_correct",
    "visitor_correct"
   ],
   "note": ""
  },
  {
   "property": "C23",
   "status": "proved",
   "theorems": [
    "parser_lossless",
    "finished_tree_is_the_source",
    "incremental_parser_covers"
   ],
   "note": ""
  },
  {
   "property": "C24",
   "status": "partial",
   "theorems": [
    "skipping_drops_only_tokens_partial",
    "advance_until_is_any",
    "skipping_is_lossless_refuted"
   ],
   "note": "Finding: advance and advance_until move past tokens without pushing them, so their text is missing from the tree. Proved: nothing else is lost."
  },
  {
   "property": "C25",
   "status": "partial",
   "theorems": [
    "failed_attempt_restores_partial",
    "failed_attempt_keeps_diagnostics_refuted",
    "failed_attempt_after_wrap_refuted"
   ],
   "note": "Finding: restoring does not remove diagnostics, and cannot undo a finish_at that swallowed nodes made before the checkpoint. Proved: the restoration of tokens and tree otherwise."
  },
  {
   "property": "C26",
   "status": "partial",
   "theorems": [
    "reused_text_unchanged_partial",
    "reused_text_unchanged_refuted"
   ],
   "note": "Proved when the old tree covers the whole old text; finding: an old tree lacking the leading trivia shifts all offsets and wrong nodes are reused."
  },
  {
   "property": "C27",
   "status": "partial",
   "theorems": [
    "reuse_takes_whole_tokens_partial",
    "reuse_leaves_trivia_refuted"
   ],
   "note": ""
  },
  {
   "property": "C28",
   "status": "partial",
   "theorems": [
    "one_pass_ignores_history_partial",
    "one_pass_ignores_history_refuted"
   ],
   "note": ""
  },
  {
   "property": "C29",
   "status": "partial",
   "theorems": [
    "old_tree_alive_partial",
    "old_tree_alive_refuted"
   ],
   "note": "The partial theorem characterises exactly when the old tree is still owned."
  },
  {
   "property": "C30",
   "status": "partial",
   "theorems": [
    "pratt_correct_partial",
    "pratt_any_table_refuted"
   ],
   "note": "Proved for precedences below 255 and sources below 2^32 bytes; a left-associative operator of precedence 255 overflows u8."
  },
  {
   "property": "C31",
   "status": "partial",
   "theorems": [
    "nonassociative_chain_refuted",
    "nonassociative_is_left_associative"
   ],
   "note": "Finding: chains of non-associative operators are accepted and grouped to the left."
  },
  {
   "property": "C32",
   "status": "partial",
   "theorems": [
    "deep_copy_preserves_partial",
    "deep_copy_provenance_refuted"
   ],
   "note": "Finding: provenance metadata is not copied."
  },
  {
   "property": "C33",
   "status": "proved",
   "theorems": [
    "objects_disjoint"
   ],
   "note": "For layouts of alignment at most 8 (checked only by debug_assert) and sequential use."
  },
  {
   "property": "C34",
   "status": "proved",
   "theorems": [
    "chunks_exclusive"
   ],
   "note": ""
  },
  {
   "property": "C35",
   "status": "partial",
   "theorems": [
    "dropped_memory_returned_partial",
    "dropped_memory_returned_refuted"
   ],
   "note": "Finding: a standard chunk released while the pool is full is neither pooled nor freed. Proved for drops for which the pool has room, and that nothing else is ever lost by a drop."
  },
  {
   "property": "C36",
   "status": "partial",
   "theorems": [
    "metadata_read_back_partial",
    "metadata_read_back_refuted"
   ],
   "note": "Proved below 2^32 stores per arena; the 2^32-th store panics."
  },
  {
   "property": "C37",
   "status": "partial",
   "theorems": [
    "readers_read",
    "line_col_round_trip_partial",
    "line_col_round_trip_refuted"
   ],
   "note": "Proved for texts below 4 GiB, for flat and chunked sources; for larger texts the cast to u32 wraps."
  },
  {
   "property": "C38",
   "status": "proved",
   "theorems": [
    "lines_partition",
    "line_ends",
    "line_col_round_trip_partial"
   ],
   "note": "The line found for an offset is part of line_col_round_trip_partial (texts below 4 GiB)."
  },
  {
   "property": "C39",
   "status": "partial",
   "theorems": [
    "column_position_partial",
    "column_clamps_to_line_refuted"
   ],
   "note": "Finding: a column past the end of a line gives the start of the next line. Proved: columns inside the line, and the last line."
  },
  {
   "property": "C40",
   "status": "proved",
   "theorems": [
    "memory_vfs_is_a_map",
    "identities_stable",
    "memory_read_dir"
   ],
   "note": "Calls are atomic (all locks held)."
  },
  {
   "property": "C41",
   "status": "partial",
   "theorems": [
    "listing_finds_files_partial",
    "memory_listing_exact",
    "listing_finds_files_refuted",
    "listing_terminates_refuted"
   ],
   "note": "Findings: the in-memory file system has no directories, so listing a folder reports nothing; a symbolic link cycle makes the listing run forever. Proved for trees."
  },
  {
   "property": "C42",
   "status": "partial",
   "theorems": [
    "printed_lines",
    "texts_woven_partial",
    "visible_content_kept",
    "indent_styles_blank",
    "texts_woven_refuted"
   ],
   "note": "Finding: with trimming, blanks at the end of a text are lost. Proved exactly without trimming, and for visible characters always."
  },
  {
   "property": "C43",
   "status": "partial",
   "theorems": [
    "printed_lines",
    "fitting_group_on_one_line",
    "fitting_document_printed_flat",
    "fitting_group_within_width",
    "character_width_refuted",
    "multiline_text_width_refuted"
   ],
   "note": "Holds for widths in bytes. Findings: widths count bytes, and a text with a line feed does not reset the column."
  },
  {
   "property": "C44",
   "status": "proved",
   "theorems": [
    "hard_breaks_propagate",
    "hard_break_breaks_group"
   ],
   "note": ""
  },
  {
   "property": "C45",
   "status": "partial",
   "theorems": [
    "no_trailing_blanks_partial",
    "no_trailing_blanks_refuted"
   ],
   "note": "Finding: lines inside a text keep trailing blanks. Proved for texts without line feeds."
  },
  {
   "property": "C46",
   "status": "proved",
   "theorems": [
    "final_newline",
    "printed_lines"
   ],
   "note": ""
  },
  {
   "property": "C47",
   "status": "proved",
   "theorems": [
    "node_rules_by_priority",
    "token_rules_by_priority",
    "registration_outcome",
    "registration_order_irrelevant"
   ],
   "note": ""
  },
  {
   "property": "C48",
   "status": "partial",
   "theorems": [
    "file_symbols_current",
    "lookup_never_stale",
    "lookup_current_partial",
    "lookup_current_refuted",
    "query_matches_lookup"
   ],
   "note": "Finding: if two files define a name and one drops it, the other's definition is no longer found. Never stale in general; exact for histories without shared names."
  },
  {
   "property": "C49",
   "status": "proved",
   "theorems": [
    "document_symbols_exact",
    "scoped_lists_elements"
   ],
   "note": ""
  },
  {
   "property": "C50",
   "status": "proved",
   "theorems": [
    "references_exact",
    "references_distinct",
    "references_panic"
   ],
   "note": "For trees whose name tokens can be sliced from the source; otherwise the search panics, also proved."
  },
  {
   "property": "C51",
   "status": "partial",
   "theorems": [
    "find_root_contains",
    "within_workspace_iff",
    "find_root_innermost_partial",
    "find_root_order_irrelevant",
    "find_root_innermost_refuted"
   ],
   "note": "Finding: folder lengths are compared as raw strings, so redundant slashes make an outer folder win. Proved for folder paths without redundant separators."
  },
  {
   "property": "C52",
   "status": "proved",
   "theorems": [
    "segments_cover",
    "segments_panic",
    "plain_covers"
   ],
   "note": "For trees whose leaves can be sliced from the source; otherwise the highlighter panics, also proved."
  },
  {
   "property": "C53",
   "status": "proved",
   "theorems": [
    "style_most_specific",
    "best_ancestor_unique",
    "styles_deepest"
   ],
   "note": ""
  },
  {
   "property": "C54",
   "status": "proved",
   "theorems": [
    "escape_neutral",
    "escape_read_back",
    "escape_injective",
    "escape_implementations_agree"
   ],
   "note": ""
  },
  {
   "property": "C55",
   "status": "proved",
   "theorems": [
    "json_string_round_trip",
    "json_export_document"
   ],
   "note": ""
  },
  {
   "property": "C56",
   "status": "proved",
   "theorems": [
    "ansi_strips"
   ],
   "note": ""
  },
  {
   "property": "C57",
   "status": "proved",
   "theorems": [
    "labels_inside"
   ],
   "note": ""
  },
  {
   "property": "C58",
   "status": "partial",
   "theorems": [
    "repl_edits_partial",
    "repl_ascii_partial",
    "repl_edits_refuted",
    "repl_cursor_refuted"
   ],
   "note": "Finding: the cursor counts characters but is used as a byte index, so non-ASCII input panics or lands in the wrong place. Proved when the characters left of the cursor are ASCII."
  },
  {
   "property": "C59",
   "status": "proved",
   "theorems": [
    "requests_answered",
    "unknown_method"
   ],
   "note": "JSON reading is a parameter; responses are JSON values."
  },
  {
   "property": "C60",
   "status": "partial",
   "theorems": [
    "cycles_genuine",
    "cycles_found",
    "acyclic_silent",
    "undirected_cycle_refuted"
   ],
   "note": "Proved for the step relation the search uses, for every order of nodes. Finding: in an undirected graph a single edge is reported as a cycle."
  },
  {
   "property": "C61",
   "status": "proved",
   "theorems": [
    "layers_partition",
    "layers_respect_edges"
   ],
   "note": "Graphs as node and edge lists; any order of the node table."
  },
  {
   "property": "C62",
   "status": "partial",
   "theorems": [
    "connected_partial",
    "connected_order_partial",
    "connected_order_refuted",
    "connected_dangling_refuted"
   ],
   "note": "Proved for undirected graphs with edges between existing nodes. Findings: wrong for directed graphs and for edges to missing nodes."
  },
  {
   "property": "C63",
   "status": "partial",
   "theorems": [
    "compact_apart_partial",
    "compact_centred_partial",
    "equal_sizes_snug",
    "compact_complete",
    "compact_overlap_refuted"
   ],
   "note": "Proved if no parent is wider than the row of its children, which holds for equal sizes. Finding: a wide parent overlaps its sibling."
  },
  {
   "property": "C64",
   "status": "proved",
   "theorems": [
    "compose_applies",
    "compose_assoc",
    "compose_unit",
    "elementary_transforms",
    "rotation_rigid"
   ],
   "note": "Over rationals; rotations take a cosine and a sine with unit length."
  },
  {
   "property": "C65",
   "status": "partial",
   "theorems": [
    "json_lexes_pieces_partial",
    "json_tokens_in_order",
    "json_tiles_unless_stray_partial",
    "json_lexer_tiles_refuted"
   ],
   "note": "Order, disjointness and the lexeme of every token are proved for every text and configuration; tokens tile the text when nothing is left out. Finding: signs without digits, single letters t, f, n and (with comments) a single slash are in no token."
  },
  {
   "property": "C66",
   "status": "partial",
   "theorems": [
    "json_tree_partial",
    "json_root_width_partial",
    "json_root_refuted"
   ],
   "note": "Parsing is total; the leaves of the tree are consecutive tokens; for valid JSON the root covers all but leading whitespace. Finding: leading whitespace and anything after the first value are outside the root."
  },
  {
   "property": "C67",
   "status": "partial",
   "theorems": [
    "json_accepts_valid",
    "json_no_diagnostics_iff",
    "json_valid_iff",
    "json_diagnostics_refuted"
   ],
   "note": "Valid JSON gives no diagnostics; the exact condition for no diagnostics and the exact extra conditions for validity are proved. Finding: text after the value, lone signs and letters, leading zeros, incomplete numbers and bad escapes are accepted."
  },
  {
   "property": "C68",
   "status": "partial",
   "theorems": [
    "flat_edits_refused",
    "rope_edit_anywhere",
    "off_boundary_edit_refuted"
   ],
   "note": "Refuted: the rope deletes a whole chunk; the flat text panics instead. Proved: exactly which batches a flat text carries out, and for every edit of a rope, where its ends land and so which bytes can change."
  },
  {
   "property": "C69",
   "status": "partial",
   "theorems": [
    "find_str_flat_keeps_position_partial",
    "find_str_keeps_position_refuted"
   ],
   "note": "Refuted on chunked text; holds on contiguous text."
  },
  {
   "property": "C70",
   "status": "partial",
   "theorems": [
    "scan_off_boundary_diverges",
    "scanning_terminates_refuted",
    "cursor_refines_text",
    "find_str_sound",
    "find_char_correct"
   ],
   "note": "Terminates from every character boundary; refuted: inside a character of a contiguous text all these loops run forever."
  },
  {
   "property": "C71",
   "status": "proved",
   "theorems": [
    "scan_whitespace_correct",
    "char_is_whitespace_correct",
    "scan_identifier_correct",
    "bump_correct"
   ],
   "note": ""
  },
  {
   "property": "C72",
   "status": "proved",
   "theorems": [
    "library_scanners_ok",
    "scanner_lexer_orders_tokens",
    "eof_token_correct"
   ],
   "note": ""
  },
  {
   "property": "C73",
   "status": "partial",
   "theorems": [
    "resumed_lexing_partial",
    "resumed_lexing_eof_partial",
    "resumed_lexing_append_refuted"
   ],
   "note": "True for caches without an end token and for edits inside the old text; refuted for text appended at the end with an end token in the cache."
  },
  {
   "property": "C74",
   "status": "partial",
   "theorems": [
    "root_covers_source_partial",
    "root_covers_source_refuted"
   ],
   "note": "Finding: leading trivia is pushed by ParserState::new before the checkpoint and stays outside the root. Proved for sources without leading trivia."
  },
  {
   "property": "C75",
   "status": "partial",
   "theorems": [
    "incremental_equals_full_partial",
    "incremental_history_partial",
    "incremental_equals_full_refuted"
   ],
   "note": "Incremental and full parsing agree, after any number of edits in one session, for recursive-descent parsers given as grammars whose rules are closed by their last token (self_contained), lexers that cut the same text in the same way (local_lexer), earlier texts parsed without errors and not beginning with trivia, and edits that put no trivia where a replacement begins (calm). In general it is false (incremental_equals_full_refuted). Missing: parsers that use restore, Pratt parsing or arbitrary code between the operations; rules that look beyond their end."
  },
  {
   "property": "C76",
   "status": "proved",
   "theorems": [
    "lookahead_agrees_with_consuming"
   ],
   "note": ""
  },
  {
   "property": "C77",
   "status": "partial",
   "theorems": [
    "shared_arena_exclusive_partial",
    "shared_arena_disjoint_refuted"
   ],
   "note": "For every schedule of loads and stores of any number of threads, the objects are apart exactly if no thread reads the pointer between another thread's load and store; then all lie in the chunk. Finding: the arena is declared Sync but its bump pointer is updated without synchronisation, so safe code can get overlapping objects."
  },
  {
   "property": "C78",
   "status": "partial",
   "theorems": [
    "ending_thread_returns_memory_refuted"
   ],
   "note": "Finding: the pool is a vector of raw pointers without destructor; its chunks are lost when the thread ends."
  },
  {
   "property": "C79",
   "status": "partial",
   "theorems": [
    "disk_contents",
    "disk_identity_refuted"
   ],
   "note": "Finding: DiskVfs never fills its identity tables. Proved: after any history every path has the content last written to it or found there, and no path ever has an identity."
  },
  {
   "property": "C80",
   "status": "partial",
   "theorems": [
    "line_forces_break_refuted",
    "printed_lines"
   ],
   "note": "Finding: Line prints a space at top level and in groups that fit, unlike its documentation and documented example."
  },
  {
   "property": "C81",
   "status": "proved",
   "theorems": [
    "builtin_formatting_keeps_content",
    "builtin_formatting_succeeds"
   ],
   "note": "Rules other than the built-in ones are arbitrary and not covered."
  },
  {
   "property": "C82",
   "status": "partial",
   "theorems": [
    "formatting_idempotent_partial",
    "formatting_idempotent_refuted"
   ],
   "note": "Proved for every tree without containers, statements and comma punctuation: the output is the tidied source and formatting it again changes nothing. Finding: every pass adds a space after a comma."
  },
  {
   "property": "C83",
   "status": "partial",
   "theorems": [
    "token_parent_kind_refuted",
    "node_ancestor_kinds"
   ],
   "note": "Finding: for tokens parent_kind gives the grandparent."
  },
  {
   "property": "C84",
   "status": "partial",
   "theorems": [
    "unformatted_comments_kept_refuted"
   ],
   "note": "Finding: the context created with comment formatting off drops all comments."
  },
  {
   "property": "C85",
   "status": "partial",
   "theorems": [
    "definition_found_partial",
    "definition_found_refuted",
    "token_is_own_definition",
    "definition_module",
    "definition_elsewhere"
   ],
   "note": "Finding: only direct children of the root are looked at."
  },
  {
   "property": "C86",
   "status": "partial",
   "theorems": [
    "query_lists_all_partial",
    "query_lists_all_refuted",
    "query_matches_lookup"
   ],
   "note": "Finding: definitions with the same container name and name hide each other."
  },
  {
   "property": "C87",
   "status": "partial",
   "theorems": [
    "service_symbols_partial",
    "service_symbols_refuted",
    "unparsed_no_symbols"
   ],
   "note": "Finding: no fallback to parsing."
  },
  {
   "property": "C88",
   "status": "partial",
   "theorems": [
    "import_first_existing",
    "folder_imports_found_partial",
    "folder_imports_found_refuted"
   ],
   "note": "Finding: folders added after initialisation are not searched."
  },
  {
   "property": "C89",
   "status": "partial",
   "theorems": [
    "token_style_own_partial",
    "token_style_own_refuted"
   ],
   "note": "Finding: with a style for `keyword` and one for `source.rust`, keywords get the latter."
  },
  {
   "property": "C90",
   "status": "partial",
   "theorems": [
    "html_shows_source_partial",
    "html_css_first",
    "html_shows_source_refuted"
   ],
   "note": "Finding: colours of the theme are inserted unescaped. Proved for class mode and for colours without angle brackets."
  },
  {
   "property": "C91",
   "status": "partial",
   "theorems": [
    "html_keeps_styles_partial",
    "html_keeps_styles_refuted"
   ],
   "note": "Finding: class mode drops the colours. Proved for inline mode and colours without semicolons."
  },
  {
   "property": "C92",
   "status": "partial",
   "theorems": [
    "positioned_labelled_partial",
    "positioned_labelled_refuted",
    "eof_reported_at_start"
   ],
   "note": "Finding: an unexpected end of file gets no label; editors are told the start of the file."
  },
  {
   "property": "C93",
   "status": "partial",
   "theorems": [
    "label_marked",
    "error_marked_partial",
    "end_marked_partial",
    "error_marked_refuted",
    "end_marked_refuted"
   ],
   "note": "Finding: an error at a line feed is marked on the next line; at the end of a file ending in a line feed nothing is marked. Proved in all other cases."
  },
  {
   "property": "C94",
   "status": "partial",
   "theorems": [
    "long_label_marked_refuted"
   ],
   "note": "Finding: the carets lie right after the labelled text. Nothing weaker is claimed."
  },
  {
   "property": "C95",
   "status": "partial",
   "theorems": [
    "lsp_range_partial",
    "lsp_range_refuted"
   ],
   "note": "Finding: labels of errors are one byte long, so at a multi-byte character the range ends before it starts. Proved for labels on characters."
  },
  {
   "property": "C96",
   "status": "partial",
   "theorems": [
    "console_is_plain_partial",
    "console_is_plain_refuted"
   ],
   "note": "Finding: multi-line labels have extra blanks on the console. Proved for labels within lines."
  },
  {
   "property": "C97",
   "status": "partial",
   "theorems": [
    "continuation_prompt_partial",
    "continuation_prompt_refuted"
   ],
   "note": "Finding: deleting back to the first line keeps the continuation prompt. Proved without backspace."
  },
  {
   "property": "C98",
   "status": "partial",
   "theorems": [
    "unasked_line_ignored",
    "asking_line_answered",
    "malformed_reported_refuted",
    "batch_reported_refuted"
   ],
   "note": "Finding: malformed lines and batches are silently dropped. Proved: exactly which lines are answered; every other one is as if it had not been sent."
  },
  {
   "property": "C99",
   "status": "partial",
   "theorems": [
    "keeps_serving_partial",
    "keeps_serving_refuted"
   ],
   "note": "Finding: a line that is not UTF-8 ends the server. Proved for text."
  },
  {
   "property": "C100",
   "status": "partial",
   "theorems": [
    "tool_result_partial",
    "search_result_partial",
    "call_delivered",
    "tools_discard_results",
    "tool_result_refuted"
   ],
   "note": "Finding: symbols, definition, references, diagnostics and completion always answer the empty list."
  },
  {
   "property": "C101",
   "status": "partial",
   "theorems": [
    "offered_works_partial",
    "two_tools_unknown",
    "offered_works_refuted"
   ],
   "note": "Finding: `search` and `set_file_content` are offered but unknown. Proved for the others."
  },
  {
   "property": "C102",
   "status": "partial",
   "theorems": [
    "dangling_edge_exact",
    "dangling_edge_refuted"
   ],
   "note": "Finding: an edge to a missing node panics; proved to be the only case."
  },
  {
   "property": "C103",
   "status": "proved",
   "theorems": [
    "contains_exact",
    "intersects_exact",
    "union_least",
    "from_points_least",
    "expand_sides",
    "moved_inside",
    "scaled_inside",
    "differences"
   ],
   "note": "Over rationals; intersection and union for sizes that are not negative."
  },
  {
   "property": "C104",
   "status": "proved",
   "theorems": [
    "bounds_tight",
    "canvas_holds_all",
    "canvas_drawn",
    "empty_canvas"
   ],
   "note": "Over rationals; sizes that are not negative."
  },
  {
   "property": "C105",
   "status": "partial",
   "theorems": [
    "layered_apart_partial",
    "layered_complete",
    "layered_overlap_refuted"
   ],
   "note": "Proved if heights fit the level distance and widths differ by at most twice the sibling distance. Finding: a wide node covers a narrow sibling."
  },
  {
   "property": "C106",
   "status": "partial",
   "theorems": [
    "grid_apart_partial",
    "layers_apart_partial",
    "grid_complete",
    "grid_overlap_refuted"
   ],
   "note": "Proved for nodes not larger than the configured size. Finding: larger nodes overlap."
  },
  {
   "property": "C107",
   "status": "partial",
   "theorems": [
    "engine_apart",
    "engine_complete_partial",
    "engine_loses_refuted",
    "engine_diverges_refuted",
    "engine_dangling_refuted"
   ],
   "note": "Proved for graphs without closed walks. Findings: cycles without entry are left out, cycles behind a root recurse forever, an edge to an unknown node panics."
  },
  {
   "property": "C108",
   "status": "partial",
   "theorems": [
    "tree_edges_invisible",
    "tree_edges_refuted",
    "graph_edges_drawn"
   ],
   "note": "Proved for the grid layout of graphs. Finding: the edges of trees have no points and are never drawn."
  },
  {
   "property": "C109",
   "status": "partial",
   "theorems": [
    "label_shown_partial",
    "label_refuted"
   ],
   "note": "Proved for labels without markup characters. Finding: labels are not escaped, so a label with a less-than sign breaks the file."
  },
  {
   "property": "C110",
   "status": "partial",
   "theorems": [
    "attributes_once_partial",
    "class_twice",
    "class_twice_refuted"
   ],
   "note": "Proved for styles without a class and with custom attributes of new names. Finding: a style with a class gives the node two class attributes."
  },
  {
   "property": "C111",
   "status": "partial",
   "theorems": [
    "json_reparse_partial",
    "json_reparse_valid_partial",
    "json_reparse_refuted",
    "json_reparse_leading_refuted"
   ],
   "note": "Proved where the tokens tile the text and the first is not trivia: the second parse gives the same tree and reports what the first did or nothing; JSON texts not starting with white space give the identical result. Finding: after leading white space the second parse returns a different tree, without a diagnostic. Finding: with the previous tree and no edits, broken nodes are reused and their diagnostics are lost."
  },
  {
   "property": "C112",
   "status": "partial",
   "theorems": [
    "json_value_partial",
    "tidy_json",
    "json_value_total",
    "json_value_refuted"
   ],
   "note": "Proved for texts without leading whitespace, without whitespace directly after true, numbers and strings that are values, and without escapes; parsing answers for every text. Finding: `true ` is read as false, leading whitespace shifts every range, escapes are not decoded, `[1 ,2]` is an error."
  },
  {
   "property": "C113",
   "status": "partial",
   "theorems": [
    "json_malformed_refuted"
   ],
   "note": "Finding: the diagnostics of the parser are not looked at, so unclosed and trailing-comma arrays have values."
  },
  {
   "property": "C114",
   "status": "partial",
   "theorems": [
    "json_roundtrip_partial",
    "json_roundtrip_refuted"
   ],
   "note": "Proved for values whose strings are bodies of string literals not ending in a quote and whose numbers print as JSON numbers that are read back. Finding: quotes and backslashes are not escaped and NaN and infinities cannot be read."
  },
  {
   "property": "C115",
   "status": "proved",
   "theorems": [
    "json_get_first",
    "json_source_string"
   ],
   "note": ""
  },
  {
   "property": "C116",
   "status": "partial",
   "theorems": [
    "values_survive_exact",
    "integers_unreadable",
    "values_survive_refuted"
   ],
   "note": "The types all of whose values come back are characterised exactly. Finding: integers can never be read, options of types written as null collapse, variants with named fields are written as arrays but read as objects, and maps with boolean or number keys cannot be read."
  },
  {
   "property": "C117",
   "status": "proved",
   "theorems": [
    "struct_by_name",
    "struct_order_irrelevant"
   ],
   "note": ""
  },
  {
   "property": "C118",
   "status": "partial",
   "theorems": [
    "tuple_length_partial",
    "tuple_length_refuted"
   ],
   "note": "Short arrays are rejected, and what is read is characterised exactly. Finding: longer arrays are accepted and cut off."
  },
  {
   "property": "C119",
   "status": "partial",
   "theorems": [
    "integer_kept_partial",
    "integer_kept_refuted"
   ],
   "note": "Proved up to 2^53. Finding: beyond, different integers become the same number."
  },
  {
   "property": "C120",
   "status": "partial",
   "theorems": [
    "text_survives_partial",
    "text_survives_refuted"
   ],
   "note": "Proved for the types of C116 and values written without quotes and backslashes in strings. Finding: strings are not escaped."
  },
  {
   "property": "C121",
   "status": "partial",
   "theorems": [
    "formatted_one_comment_partial",
    "formatted_one_comment_refuted",
    "formatted_text_kept"
   ],
   "note": "Which contents give one comment is characterised exactly, and all but white space is kept. Finding: a line feed in a line comment and a closing marker in a block comment turn the rest of the content into code."
  },
  {
   "property": "C122",
   "status": "partial",
   "theorems": [
    "reformat_stable_partial",
    "reformat_grows",
    "reformat_stable_refuted"
   ],
   "note": "Which comments are stable is characterised exactly. Finding: block comments of several lines grow by two lines and a star per line each time, blank ones by a space."
  },
  {
   "property": "C123",
   "status": "partial",
   "theorems": [
    "comments_written_exact",
    "comments_once_partial",
    "comments_once_refuted"
   ],
   "note": "How often each comment is written is counted exactly. Finding: each later position writes all earlier comments again."
  },
  {
   "property": "C124",
   "status": "partial",
   "theorems": [
    "trailing_nearest_partial",
    "trailing_nearest_refuted",
    "trailing_line_refuted",
    "comments_sorted_stable",
    "comments_around",
    "comments_between",
    "comments_between_sides",
    "comments_trailing"
   ],
   "note": "Sorted collections give the nearest following trailing comment. Finding: unsorted ones need not, and the comment may belong to any later line."
  },
  {
   "property": "C125",
   "status": "partial",
   "theorems": [
    "comment_switches_partial",
    "comment_switches_refuted"
   ],
   "note": "`process_comments` honours both switches. Finding: neither insertion does."
  },
  {
   "property": "C126",
   "status": "proved",
   "theorems": [
    "csv_tokens"
   ],
   "note": ""
  },
  {
   "property": "C127",
   "status": "partial",
   "theorems": [
    "csv_separator_partial",
    "csv_blank_separator",
    "csv_separator_refuted"
   ],
   "note": "Holds unless the separator is a space, a tab or a line end character. With a tab (TSV) or a space no text has a separator token at all: blanks are skipped before separators are looked for (csv_blank_separator, csv_separator_refuted)."
  },
  {
   "property": "C128",
   "status": "partial",
   "theorems": [
    "csv_table_partial",
    "csv_table_refuted"
   ],
   "note": "Exact tree for every table whose text does not begin with a blank. A blank at the start of the file is put into the sink before the checkpoint of the root and is missing from the tree, which then is shorter than the text (csv_table_refuted). Blanks before a cell are not part of its field."
  },
  {
   "property": "C129",
   "status": "partial",
   "theorems": [
    "csv_parse_total_partial",
    "csv_malformed_refuted"
   ],
   "note": "Every text gives a tree with all its tokens but the blanks at its very start, and no text gives a diagnostic; so an unclosed quote is not reported (csv_malformed_refuted) and a text after a closing quote silently begins a new record (csv_parse_total_case)."
  },
  {
   "property": "C130",
   "status": "partial",
   "theorems": [
    "ini_parse_total_partial",
    "ini_rejects_all",
    "ini_accepts_refuted",
    "not_at_end_refuted"
   ],
   "note": "Parsing always stops without a panic, but always with Err and at least one diagnostic, the empty text included (ini_rejects_all): not_at_end() is true at the end token (not_at_end_refuted), which no rule takes, so a key is expected there. A plain file of a section and a pair is rejected (ini_accepts_refuted)."
  },
  {
   "property": "C131",
   "status": "partial",
   "theorems": [
    "ini_tokens_partial",
    "ini_cover_refuted",
    "ini_boundary_refuted"
   ],
   "note": "Termination, order, non-emptiness and the end token hold for every byte sequence. Characters that no rule takes, such as a colon, are left out without a token (ini_cover_refuted); a string token may end inside of an escaped non-ASCII character (ini_boundary_refuted)."
  },
  {
   "property": "C132",
   "status": "proved",
   "theorems": [
    "tester_pass"
   ],
   "note": "For all three testers; the record reads back as the result of the subject, given that serde_json reads what it writes."
  },
  {
   "property": "C133",
   "status": "partial",
   "theorems": [
    "tester_record_kept",
    "tester_difference_fails",
    "parser_tester_records_partial",
    "tester_records_refuted"
   ],
   "note": "Records are kept and differences are found by all three testers. That every file had a record (its own or the older name.expected.json) is true of the parser tester only; the lexer and builder testers write a missing record and pass (tester_records_refuted)."
  },
  {
   "property": "C134",
   "status": "partial",
   "theorems": [
    "tester_timeout_partial",
    "tester_timeout_refuted",
    "tester_late_refuted",
    "tester_panic_refuted"
   ],
   "note": "A late subject is reported as an error, but only when it ends: std::thread::scope waits for its threads, so the timeout bounds nothing (tester_late_refuted) and a subject that never ends hangs the tester (tester_timeout_refuted); a panic of the subject becomes a panic of the scope (tester_panic_refuted)."
  },
  {
   "property": "C135",
   "status": "proved",
   "theorems": [
    "tester_again"
   ],
   "note": "For all three testers."
  },
  {
   "property": "C136",
   "status": "partial",
   "theorems": [
    "parser_record_partial",
    "parser_record_refuted",
    "parser_count",
    "lexer_record_partial",
    "lexer_record_errors",
    "lexer_record_refuted"
   ],
   "note": "Two trees have the same record exactly if they agree up to the kinds, order and single lengths of the leaves in each node (parser_record_partial), so different trees share a record (parser_record_refuted); node_count is the number of nodes plus the number of nodes with leaves. Lexer records agree exactly if the tokens that are not ignored and the diagnostics do."
  },
  {
   "property": "C137",
   "status": "proved",
   "theorems": [
    "enum_exact",
    "map_exact"
   ],
   "note": "For the derived visitors of serde as modelled in SerdeModel."
  },
  {
   "property": "C138",
   "status": "partial",
   "theorems": [
    "expressions_parse_partial"
   ],
   "note": "Proved for all tables whose left-associative precedences are below 255 (u8 overflow, see C30) and sources below 2^32 bytes, for subscripts built with checkpoint_before. Calls with argument lists and member access are not in the grammar modelled."
  },
  {
   "property": "C139",
   "status": "partial",
   "theorems": [
    "expression_total_partial",
    "subscript_text_refuted"
   ],
   "note": "Proved under the same limits. Finding: the subscript (and call, member) branches of oak-rust, oak-c, oak-cpp, oak-csharp, oak-javascript, oak-kotlin, oak-php, oak-zig, oak-elixir and oak-actionscript take checkpoint() and push_child(left), which leaves the operand in the tree twice: the nodes for a[i] are five bytes wide."
  },
  {
   "property": "C140",
   "status": "proved",
   "theorems": [
    "json_macro_exact"
   ],
   "note": "The Rust expression parser (syn) is a parameter assumed to read integer literals and their negations."
  },
  {
   "property": "C141",
   "status": "partial",
   "theorems": [
    "json_macro_numbers_refuted"
   ],
   "note": "Finding: json!([1 2]) is accepted and yields [2, 2]: the second fork.parse::<Lit>() continues after the first literal (json.rs:82-94). Only the refutation is proved; C140 is the positive part."
  },
  {
   "property": "C142",
   "status": "partial",
   "theorems": [
    "error_text_identifies",
    "test_failure_text_refuted"
   ],
   "note": "Proved for all kinds but TestFailure, up to the kind and code of an io::Error (which Display does not show); Debug of a path is a parameter assumed injective. Finding: TestFailure texts are ambiguous (expected and actual are joined by a comma and found)."
  },
  {
   "property": "C143",
   "status": "partial",
   "theorems": [
    "source_attached_partial",
    "source_attached_refuted",
    "copy_reads_same"
   ],
   "note": "Finding: with_source_id leaves UnexpectedEof without source although it has a source field (errors/mod.rs:468-480). Proved for every other kind; the part about copies is proved for all."
  },
  {
   "property": "C144",
   "status": "partial",
   "theorems": [
    "toml_tokens_partial",
    "toml_tokens_ascii"
   ],
   "note": "Proved for every source where characters outside ASCII occur in comments only (for other texts see C145 and C147); that a cut exists is proved for every text. The spec follows the lexer in what a number is (see C146) and in opening [[ wherever two brackets meet."
  },
  {
   "property": "C145",
   "status": "partial",
   "theorems": [
    "toml_string_partial",
    "toml_string_refuted"
   ],
   "note": "Proved for ASCII. Finding: lex_string advances by one byte (lexer/mod.rs:123-137); in a=\"é\" the string ends before its closing quote, which opens another string and swallows the next line."
  },
  {
   "property": "C146",
   "status": "partial",
   "theorems": [
    "toml_number_partial",
    "toml_number_refuted"
   ],
   "note": "Proved for sign, digits and fraction. Finding: 1_000, 1e5 and 0xff are a number followed by a bare key, and a lone - is an Integer (lex_number, lexer/mod.rs:167-199)."
  },
  {
   "property": "C147",
   "status": "partial",
   "theorems": [
    "toml_lex_total_partial",
    "toml_end_refuted",
    "toml_stray_refuted"
   ],
   "note": "Termination, order, no overlap and non-emptiness are proved for every byte string. Finding: a text ending in é has its end token one byte before the end; in é=1 the equal sign appears twice, once starting inside é."
  },
  {
   "property": "C148",
   "status": "partial",
   "theorems": [
    "toml_parse_flat_partial",
    "toml_malformed_refuted",
    "toml_leading_refuted"
   ],
   "note": "The exact tree of every text is proved: the tokens from the first that is not trivia. Findings: no text is ever reported (the parser only bumps), and comments or blanks at the start are outside the root. TomlBuilder::build is todo!."
  },
  {
   "property": "C149",
   "status": "partial",
   "theorems": [
    "doc_macro_prints_partial",
    "doc_macro_structure_refuted"
   ],
   "note": "Printing is proved equal for every written document and configuration; the value of an expression with .to_document() appended is a parameter. Finding: [a, b] expands to a Concat inside a Concat (the inner parse takes all the commas, doc.rs:53-59), so the structure is not the one written."
  },
  {
   "property": "C150",
   "status": "partial",
   "theorems": [
    "doc_macro_commas_refuted"
   ],
   "note": "Finding: [\"a\" \"b\"] is accepted. Only the refutation is proved; C149 is the positive part."
  },
  {
   "property": "C151",
   "status": "partial",
   "theorems": [
    "rule_priority_partial",
    "rule_priority_refuted"
   ],
   "note": "Proved for attributes of plain names and priorities below 256. Finding: any other key with a value in front of the priority, or a number above 255, gives priority 0 without a message (format_rule.rs:11-23)."
  },
  {
   "property": "C152",
   "status": "partial",
   "theorems": [
    "derived_document_partial",
    "derived_document_refuted",
    "vec_document_prints"
   ],
   "note": "Proved for an attribute that parses and for one field. Finding: two or more fields without attribute print nothing, and an attribute that does not parse is ignored (to_doc.rs:12-22, 48-50)."
  },
  {
   "property": "C153",
   "status": "proved",
   "theorems": [
    "py_tokens",
    "py_covers"
   ],
   "note": "For every valid text and every source that serves it. What the pieces are is stated in PySpec.py_piece; where these are not Python's see C158, where the layout is not Python's see C156 and C157. The end token has kind Error since END_OF_STREAM is Error (lib language definition)."
  },
  {
   "property": "C154",
   "status": "proved",
   "theorems": [
    "py_balanced"
   ],
   "note": "For every valid text."
  },
  {
   "property": "C155",
   "status": "proved",
   "theorems": [
    "py_blocks"
   ],
   "note": "For every forest of statements of one line each, the last line being ended; any source."
  },
  {
   "property": "C156",
   "status": "partial",
   "theorems": [
    "py_ragged_refuted",
    "py_tab_refuted"
   ],
   "note": "Findings: a line that returns to a column between two blocks is not reported, and the next line in that same column is given an Indent (the stack does not record the new column); a tabulator counts eight wherever it stands, so blank+tab is column 9 where Python says 8 and a block is opened. That consistently indented programs get only the Indents of their blocks is C155."
  },
  {
   "property": "C157",
   "status": "partial",
   "theorems": [
    "py_multiline_partial",
    "py_multiline_refuted"
   ],
   "note": "Proved where no line ends within brackets. Finding: the line end within brackets sets the start of line, which stays set until the bracket is closed; x = (1,<newline>2) + 3 gets an Indent before the +."
  },
  {
   "property": "C158",
   "status": "partial",
   "theorems": [
    "py_first_partial",
    "py_literals_refuted"
   ],
   "note": "Every piece of the table is one token whatever follows. Findings: != is an Error and an Assign, rb'..' is a name and a string, 1e5 and 0xff are a number and a name, a backslash at the end of a line is an Error and the line is not joined, letters outside ASCII are Errors, ... is three dots."
  },
  {
   "property": "C159",
   "status": "proved",
   "theorems": [
    "define_rules_exact"
   ],
   "note": "An equivalence; the parser of Rust expressions is a parameter that reads from the front of the tokens."
  },
  {
   "property": "C160",
   "status": "partial",
   "theorems": [
    "define_rules_exact",
    "define_rules_twice_refuted"
   ],
   "note": "The last handler (and the last priority) counts. Finding: of two node handlers in one rule the first is dropped without an error."
  },
  {
   "property": "C161",
   "status": "partial",
   "theorems": [
    "handler_names_partial",
    "handler_names_refuted"
   ],
   "note": "Proved where no name is the hidden name of a later argument (_context, _source, _format_children). Finding: node(_context, ctx, ..) makes ctx the node, since the generated lets see one another."
  },
  {
   "property": "C162",
   "status": "proved",
   "theorems": [
    "test_config_exact"
   ],
   "note": "An equivalence; of a repeated setting the last counts, and lexer and parser are one setting."
  },
  {
   "property": "C163",
   "status": "proved",
   "theorems": [
    "chunks_exact",
    "chunks_panic"
   ],
   "note": "The slice is taken before the length is looked at, so short nodes panic too."
  },
  {
   "property": "C164",
   "status": "partial",
   "theorems": [
    "search_refuted"
   ],
   "note": "Finding: the searcher stores nothing and its search always returns the empty list; only the chunks are computed (C163)."
  },
  {
   "property": "C165",
   "status": "proved",
   "theorems": [
    "xml_tokens_exact"
   ],
   "note": "Flat sources."
  },
  {
   "property": "C166",
   "status": "proved",
   "theorems": [
    "xml_parse_exact",
    "xml_tree_kinds"
   ],
   "note": "The grammar is the one of the code (XmlSpec: tags, and tokens that are skipped); C167, C168 and C169 are about where it is not XML's."
  },
  {
   "property": "C167",
   "status": "partial",
   "theorems": [
    "xml_space_after_name",
    "xml_attributes_refuted",
    "xml_tree_kinds"
   ],
   "note": "Finding: no text in which white space follows the name of its first tag is accepted, so <a b=\"c\"/> and <a /> are errors (is_ignored in lexer/token_type.rs is false for every kind, so skip_trivia skips nothing and the loop over attributes starts on the white space); no accepted tree has an Attribute or Prolog node."
  },
  {
   "property": "C168",
   "status": "partial",
   "theorems": [
    "xml_elements_exact",
    "xml_nesting_refuted"
   ],
   "note": "Exact tree and value of every text of elements only. Findings: the name of an end tag is not compared (<a><b></a></b> is read), elements without content lose their name, all elements but the first are dropped from the value."
  },
  {
   "property": "C169",
   "status": "partial",
   "theorems": [
    "xml_value_bare",
    "xml_text_lost_refuted"
   ],
   "note": "No panic is proved for every text. Findings: the value has elements only, all texts, CDATA, references and comments are lost, and since skipped tokens are not in the tree places and names are wrong after them (a line break before <abc> makes the name '<ab')."
  },
  {
   "property": "C170",
   "status": "partial",
   "theorems": [
    "xml_round_trip_never",
    "xml_printing_refuted"
   ],
   "note": "Finding: no element without attributes is read back as itself, an element without children prints as <n/> and is read with an empty name; with attributes the text is refused; texts are written unescaped."
  },
  {
   "property": "C171",
   "status": "partial",
   "theorems": [
    "xml_values_survive_partial",
    "xml_trip_refuted"
   ],
   "note": "Proved for all values of `whole` (strings, characters at the top, options, sequences, maps, structures, with the conditions on places in XmlSerdeSpec). Findings: None in a field comes back as Some(\"\"); an empty list and a list of one structure in a field cannot be read; a unit variant in a field comes back as the variant named like the field or not at all; newtype variants of structures fail, of sequences are joined to one string."
  },
  {
   "property": "C172",
   "status": "partial",
   "theorems": [
    "xml_numbers_unread",
    "xml_numbers_refuted"
   ],
   "note": "Finding: no value with a truth value, number or unit anywhere in it is ever read, from any XML value: texts are given to visitors as strings only. They are written, so no structure with a number survives."
  },
  {
   "property": "C173",
   "status": "partial",
   "theorems": [
    "xml_attribute_key_panics",
    "xml_attribute_read",
    "xml_content_read"
   ],
   "note": "Reading attributes as marked fields is proved. Finding: writing a field with a marked name always panics, key[1..] cuts the three bytes of U+21AF."
  },
  {
   "property": "C174",
   "status": "partial",
   "theorems": [
    "xml_text_hollow",
    "xml_text_trip_never",
    "xml_text_trip_refuted"
   ],
   "note": "No panic is proved for every text. Finding: since the parser drops all texts (C169), from_str yields only values without content; no value with a non-empty string that is not markup is read from any text."
  },
  {
   "property": "C175",
   "status": "proved",
   "theorems": [
    "von_tokens_exact"
   ],
   "note": "Flat sources."
  },
  {
   "property": "C176",
   "status": "partial",
   "theorems": [
    "von_document_exact",
    "von_document_read_partial",
    "von_leading_refuted"
   ],
   "note": "Exactly the texts without diagnostics are documents with blanks before and something left over after them, with exact trees. The value is proved for texts that do not begin with blanks or comments. Finding: the tree leaves blanks at the beginning out and the builder counts from zero, so \" true\" is read as false and a line break before a=12 gives the number text \"=1\"."
  },
  {
   "property": "C177",
   "status": "partial",
   "theorems": [
    "von_tree_leaves",
    "von_tree_whole_refuted"
   ],
   "note": "For every text the leaves are consecutive tokens from the first that is not blank. Finding: blanks at the beginning and all that follows the first value are not in the tree."
  },
  {
   "property": "C178",
   "status": "partial",
   "theorems": [
    "von_build_total_partial",
    "von_leading_refuted"
   ],
   "note": "No panic for texts that do not begin with blanks or comments. Finding: #é, a line break and [\"a\"] panics, since the text of a string is taken at the wrong place."
  },
  {
   "property": "C179",
   "status": "partial",
   "theorems": [
    "von_document_exact",
    "von_leftover_refuted"
   ],
   "note": "What is left over is in the statement of von_document_exact. Finding: {} {a=1}, 1 ] , ? and \"a\" = 1 are read without diagnostics and everything after the first value is dropped."
  },
  {
   "property": "C180",
   "status": "partial",
   "theorems": [
    "von_round_trip_partial",
    "von_round_trip_refuted"
   ],
   "note": "Proved for values with plain names, strings without bare quotes and enums with collections as payload, not an enum alone. Findings: a quote in a string ends it without diagnostics, [A null] becomes two elements, inf, nan and undefined become enums, a tuple and an enum alone are errors, names are written unquoted."
  },
  {
   "property": "C181",
   "status": "partial",
   "theorems": [
    "von_string_value",
    "von_key_double",
    "von_key_single",
    "von_keys_refuted"
   ],
   "note": "For every literal: the value is the inside with its backslashes, a name in double quotes the same unless it ends with a quote, a name in single quotes keeps them. Findings: single quotes and raw stay in the name, an escaped quote at the end is cut off."
  },
  {
   "property": "C182",
   "status": "proved",
   "theorems": [
    "regex_tokens_exact"
   ],
   "note": "Flat sources."
  },
  {
   "property": "C183",
   "status": "partial",
   "theorems": [
    "regex_tokens_exact",
    "regex_tiling_refuted"
   ],
   "note": "Which bytes are in which token is in regex_tokens_exact. Findings: a comma or closing brace outside a count is in no token, since the rule moves on without one; a count that is broken off leaves its tokens and adds an error token over them."
  },
  {
   "property": "C184",
   "status": "partial",
   "theorems": [
    "regex_value_exact",
    "regex_value_refuted"
   ],
   "note": "Exactly which texts have a value, and which, is proved. Findings: only a text that begins with an ordinary character without operator has one, and the value is that character alone with no diagnostics for the rest, so ab and a are one; a class, group, dot, anchor, escape, repetition or alternative is an error."
  },
  {
   "property": "C185",
   "status": "partial",
   "theorems": [
    "regex_alternatives_exact",
    "regex_tree_refuted"
   ],
   "note": "Proved for ordinary characters with bars between them. Findings: the operand of a star, plus or question mark is in the tree twice, members of classes and escaped characters are not in it, and text after the first expression is dropped without diagnostics."
  },
  {
   "property": "C186",
   "status": "partial",
   "theorems": [
    "regex_parse_total_partial",
    "regex_parse_total_refuted"
   ],
   "note": "Proved for texts without quantifiers. Finding: each quantifier doubles the width of its operand, so 31 nested groups with stars, 94 characters, overflow the u32 width and panic in a debug build."
  },
  {
   "property": "C187",
   "status": "partial",
   "theorems": [
    "lua_tokens_partial",
    "lua_tiling_refuted",
    "lua_minus_refuted"
   ],
   "note": "Proved for texts in which no minus or square bracket stands directly before a character that is not ASCII, against the rules the lexer follows. Findings: peek looks at the current character, not the next, so every minus begins a comment and every opening bracket a long string, 0x never begins a number, and after a minus a byte inside a character can be in no token."
  },
  {
   "property": "C188",
   "status": "partial",
   "theorems": [
    "lua_tree_leaves_partial",
    "lua_tree_leaves_refuted"
   ],
   "note": "Proved for every parse that ends of a text as in C187: the leaves are the tokens with the end of the file, but blanks and comments before the first token are not in the tree (lua_tree_leaves_refuted)."
  },
  {
   "property": "C189",
   "status": "partial",
   "theorems": [
    "lua_never_clean",
    "lua_clean_refuted"
   ],
   "note": "Finding: every parse that ends has a diagnostic at the end of the text, since the end of the file is read as an expression statement."
  },
  {
   "property": "C190",
   "status": "partial",
   "theorems": [
    "lua_never_ends",
    "lua_total_refuted"
   ],
   "note": "Finding: proved that no text whose first token is a closing bracket, brace or parenthesis, end, else, elseif or until is ever parsed to the end, whatever follows."
  },
  {
   "property": "C191",
   "status": "partial",
   "theorems": [
    "lua_built_partial",
    "lua_built_refuted",
    "lua_build_panic_refuted"
   ],
   "note": "Proved with a full grammar of statements and expressions, for texts as in C187 that begin with a statement: the values are exactly those of the grammar, for all fuels from some on, and the one diagnostic is that of C189. Not in the grammar, and findings: leading blanks shift the texts of names, local functions lose their body, a method is declared with its two names exchanged, three points as an expression vanish, long strings keep a bracket on each side, an unclosed string with a last character that is not ASCII panics. Index expressions, keyed fields and minus cannot be lexed at all, see C187."
  },
  {
   "property": "C192",
   "status": "partial",
   "theorems": [
    "lua_printed_partial",
    "lua_printed_injective",
    "lua_printed_refuted"
   ],
   "note": "Proved for programs that need no parentheses, no matter how deep: printed and built they are themselves, so that different ones have different texts. Findings: parentheses are not kept and not put back, not is joined to its operand, and quotes inside strings are not escaped."
  },
  {
   "property": "C193",
   "status": "partial",
   "theorems": [
    "watcher_tells_partial",
    "watcher_silent",
    "watcher_unwatch_all_refuted",
    "watcher_rename_refuted"
   ],
   "note": "Proved for histories without unwatch_all, given the idealised notify of WatchModel. Findings: unwatch_all returns Ok without ending any watch; a renaming is told as Changed for both names, so that the old name is never Removed and the new one never Created."
  },
  {
   "property": "C194",
   "status": "partial",
   "theorems": [
    "sql_tokens",
    "sql_tiling_refuted"
   ],
   "note": "Proved for every text and every table of letters and capitals. Partial because an exclamation mark of its own has no token, so that the tokens need not cover the text."
  },
  {
   "property": "C195",
   "status": "partial",
   "theorems": [
    "sql_parse_partial",
    "sql_leaves_refuted"
   ],
   "note": "Proved: the parser ends on every text shorter than 2^32 bytes, the leaves are tokens in their order from the first that counts, and every white space or comment token from there on is there. Finding: text that is no statement, and the body of CREATE, DROP and ALTER, is lost without a diagnostic."
  },
  {
   "property": "C196",
   "status": "partial",
   "theorems": [
    "sql_program_partial",
    "sql_statements_refuted",
    "sql_names_refuted"
   ],
   "note": "The exact tree and number of diagnostics for the grammar in SqlSpec.v: lists of expressions with operators and parentheses, SELECT up to FROM, INSERT, UPDATE and DELETE up to the name, CREATE, DROP, ALTER, lost text. Missing: the clauses after FROM without a name, and FROM inside of parentheses. Findings: the node of an operation is a drop statement; a list of expressions swallows the semicolon and all further statements without a diagnostic; the kind of name the parser expects is never given by the lexer, so no table name is ever accepted."
  },
  {
   "property": "C197",
   "status": "partial",
   "theorems": [
    "circular_layout_on_a_circle",
    "circular_layout_distances",
    "circular_layout_apart",
    "circular_layout_room_refuted"
   ],
   "note": "Proved over the real numbers, for every graph with different identifiers. Partial because the radius does not depend on the nodes: with the default configuration neighbours overlap as soon as there are 41 nodes."
  },
  {
   "property": "C198",
   "status": "partial",
   "theorems": [
    "radial_layout_nodes",
    "radial_layout_distinct",
    "radial_layout_levels",
    "radial_layout_concentric_refuted",
    "radial_layout_overlap_refuted"
   ],
   "note": "Proved over the real numbers, for every tree with different identifiers. Findings: the circles are not concentric, though the comment says so, since each is drawn around the parent with a radius that grows all the same; with the default configuration a node and its child can overlap."
  },
  {
   "property": "C199",
   "status": "partial",
   "theorems": [
    "balloon_layout_nodes",
    "balloon_layout_levels",
    "balloon_layout_siblings",
    "balloon_layout_overlap_refuted"
   ],
   "note": "Proved over the real numbers, for every tree with different identifiers. Finding: with the default configuration the root and its first child overlap in every tree."
  },
  {
   "property": "C200",
   "status": "partial",
   "theorems": [
    "force_layout_bounded",
    "organic_layout_bounded"
   ],
   "note": "Proved over the real numbers for every number of iterations. Partial: nothing is said about convergence or about overlaps."
  },
  {
   "property": "C201",
   "status": "partial",
   "theorems": [
    "force_engine_centred",
    "force_engine_start",
    "force_engine_loop_refuted"
   ],
   "note": "Proved over the real numbers, for every run that has a result; the first round always has one if no edge joins a node to itself. Finding: an edge from a node to itself divides zero by zero, so the drawing has no numbers. Missing: whether a later round can put two joined nodes at one place."
  },
  {
   "property": "C202",
   "status": "partial",
   "theorems": [
    "directed_children_after_partial",
    "directed_reversed_refuted",
    "directed_apart",
    "directed_complete_partial"
   ],
   "note": "Proved for the directions from the top and from the left, in every graph. Finding: the directions BottomUp and RightLeft draw the same as TopDown and LeftRight, so that what an edge leads to is never on the side that was asked for."
  },
  {
   "property": "C203",
   "status": "partial",
   "theorems": [
    "bumping_keeps",
    "bumping_whole_partial",
    "bumping_whole_refuted"
   ],
   "note": "Exact: the root has the tokens from the first that counts. Finding: what is ignored before it is not in the tree (ParserState::new takes it before the checkpoint), so the root is shorter than the text and its offsets are shifted."
  },
  {
   "property": "C204",
   "status": "partial",
   "theorems": [
    "advancing_keeps",
    "advancing_loses",
    "advancing_whole_refuted",
    "advancing_empty"
   ],
   "note": "Finding: false in every case. The tree holds exactly the ignored tokens after the first one that counts (proved for all texts); every token that counts is lost without a diagnostic, and where the language ignores nothing the root is always empty."
  },
  {
   "property": "C205",
   "status": "partial",
   "theorems": [
    "scheme_lex",
    "scheme_lex_unique",
    "scheme_truth_words",
    "scheme_kinds_absent"
   ],
   "note": "The division is exact and unique. Findings: #t and #f are in the table of keywords but are read as a mark and a word; no text has a Dot (a point begins a word) or a Newline (line ends are white space, whose rule comes first)."
  },
  {
   "property": "C206",
   "status": "partial",
   "theorems": [
    "scheme_lex_source_partial",
    "scheme_lex_source_refuted"
   ],
   "note": "Finding: false. Words and numbers are read from state.rest(), the rest of the current chunk. After inserting the b into (lamda) in a rope, lambda is three identifiers; in a string it is a keyword. Proved for every source: the division is right but for words and numbers cut short. Twenty lexers of the examples read from state.rest()."
  },
  {
   "property": "C207",
   "status": "partial",
   "theorems": [
    "scheme_tree_trivia",
    "scheme_tree_refuted"
   ],
   "note": "Finding: false of every text with code. No diagnostic is made, and every leaf is white space or a comment."
  },
  {
   "property": "C208",
   "status": "proved",
   "theorems": [
    "workspace_folders",
    "root_is_open",
    "open_has_root"
   ],
   "note": "The map of folders as a list with one entry for each address; how an address stands for a path is a parameter."
  },
  {
   "property": "C209",
   "status": "proved",
   "theorems": [
    "drawing_shows_tree",
    "drawing_exists",
    "drawing_red_same",
    "drawing_counts",
    "default_picture"
   ],
   "note": "Kinds are shown by an arbitrary function, standing for their Debug output; coordinates are rational numbers as in the other layout properties."
  },
  {
   "property": "C210",
   "status": "proved",
   "theorems": [
    "drawing_names_apart"
   ],
   "note": "The atomic counter is a schedule of fetch_add operations by threads, wrapping at 2^64."
  },
  {
   "property": "C211",
   "status": "partial",
   "theorems": [
    "json_incremental_partial",
    "json_session_partial",
    "json_incremental_refuted"
   ],
   "note": "Proved for texts whose tokens tile them, an earlier text that does not begin with white space or a comment and was parsed without a diagnostic, and edits after which no white space and no comment stands where a replacement begins. The first two conditions cannot be dropped (json_reparse_refuted, json_reparse_leading_refuted) and the third neither: a blank inserted behind a number ends up in another node than in a parse from scratch (json_incremental_refuted). Missing: texts with stray characters."
  },
  {
   "property": "C212",
   "status": "partial",
   "theorems": [
    "html_is_plain_partial",
    "html_is_plain_refuted"
   ],
   "note": "Proved for codes without quotes, ampersands and angle brackets. The condition cannot be dropped: codes are written without escaping, so a code that holds an element is read as part of the report and can show another message (html_is_plain_refuted). Rendering with a localizer is not modelled."
  },
  {
   "property": "C213",
   "status": "proved",
   "theorems": [
    "report_headline",
    "headline_tells"
   ],
   "note": "For tags and messages of one line (a tag or message with a line feed is not one line)."
  },
  {
   "property": "C214",
   "status": "proved",
   "theorems": [
    "llvm_lex",
    "llvm_lex_division",
    "llvm_lex_unique",
    "llvm_lex_wide_refuted"
   ],
   "note": "The sources are any that serve the text; the refutation is a finding: a word beginning with a letter of two bytes is cut inside the letter and the second byte is in no token."
  },
  {
   "property": "C215",
   "status": "proved",
   "theorems": [
    "llvm_tree_leaves",
    "llvm_tree_leaves_refuted",
    "llvm_declare_refuted"
   ],
   "note": "The refutations are findings: top-level words such as attributes, target or declare are dropped from the tree without a diagnostic, and a declared function makes the parse fail."
  },
  {
   "property": "C216",
   "status": "proved",
   "theorems": [
    "llvm_globals_round_trip",
    "llvm_comment_value_refuted",
    "llvm_string_blanks_refuted",
    "llvm_equals_comment_refuted",
    "llvm_function_print_refuted"
   ],
   "note": "The round trip is for global variables of the stated form. The refutations are findings about texts outside of it, among them that no function with an operand type and operands is printed as it was read."
  },
  {
   "property": "C217",
   "status": "proved",
   "theorems": [
    "llvm_module_round_trip",
    "llvm_print_injective",
    "llvm_unlabelled_block_refuted",
    "llvm_operand_equals_refuted",
    "llvm_operand_blank_refuted",
    "llvm_operand_brace_refuted",
    "llvm_unnamed_global_refuted"
   ],
   "note": "The round trip is for modules of the stated form, with functions. The refutations are findings about modules outside of it."
  }
 ]
}