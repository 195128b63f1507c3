{"id": "C01", "title": "Edit batches are applied simultaneously", "statement": "Applying a batch of pairwise non-overlapping, in-range edits to a source text yields exactly the text in which every edited span of the ORIGINAL text is replaced by its replacement and everything else is kept, whatever the order in which the edits are listed.", "quantifier": "every text, every list of pairwise disjoint in-range edits, every listing order", "why_tests_cant": "the number and interleaving of edits is unbounded; a test fixes one batch, while the danger is an offset shifting interaction between edits of different growth", "anchors": ["projects/oak-core/src/source/text.rs: SourceText::apply_edits_range, SourceText::apply_edits", "projects/oak-core/src/source/mod.rs: TextEdit"]}
{"id": "C02", "title": "The reported reparse range covers every change", "statement": "The range returned by applying an edit batch is sound: new text before its start is byte-identical to the old text, and new text after its end is byte-identical to the tail of the old text of the same length.", "quantifier": "every text and every non-overlapping in-range edit batch", "why_tests_cant": "the range is computed from accumulated deltas (which may be negative); only a proof covers all combinations of growing and shrinking edits", "anchors": ["projects/oak-core/src/source/text.rs: SourceText::apply_edits_range", "projects/oak-core/src/source/rope.rs: RopeBuffer::apply_edits_range"]}
{"id": "C03", "title": "Same-position edits keep their listed order", "statement": "When several edits of a batch start at the same offset, the result is the one an editor client expects: the inserted texts appear in list order and an insertion at the start of a replaced span survives next to the replacement.", "quantifier": "every text and every batch of edits touching at their starts", "why_tests_cant": "depends on the combination of a stable sort and reverse application; the failing order is easily missed by hand picked tests", "anchors": ["projects/oak-core/src/source/text.rs: SourceText::apply_edits_range"]}
{"id": "C04", "title": "The rope behaves exactly like a flat string under editing", "statement": "After any history of edit batches whose endpoints are in range and on character boundaries, a rope buffer holds exactly the text, and has returned exactly the reparse ranges, that a flat source text would, regardless of how it is chunked internally.", "quantifier": "every initial text, every finite sequence of edit batches, every chunk size at least as large as the largest character", "why_tests_cant": "rope bugs depend on the alignment of edits with internal chunk boundaries which changes with the whole history", "anchors": ["projects/oak-core/src/source/rope.rs: RopeBuffer::apply_edits_range, replace_range, split_at, boundary_index, chunkify, rebuild_starts"]}
{"id": "C05", "title": "Every chunked source serves the text of the flat source", "statement": "For any chunking of a text, asking for the chunk at an in-range offset returns a chunk that contains the offset and whose bytes are the bytes of the text at those offsets, and asking for the text of a range returns exactly the bytes of that range.", "quantifier": "every chunked text, every offset, every range with boundaries on characters", "why_tests_cant": "quantifies over all chunkings and all offsets, including offsets on chunk borders", "anchors": ["projects/oak-core/src/source/rope.rs: chunk_index, text_in_chunks, Source for RopeSource", "projects/oak-core/src/source/streaming.rs: ChunkedSource, text_in_chunks", "projects/oak-core/src/source/text.rs: chunk_at, get_text_in"]}
{"id": "C06", "title": "The different source implementations agree with each other", "statement": "A flat source, a rope source and a streaming source over the same text answer every range query identically, so that switching the source type never changes what a lexer sees.", "quantifier": "every text, every chunking, every queried range (including out of range and off-boundary ones)", "why_tests_cant": "disagreement only shows on unusual ranges or chunkings", "anchors": ["projects/oak-core/src/source/text.rs: get_text_in", "projects/oak-core/src/source/rope.rs: get_text_in", "projects/oak-core/src/source/mod.rs: impl Source for str"]}
{"id": "C07", "title": "Streaming append is concatenation and snapshots never change", "statement": "The text of a streaming buffer after any sequence of appends is the concatenation of the appended strings; a snapshot taken at any moment keeps denoting the text at that moment whatever is appended later.", "quantifier": "every sequence of appends and snapshots", "why_tests_cant": "requires all histories of appends, including empty and over-long pieces", "anchors": ["projects/oak-core/src/source/streaming.rs: ChunkedBuffer::push_str, snapshot"]}
{"id": "C08", "title": "Scanning primitives see through chunk boundaries", "statement": "Peeking a character, taking characters while a predicate holds, and skipping ASCII whitespace / digits / identifier characters at an offset give the same characters and stop at the same offset as on the unchunked text: the maximal run of matching characters starting there.", "quantifier": "every text, every chunking on character boundaries, every start offset, every predicate", "why_tests_cant": "runs can span any number of chunks; tests cover one or two chunk layouts", "anchors": ["projects/oak-core/src/source/cursor.rs: peek_char, take_while, take_while_byte, skip_ascii_whitespace, skip_ascii_digits, skip_ascii_ident_continue"]}
{"id": "C09", "title": "Prefix tests see through chunk boundaries", "statement": "Testing whether the remaining input starts with a pattern answers true exactly when the flat remaining text starts with it, and consuming it advances by exactly the pattern's length or not at all.", "quantifier": "every text, chunking, offset and pattern", "why_tests_cant": "patterns may straddle arbitrarily many chunks", "anchors": ["projects/oak-core/src/source/cursor.rs: starts_with, consume_if_starts_with"]}
{"id": "C10", "title": "Substring search is sound and complete", "statement": "Searching for a pattern from an offset returns the first position at or after the offset where the pattern occurs in the text, and nothing only if it does not occur.", "quantifier": "every text, chunking, offset and pattern", "why_tests_cant": "the search glues only neighbouring chunks; counterexamples need specific chunkings", "anchors": ["projects/oak-core/src/source/cursor.rs: SourceCursor::find_str", "projects/oak-core/src/source/mod.rs: Source::find_str_from"]}
{"id": "C11", "title": "Vectorised scanners equal their scalar meaning", "statement": "Each block-wise byte scanner (find a byte, skip a byte, skip either of two bytes, skip ASCII whitespace / digits / identifier characters / hex digits, find the first of four bytes) returns the index the byte-by-byte definition gives.", "quantifier": "every byte slice of every length", "why_tests_cant": "correctness depends on the length modulo the lane width and on the first set lane; exhaustive testing is impossible", "anchors": ["projects/oak-core/src/source/simd.rs: find_byte, skip_byte, skip_two_bytes, skip_ascii_whitespace, skip_ascii_digits, skip_ascii_ident_continue, skip_ascii_hexdigits, find_first_of_4"]}
{"id": "C12", "title": "Emitting tokens into a source buffer never fuses or splits words", "statement": "Text emitted by pushing pieces is the concatenation of the pieces with a single space inserted exactly between two pieces whose adjacent characters are both word characters; hence two adjacent words never fuse and no other byte is added or lost.", "quantifier": "every sequence of pushed pieces, including empty ones", "why_tests_cant": "depends on the last character across arbitrarily many (possibly empty) pushes", "anchors": ["projects/oak-core/src/source/buffer.rs: SourceBuffer::push, finish"]}
{"id": "C13", "title": "Character search finds the first occurrence", "statement": "Looking for a character from an offset returns the smallest offset at or after it where that character occurs, and nothing if there is none, whatever the chunking.", "quantifier": "every text, chunking, offset on a character boundary and character", "why_tests_cant": "runs over any number of chunks", "anchors": ["projects/oak-core/src/source/mod.rs: Source::find_char_from"]}
{"id": "C14", "title": "String scanning stops at the first unescaped quote", "statement": "Scanning a string literal consumes up to and including the first closing quote that is not escaped, emits exactly one token spanning what was consumed, and consumes nothing and emits nothing if the input does not start with a quote.", "quantifier": "every input text, every quote set and escape character", "why_tests_cant": "escape parity runs are unbounded", "anchors": ["projects/oak-core/src/lexer/scan_string.rs: StringConfig::scan"]}
{"id": "C15", "title": "Comment scanning honours nesting", "statement": "A block comment token ends at the matching terminator: the first terminator when nesting is off, the balanced terminator when nesting is on, or the end of input when unterminated; a line comment ends before the first line break.", "quantifier": "every input text, every marker configuration with non-empty markers", "why_tests_cant": "nesting depth is unbounded", "anchors": ["projects/oak-core/src/lexer/scan_comment.rs: CommentConfig::scan", "projects/oak-core/src/lexer/mod.rs: scan_line_comment, scan_block_comment"]}
{"id": "C16", "title": "Lexer loops guarded by the dead-lock check always make progress", "statement": "A lexing loop that calls the dead-lock guard after each round, with rules that never move back before the start of their round, strictly advances in every round and therefore terminates on every input, ending exactly at the end of the input.", "quantifier": "every input and every lexing round function that never moves backwards", "why_tests_cant": "termination is a statement about all inputs", "anchors": ["projects/oak-core/src/lexer/mod.rs: LexerState::advance_if_dead_lock, not_at_end"]}
{"id": "C17", "title": "Token reuse after an edit is sound", "statement": "When lexing resumes from a cached token list after an edit, every reused token lies entirely before the first changed byte, reused tokens are an initial segment of the old tokens, and lexing resumes exactly where the last reused token ends, so no text is skipped or lexed twice.", "quantifier": "every cached token list, every edit offset, every new text", "why_tests_cant": "the off-by-one and truncation cases depend on the relation of the edit to all token ends", "anchors": ["projects/oak-core/src/lexer/mod.rs: LexerState::new_with_cache"]}
{"id": "C18", "title": "Node length equals the text it covers", "statement": "The length of any syntax tree node is the sum of the lengths of the leaves below it, and concatenating leaf spans in order reproduces the node's span without gaps or overlaps.", "quantifier": "every tree built through the public constructors whose total length fits the length field", "why_tests_cant": "trees are of unbounded size and depth", "anchors": ["projects/oak-core/src/tree/green_tree.rs: GreenNode::new, GreenTree::len", "projects/oak-core/src/tree/red_tree.rs: RedNode::span, RedTree::span"]}
{"id": "C19", "title": "Children of a positioned node tile it", "statement": "Iterating the children of a positioned node yields consecutive spans that start at the node's start and end at its end, and accessing the i-th child directly gives the same element at the same offset as the i-th step of the iteration.", "quantifier": "every node, every offset, every child index", "why_tests_cant": "unbounded arity", "anchors": ["projects/oak-core/src/tree/red_tree.rs: RedNode::children, child_at, RedChildren"]}
{"id": "C20", "title": "Looking up an offset finds the unique leaf covering it", "statement": "For every offset inside a node's span the leaf lookup returns a leaf whose span contains the offset, and that leaf is the only one whose span contains it; outside the span it returns nothing.", "quantifier": "every tree (with zero-length leaves too), every offset", "why_tests_cant": "needs all tree shapes including empty nodes and zero-width tokens", "anchors": ["projects/oak-core/src/tree/red_tree.rs: leaf_at_offset, child_index_at_offset, child_at_offset"]}
{"id": "C21", "title": "Tree cursors visit each element exactly once in document order", "statement": "Repeatedly stepping a tree cursor from the root visits every element of the tree exactly once, in pre-order, with the correct absolute offset, and then reports the end.", "quantifier": "every tree", "why_tests_cant": "an inductive statement over all trees", "anchors": ["projects/oak-core/src/tree/cursor.rs: Cursor::step_into, step_over, step_out, step, step_next"]}
{"id": "C22", "title": "The pre-order iterator and the visitor agree with recursive traversal", "statement": "The pre-order iterator yields, and the visitor walk visits, exactly the elements of the tree in document order, each with the absolute offset it has in the source.", "quantifier": "every tree and starting offset", "why_tests_cant": "the iterator computes offsets backwards from the end of the parent; only an induction covers all shapes", "anchors": ["projects/oak-core/src/visitor/mod.rs: PreOrder, Visitor::walk_node"]}
{"id": "C23", "title": "Parsing is lossless", "statement": "For any parser written with bump / eat / expect / checkpoints / nodes, the leaves of the tree built so far followed by the tokens not yet consumed are exactly the token stream, in order; so the finished tree reproduces the consumed source text.", "quantifier": "every token stream and every sequence of parser operations", "why_tests_cant": "ranges over all parsers and all inputs", "anchors": ["projects/oak-core/src/parser/state.rs: bump, eat, expect, skip_trivia, checkpoint, finish_at, push_child, TreeSink"]}
{"id": "C24", "title": "Skipping tokens for error recovery loses no text", "statement": "Advancing over tokens during error recovery (advance, advance until a kind) keeps the tree lossless: every skipped token still ends up in the tree.", "quantifier": "every token stream and recovery set", "why_tests_cant": "loss shows only when recovery actually skips something", "anchors": ["projects/oak-core/src/parser/state.rs: ParserState::advance, advance_until, advance_until_any"]}
{"id": "C25", "title": "A failed speculative parse leaves no trace", "statement": "If a speculative parse fails, the parser is in the same state as before the attempt: same position, same pending tree, same reported diagnostics.", "quantifier": "every parser state and every speculative action", "why_tests_cant": "must hold for arbitrary actions, including nested attempts", "anchors": ["projects/oak-core/src/parser/state.rs: try_parse, try_parse_with_error, checkpoint, restore"]}
{"id": "C26", "title": "Reused subtrees denote unchanged text", "statement": "When an incremental parse reuses a node of the previous tree at some position, the old text under the node is byte-identical to the new text at that position.", "quantifier": "every old text, every sorted batch of non-overlapping edits, every node and position", "why_tests_cant": "combines offset mapping over arbitrarily many edits with tree positions", "anchors": ["projects/oak-core/src/parser/state.rs: IncrementalContext::new, map_new_to_old, is_dirty, ParserState::try_reuse"]}
{"id": "C27", "title": "Reuse leaves the token cursor exactly after the reused text", "statement": "After a successful reuse the parser's next token starts exactly at the end of the reused node, no token is skipped or split, and, as everywhere else in the parser, the next token is not trivia.", "quantifier": "every token stream, old tree and edit batch", "why_tests_cant": "token boundaries after an edit can fall anywhere", "anchors": ["projects/oak-core/src/parser/state.rs: ParserState::try_reuse, incremental_node"]}
{"id": "C28", "title": "A from-scratch parse does not depend on earlier parses", "statement": "The entry point documented as parsing from scratch without incremental reuse gives the same tree whatever was parsed before with the same session.", "quantifier": "every pair of texts parsed one after the other in one session", "why_tests_cant": "history dependence is invisible to tests that use a fresh session", "anchors": ["projects/oak-core/src/parser/mod.rs: parse_one_pass, parse_with_lexer", "projects/oak-core/src/parser/session.rs: ParseSession"]}
{"id": "C29", "title": "The previous tree handed out by a session is always alive", "statement": "Whatever the sequence of successful and failed parses, the previous tree a session hands out for reuse lives in memory the session still owns.", "quantifier": "every history of prepare / commit / failure events", "why_tests_cant": "a use-after-free needs a specific three-step history", "anchors": ["projects/oak-core/src/parser/session.rs: prepare_generation, commit_generation, old_tree, last_root"]}
{"id": "C30", "title": "Operator precedence parsing respects precedence and associativity", "statement": "For any table of binary operators the expression parser returns a tree whose in-order reading is the input, in which no operator has an operand that binds less tightly, and in which equal-precedence chains group left or right as declared; such a tree is unique.", "quantifier": "every expression length and every operator table", "why_tests_cant": "expressions and tables are unbounded", "anchors": ["projects/oak-core/src/parser/pratt.rs: PrattParser::parse, binary, unary, postfix, OperatorInfo"]}
{"id": "C31", "title": "Non-associative operators cannot be chained", "statement": "An operator declared non-associative is never chained with itself without parentheses: parsing a chain stops or fails at the second operator.", "quantifier": "every operator table containing non-associative operators, every chain", "why_tests_cant": "the declared enumeration value is only meaningful if it changes behaviour for all inputs", "anchors": ["projects/oak-core/src/parser/pratt.rs: Associativity::None, binary"]}
{"id": "C32", "title": "Deep copying a tree preserves it", "statement": "Copying a tree into another arena yields a tree with the same kinds, lengths and shape, and every leaf keeps the provenance it had.", "quantifier": "every tree and every pair of arenas", "why_tests_cant": "unbounded shapes; provenance needs two arenas with different tables", "anchors": ["projects/oak-core/src/parser/state.rs: deep_clone_node", "projects/oak-core/src/memory/arena.rs: add_metadata, get_metadata"]}
{"id": "C33", "title": "Arena allocations never overlap", "statement": "All objects allocated from an arena are aligned, lie inside memory the arena owns, and are pairwise disjoint, for every sequence of allocation sizes.", "quantifier": "every sequence of allocation requests (sizes, alignments up to 8)", "why_tests_cant": "memory safety over all request sequences, including over-sized ones", "anchors": ["projects/oak-core/src/memory/arena.rs: alloc_raw, alloc_slow, alloc_chunk, alloc, alloc_slice_copy, alloc_slice_fill_iter"]}
{"id": "C34", "title": "A recycled chunk is never shared", "statement": "With any number of arenas created and dropped on a thread, a memory chunk is never at the same time in use by two arenas, nor both in use and in the recycling pool, and the pool never exceeds its limit.", "quantifier": "every interleaving of creating, allocating from and dropping arenas", "why_tests_cant": "aliasing appears only for specific create/drop interleavings", "anchors": ["projects/oak-core/src/memory/arena.rs: alloc_chunk, Drop for SyntaxArena, recycle_chunk"]}
{"id": "C35", "title": "Dropping an arena releases all its memory", "statement": "Every chunk an arena obtained is, after the arena is dropped, either back in the recycling pool or returned to the system allocator.", "quantifier": "every interleaving of creating, allocating from and dropping arenas", "why_tests_cant": "a leak needs the pool to be full, which tests never reach", "anchors": ["projects/oak-core/src/memory/arena.rs: Drop for SyntaxArena, recycle_chunk"]}
{"id": "C36", "title": "Metadata handles read back what was stored", "statement": "The handle returned when storing metadata reads back exactly that metadata for the life of the arena, and distinct stores get distinct handles.", "quantifier": "every sequence of metadata stores", "why_tests_cant": "all histories", "anchors": ["projects/oak-core/src/memory/arena.rs: add_metadata, get_metadata"]}
{"id": "C37", "title": "Offset to line/column conversion round-trips", "statement": "For every character-boundary offset of a text, converting it to a (line, UTF-16 column) position and back yields the same offset.", "quantifier": "every text and every character-boundary offset", "why_tests_cant": "all texts with any mix of line breaks and astral characters", "anchors": ["projects/oak-vfs/src/line_map.rs: LineMap::from_source, offset_to_line_col_utf16, line_col_utf16_to_offset"]}
{"id": "C38", "title": "Lines partition the text", "statement": "Line starts are exactly offset zero and the offsets after each line feed, strictly increasing, for every chunking of the source; consecutive lines tile the text, and the line found for an offset is the one whose range contains it.", "quantifier": "every text and chunking", "why_tests_cant": "unbounded texts; binary search correctness", "anchors": ["projects/oak-vfs/src/line_map.rs: from_source, line_start, line_end, line_count"]}
{"id": "C39", "title": "Positions past the end of a line clamp to that line", "statement": "A column beyond the end of a line denotes the end of that line (before its line break), as the language server protocol prescribes.", "quantifier": "every text, line and column", "why_tests_cant": "only visible for over-long columns on lines with terminators", "anchors": ["projects/oak-vfs/src/line_map.rs: line_col_utf16_to_offset, line_end"]}
{"id": "C40", "title": "The in-memory file system is a map with stable identities", "statement": "After any history of writes and removals, reading a path returns the last content written since its last removal, path and numeric identity determine each other, an identity is never given to two different live paths, and rewriting a file keeps its identity.", "quantifier": "every sequence of operations, in any linearised interleaving of threads (fewer than 2^32 creations)", "why_tests_cant": "all histories", "anchors": ["projects/oak-vfs/src/vfs/memory.rs: MemoryVfs::write_file, remove_file, get_source, get_uri, get_id, exists, metadata"]}
{"id": "C41", "title": "Listing a workspace finds every file", "statement": "Recursively listing files from a root reports every file below it exactly once, for each virtual file system implementation.", "quantifier": "every file system content and root", "why_tests_cant": "depends on the directory shape and on what each implementation reports as a directory", "anchors": ["projects/oak-lsp/src/service.rs: list_all_files", "projects/oak-vfs/src/vfs/memory.rs: read_dir, metadata"]}
{"id": "C42", "title": "Pretty printing preserves content", "statement": "Rendering a document outputs the texts of the document in order; everything else in the output is spaces, tabs, indentation text and line endings.", "quantifier": "every document and configuration", "why_tests_cant": "documents are recursive and unbounded", "anchors": ["projects/oak-pretty-print/src/document/printer.rs: Printer::render, newline, finalize"]}
{"id": "C43", "title": "A group that fits is printed on one line", "statement": "If a group fits in the remaining width it is printed without line breaks (including all nested groups) and the column after it does not exceed the maximum width; if it does not fit or contains a hard break, its direct line positions break.", "quantifier": "every document, configuration and starting column", "why_tests_cant": "interaction of width prediction with nested groups", "anchors": ["projects/oak-pretty-print/src/document/printer.rs: will_break, check_width, render"]}
{"id": "C44", "title": "Hard breaks propagate to all enclosing groups", "statement": "A hard line break inside a group forces every enclosing group to break.", "quantifier": "every nesting of groups", "why_tests_cant": "unbounded nesting", "anchors": ["projects/oak-pretty-print/src/document/mod.rs: Document::HardLine", "projects/oak-pretty-print/src/document/printer.rs: check_width"]}
{"id": "C45", "title": "Trimming leaves no trailing blanks", "statement": "With trailing-whitespace trimming enabled no line of the output ends in a space or tab.", "quantifier": "every document and configuration with trimming on", "why_tests_cant": "needs all combinations of texts and line breaks", "anchors": ["projects/oak-pretty-print/src/document/printer.rs: newline, finalize"]}
{"id": "C46", "title": "Output ends with exactly the configured line ending", "statement": "With final-newline insertion enabled, every non-empty output ends with a line feed, and no newline is added to output that already ends with one.", "quantifier": "every document and configuration", "why_tests_cant": "all documents", "anchors": ["projects/oak-pretty-print/src/document/printer.rs: finalize", "projects/oak-pretty-print/src/config/mod.rs: line_ending_string"]}
{"id": "C47", "title": "Formatting rules fire in priority order", "statement": "For a node, the document used is the one of the applicable rule with the highest priority that produces one, ties broken by registration order, whatever the order in which rules were registered.", "quantifier": "every set of rules, registration order and node", "why_tests_cant": "all permutations of rules", "anchors": ["projects/oak-pretty-print/src/rules/mod.rs: RuleSet::add_rule, apply_node_rules, apply_token_rules"]}
{"id": "C48", "title": "Workspace symbol lookup reflects the current files", "statement": "After any history of file symbol updates, looking up a qualified name finds a symbol if and only if some file currently defines that name, and finds a current definition.", "quantifier": "every history of updates over any number of files", "why_tests_cant": "stale or lost entries need two files sharing a name and a specific update order", "anchors": ["projects/oak-resolver/src/lib.rs: GlobalSymbolTable::update_file_symbols, lookup, query, query_file"]}
{"id": "C49", "title": "Document symbols list every definition once, in order, with its container", "statement": "The symbols of a document are exactly its definition nodes in document order, each with the node's span, its first direct name token as name, and the name of the nearest enclosing definition as container.", "quantifier": "every tree", "why_tests_cant": "unbounded nesting", "anchors": ["projects/oak-symbols/src/lib.rs: UniversalSymbolProvider::collect_symbols, document_symbols"]}
{"id": "C50", "title": "Reference search finds exactly the matching names", "statement": "Finding references to a name returns exactly the spans of the name tokens whose text equals it, in document order, without duplicates.", "quantifier": "every tree and name", "why_tests_cant": "all trees", "anchors": ["projects/oak-navigation/src/lib.rs: SimpleReferenceFinder::find"]}
{"id": "C51", "title": "A file belongs to its innermost workspace folder", "statement": "The workspace folder reported for a file is one that contains it and no other folder containing it is nested more deeply; none is reported only if no folder contains it, whatever the internal iteration order.", "quantifier": "every set of folders, every path, every iteration order of the folder table", "why_tests_cant": "iteration order of the concurrent map is nondeterministic", "anchors": ["projects/oak-lsp/src/workspace.rs: WorkspaceManager::find_root, is_within_workspace"]}
{"id": "C52", "title": "Highlighting covers the tree text exactly", "statement": "The segments produced for a syntax tree are consecutive and non-overlapping, tile the span of the tree, and their texts concatenate to the source text of that span.", "quantifier": "every tree over every source", "why_tests_cant": "all trees", "anchors": ["projects/oak-highlight/src/highlighter/mod.rs: HighlightVisitor, highlight_with_language"]}
{"id": "C53", "title": "Styles resolve to the most specific scope", "statement": "The style resolved for a scope is that of its longest dotted ancestor present in the theme; for several scopes it is one of greatest depth, the earliest on ties; otherwise the default style.", "quantifier": "every theme and list of scopes", "why_tests_cant": "all dotted names and themes", "anchors": ["projects/oak-highlight/src/highlighter/mod.rs: HighlightTheme::resolve_style, resolve_styles"]}
{"id": "C54", "title": "HTML export neutralises markup", "statement": "HTML escaping produces text without raw markup characters and is invertible: unescaping gives back the original; both escape implementations agree.", "quantifier": "every string", "why_tests_cant": "sequential replacements may re-escape earlier output; must hold for all strings", "anchors": ["projects/oak-highlight/src/exporters/mod.rs: html_escape", "projects/oak-diagnostic/src/lib.rs: html_escape"]}
{"id": "C55", "title": "JSON export round-trips every string", "statement": "The string escaping of the JSON exporter yields a valid JSON string body that decodes to the original string.", "quantifier": "every string of Unicode scalar values", "why_tests_cant": "all strings, including control characters", "anchors": ["projects/oak-highlight/src/exporters/mod.rs: json_escape, JsonExporter::export"]}
{"id": "C56", "title": "Stripping colour codes recovers the text", "statement": "Removing the escape sequences from the ANSI export of a highlighted text without escape characters gives back the concatenated segment texts.", "quantifier": "every list of segments and styles", "why_tests_cant": "all segment lists", "anchors": ["projects/oak-highlight/src/exporters/mod.rs: AnsiExporter"]}
{"id": "C57", "title": "Diagnostics always point inside the source", "statement": "The label span of a diagnostic made from an error lies within the source, is never reversed, and covers the reported offset whenever that offset is inside the source.", "quantifier": "every error kind, offset and source", "why_tests_cant": "all offsets, including past the end", "anchors": ["projects/oak-diagnostic/src/lib.rs: DiagnosticProvider for OakError"]}
{"id": "C58", "title": "The interactive line editor never panics and edits the text it shows", "statement": "For any sequence of key presses the line buffer does not panic and its content is what inserting and deleting characters at the displayed cursor gives.", "quantifier": "every sequence of key events over all characters", "why_tests_cant": "needs non-ASCII input at particular cursor positions", "anchors": ["projects/oak-repl/src/lib.rs: LineBuffer::insert, backspace, OakRepl::run"]}
{"id": "C59", "title": "Every request gets exactly one matching response", "statement": "Serving any input stream, the tool server answers each well-formed request line with exactly one response carrying the same identifier, in request order, with exactly one of result and error, and answers nothing to notifications.", "quantifier": "every finite stream of input lines", "why_tests_cant": "all streams", "anchors": ["projects/oak-mcp/src/lib.rs: McpServer::run, handle_request"]}
{"id": "C60", "title": "Reported cycles are cycles and cyclic graphs are detected", "statement": "Each reported node list is a genuine cycle of the graph, and every directed graph containing a cycle gets at least one report; an acyclic graph gets none.", "quantifier": "every finite graph and iteration order", "why_tests_cant": "graph search correctness over all graphs", "anchors": ["projects/oak-visualize/src/graph/mod.rs: Graph::find_cycles, dfs_cycles, get_neighbors"]}
{"id": "C61", "title": "Layering is a partition that respects edges", "statement": "Layered layout assigns every node to exactly one layer, terminates on every graph, and in an acyclic graph every edge goes from an earlier to a later layer.", "quantifier": "every finite graph whose edges join existing nodes", "why_tests_cant": "all graphs, including cyclic ones", "anchors": ["projects/oak-visualize/src/graph/mod.rs: topological_layers"]}
{"id": "C62", "title": "Connectivity does not depend on hash order", "statement": "The connectivity answer of a graph is the same for every iteration order of its node table and is true exactly when all nodes are mutually connected.", "quantifier": "every graph and every iteration order", "why_tests_cant": "iteration order is randomised; a test sees one order", "anchors": ["projects/oak-visualize/src/graph/mod.rs: Graph::is_connected"]}
{"id": "C63", "title": "Compact tree layout never overlaps siblings", "statement": "In the compact layout the horizontal extents of sibling subtrees are disjoint and parents are centred over their children.", "quantifier": "every tree and every node size", "why_tests_cant": "all shapes and sizes", "anchors": ["projects/oak-visualize/src/tree/mod.rs: position_compact_node"]}
{"id": "C64", "title": "Transforms compose", "statement": "Applying a composed transform to a point equals applying the first and then the second; composition is associative with the identity transform as unit.", "quantifier": "all transforms and points (over exact numbers)", "why_tests_cant": "algebraic identity over an infinite domain", "anchors": ["projects/oak-visualize/src/geometry/mod.rs: Transform::compose, transform_point, Rect::union"]}
{"id": "C65", "title": "The JSON lexer tiles its input", "statement": "For every input the tokens of the JSON lexer are in order, non-overlapping and together cover every byte of the input.", "quantifier": "every input text and every language configuration", "why_tests_cant": "gaps appear only for unusual characters", "anchors": ["examples/oak-json/src/lexer/mod.rs: JsonLexer::run"]}
{"id": "C66", "title": "The JSON parse tree covers the whole input", "statement": "The root node returned by the JSON parser spans the whole input, valid or not.", "quantifier": "every input text", "why_tests_cant": "error recovery paths are input dependent", "anchors": ["examples/oak-json/src/parser/mod.rs: JsonParser::parse"]}
{"id": "C67", "title": "No diagnostics means valid JSON", "statement": "If the JSON parser reports no diagnostics, the input is a JSON document according to the grammar; if the input is valid JSON no diagnostics are reported.", "quantifier": "every input text in strict configuration", "why_tests_cant": "all texts", "anchors": ["examples/oak-json/src/parser/mod.rs: parse_value, parse_object, parse_array", "examples/oak-json/src/lexer/mod.rs: lex_number"]}
{"id": "C68", "title": "Edits off character boundaries never damage other text", "statement": "An edit whose span does not lie on character boundaries is refused by every source type; it never changes bytes outside its span.", "quantifier": "every text, chunking and edit span", "why_tests_cant": "the damage depends on where the span falls relative to internal chunks", "anchors": ["projects/oak-core/src/source/rope.rs: RopeBuffer::replace_range, split_at, boundary_index", "projects/oak-core/src/source/text.rs: apply_edits_range"]}
{"id": "C69", "title": "Searching does not move the cursor", "statement": "Looking for a pattern from the current position reports where it occurs and leaves the reading position where it was.", "quantifier": "every text, chunking, position and pattern", "why_tests_cant": "the position only moves when the text is split into several chunks", "anchors": ["projects/oak-core/src/source/cursor.rs: SourceCursor::find_str"]}
{"id": "C70", "title": "Scanning and searching always terminate", "statement": "Scanning or searching from any in-range byte offset terminates.", "quantifier": "every text, every offset, including offsets inside a multi-byte character", "why_tests_cant": "non-termination cannot be observed by a finite test and depends on multi-byte offsets", "anchors": ["projects/oak-core/src/source/cursor.rs: skip_ascii_whitespace, take_while, find_str", "projects/oak-core/src/source/mod.rs: find_char_from", "projects/oak-core/src/source/text.rs: SourceText::chunk_at"]}
{"id": "C71", "title": "Whitespace and identifier scanners take the longest run", "statement": "The whitespace scanner consumes exactly the longest run of whitespace (ASCII or Unicode according to its configuration) and the identifier scanner the longest run of identifier characters that starts with a letter or underscore; each emits exactly one token for what it consumed, or consumes and emits nothing.", "quantifier": "every text, chunking and starting position", "why_tests_cant": "depends on chunk boundaries and on all characters", "anchors": ["projects/oak-core/src/lexer/scan_white_space.rs: WhitespaceConfig::scan", "projects/oak-core/src/lexer/scan_identifier.rs: IdentifierConfig::scan", "projects/oak-core/src/lexer/mod.rs: LexerState"]}
{"id": "C72", "title": "Lexers assembled from the library scanners terminate with ordered tokens", "statement": "A lexing loop that tries any list of library scanners in turn and calls the dead-lock guard reaches the end of every input, and its tokens are in order, disjoint and inside the input.", "quantifier": "every list of scanners, every text and chunking", "why_tests_cant": "the composition depends on every scanner and on the guard for arbitrary inputs", "anchors": ["projects/oak-core/src/lexer/mod.rs: LexerState::advance_if_dead_lock, add_token", "projects/oak-core/src/lexer/scan_string.rs", "projects/oak-core/src/lexer/scan_comment.rs"]}
{"id": "C73", "title": "Resumed lexing equals lexing from scratch", "statement": "For a lexer whose tokens depend on no text beyond the following token, reusing cached tokens after an edit and lexing the rest yields exactly the tokens obtained by lexing the new text from scratch.", "quantifier": "every old and new text agreeing before the edit, every cached token list", "why_tests_cant": "the margin of one token matters only when an edit extends the token before it", "anchors": ["projects/oak-core/src/lexer/mod.rs: LexerState::new_with_cache"]}
{"id": "C74", "title": "The finished root covers the source from its first byte", "statement": "A parser that takes a checkpoint when it starts and finishes the root at the end, as the language parsers do, gets a root whose text is the whole source.", "quantifier": "every token list, including ones starting with white space or comments, and every parser built from the operations", "why_tests_cant": "depends on where trivia falls and on every sequence of parser operations", "anchors": ["projects/oak-core/src/parser/state.rs: ParserState::new, checkpoint, finish_at, skip_trivia"]}
{"id": "C75", "title": "Incremental parsing equals parsing from scratch", "statement": "Parsing with an old tree and edits yields the same tree as parsing the new text without them.", "quantifier": "every old text, edit list and grammar", "why_tests_cant": "the set of edits and trees is infinite and reuse depends on their interplay", "anchors": ["projects/oak-core/src/parser/state.rs: try_reuse, incremental_node"]}
{"id": "C76", "title": "Looking ahead agrees with consuming", "statement": "The kind reported by looking N significant tokens ahead is the kind of the current token after consuming N significant tokens.", "quantifier": "every token list, position and N", "why_tests_cant": "depends on every arrangement of trivia among the tokens", "anchors": ["projects/oak-core/src/parser/state.rs: peek_non_trivia_at, bump, skip_trivia"]}
{"id": "C77", "title": "An arena shared between threads keeps its objects apart", "statement": "Allocating from several threads out of one arena, which its type permits without unsafe code, gives disjoint objects.", "quantifier": "every interleaving of two allocations", "why_tests_cant": "depends on the interleaving of the threads", "anchors": ["projects/oak-core/src/memory/arena.rs: SyntaxArena::alloc_raw, unsafe impl Sync"]}
{"id": "C78", "title": "A thread that ends gives back its pooled memory", "statement": "When a thread ends, the chunks in its recycling pool are returned to the system allocator.", "quantifier": "every allocation history", "why_tests_cant": "a leak is not visible in any result", "anchors": ["projects/oak-core/src/memory/arena.rs: CHUNK_POOL"]}
{"id": "C79", "title": "Files on disk have an identity", "statement": "A file that can be read through a virtual file system has a source identity that leads back to its path.", "quantifier": "every virtual file system implementation and history", "why_tests_cant": "absence of any writer of the identity tables is a fact about all histories", "anchors": ["projects/oak-vfs/src/vfs/disk.rs: DiskVfs::get_id, get_uri, get_source"]}
{"id": "C80", "title": "A Line document forces a line break", "statement": "As documented, a Line element of a document prints as a line break.", "quantifier": "every document containing a Line", "why_tests_cant": "a statement about every position a Line may have", "anchors": ["projects/oak-pretty-print/src/document/mod.rs: Document::Line, Document::render", "projects/oak-pretty-print/src/document/printer.rs: Printer::render"]}
{"id": "C81", "title": "Formatting loses no code", "statement": "Formatting a tree with the built-in rules keeps every visible character of the source in order, succeeds for every tree whose tokens lie on character boundaries, and reports changed exactly when the text differs.", "quantifier": "every language roles assignment, tree, source and configuration with blank indentation", "why_tests_cant": "quantifies over all trees, sources and languages", "anchors": ["projects/oak-pretty-print/src/formatter/mod.rs: Formatter::format, format_node, format_token", "projects/oak-pretty-print/src/builtin_rules/mod.rs: create_builtin_rules"]}
{"id": "C82", "title": "Formatting formatted text changes nothing", "statement": "Formatting the output of the formatter again with the built-in rules yields the same text.", "quantifier": "every tree and source", "why_tests_cant": "needs all pairs of source and formatted source", "anchors": ["projects/oak-pretty-print/src/builtin_rules/mod.rs: comma_spacing", "projects/oak-pretty-print/src/formatter/mod.rs: Formatter::format"]}
{"id": "C83", "title": "Rules are told the kinds around an element", "statement": "parent_kind returns the kind of the parent of the element a rule is applied to and is_inside answers for its ancestors.", "quantifier": "every tree, node and token", "why_tests_cant": "all nesting depths", "anchors": ["projects/oak-pretty-print/src/formatter/mod.rs: FormatContext::enter, parent_kind, is_inside"]}
{"id": "C84", "title": "Comments survive when comment formatting is off", "statement": "With comment formatting switched off, processing comments keeps them as they are.", "quantifier": "every list of comments", "why_tests_cant": "a statement about every list of comments and configuration", "anchors": ["projects/oak-pretty-print/src/formatter/mod.rs: FormatContext::new", "projects/oak-pretty-print/src/comment/mod.rs: CommentProcessor::process_comments"]}
{"id": "C85", "title": "Going to a definition resolves references", "statement": "For a position inside a reference whose name the workspace index knows, go-to-definition returns the location of that definition.", "quantifier": "every tree, position inside a reference, and symbol table", "why_tests_cant": "the answer depends on where in the tree the reference is nested", "anchors": ["projects/oak-lsp/src/service.rs: LanguageService::definition", "projects/oak-resolver/src/lib.rs: GlobalSymbolTable::lookup"]}
{"id": "C86", "title": "Workspace symbol search lists every matching definition", "statement": "A query lists every current symbol whose qualified name contains the text, and nothing else.", "quantifier": "every history of updates and every query", "why_tests_cant": "same-named definitions in different places need specific workspaces", "anchors": ["projects/oak-resolver/src/lib.rs: GlobalSymbolTable::query, make_qualified_name", "projects/oak-lsp/src/service.rs: LanguageService::workspace_symbols"]}
{"id": "C87", "title": "Document symbols fall back to parsing", "statement": "The document symbols of a readable, parsable file are its definitions, from the index or, as documented, by parsing the file.", "quantifier": "every file and index state", "why_tests_cant": "depends on the state of the index", "anchors": ["projects/oak-lsp/src/service.rs: LanguageService::document_symbols"]}
{"id": "C88", "title": "Imports resolve through the workspace folders", "statement": "An import goes to the first existing file among the importing file's directory and the workspace folders in order; a file below any current workspace folder is found.", "quantifier": "every file system, folder list and import", "why_tests_cant": "needs every file system and history of folder changes", "anchors": ["projects/oak-resolver/src/lib.rs: StandardResolver::resolve", "projects/oak-lsp/src/workspace.rs: WorkspaceManager::initialize, add_folder, remove_folder"]}
{"id": "C89", "title": "A token's own style wins over the style of the language", "statement": "A token whose scope the theme knows is drawn with a style found for one of the token's own scopes, not with the style of the language as a whole.", "quantifier": "every theme, token scope, language and category", "why_tests_cant": "depends on how deep the scopes of the theme are relative to each other", "anchors": ["projects/oak-highlight/src/highlighter/mod.rs: HighlightTheme::resolve_styles, get_token_scopes"]}
{"id": "C90", "title": "An exported HTML page shows exactly the source", "statement": "A reader of the exported page sees the segment texts, in order, and nothing else, whatever the theme.", "quantifier": "every list of segments and styles", "why_tests_cant": "needs every text and theme", "anchors": ["projects/oak-highlight/src/exporters/mod.rs: HtmlExporter::export, segment_to_html_inline, segment_to_html_class"]}
{"id": "C91", "title": "HTML export keeps styles apart", "statement": "Segments of the same text whose styles differ are exported differently.", "quantifier": "every pair of styles, both export modes", "why_tests_cant": "all styles", "anchors": ["projects/oak-highlight/src/exporters/mod.rs: HtmlExporter::segment_to_html_inline, segment_to_html_class"]}
{"id": "C92", "title": "Every error with a position is labelled", "statement": "An error that carries an offset becomes a diagnostic with exactly one label at that offset.", "quantifier": "every kind of error, offset and source", "why_tests_cant": "every kind and every offset", "anchors": ["projects/oak-diagnostic/src/lib.rs: to_diagnostic"]}
{"id": "C93", "title": "A reported error is marked below the offending character", "statement": "The rendered report shows the line of the offset and puts carets exactly below the labelled characters, counted in characters.", "quantifier": "every text, label, and position of the label in its line", "why_tests_cant": "all texts, multi-byte characters, carriage returns, ends of lines and of files", "anchors": ["projects/oak-diagnostic/src/lib.rs: PlainTextEmitter::render_snippet, ConsoleEmitter::render_snippet"]}
{"id": "C94", "title": "A label over several lines marks its end", "statement": "Below the last line of a label over several lines the carets lie below labelled characters.", "quantifier": "every text and label over several lines", "why_tests_cant": "all texts and labels", "anchors": ["projects/oak-diagnostic/src/lib.rs: PlainTextEmitter::render_snippet"]}
{"id": "C95", "title": "The range told to an editor is the label", "statement": "The LSP range of a diagnostic is in order and both ends convert back to the ends of the first label.", "quantifier": "every source and label", "why_tests_cant": "all sources, columns counted in UTF-16", "anchors": ["projects/oak-diagnostic/src/lib.rs: LspEmitter::to_lsp_diagnostic"]}
{"id": "C96", "title": "Colours are the only difference between console and plain reports", "statement": "A terminal shows the console report exactly as the plain report.", "quantifier": "every source and diagnostic", "why_tests_cant": "all texts and labels", "anchors": ["projects/oak-diagnostic/src/lib.rs: ConsoleEmitter, PlainTextEmitter"]}
{"id": "C97", "title": "The continuation prompt marks continuation lines", "statement": "The prompt for continued input is shown exactly while a line other than the first is edited.", "quantifier": "every handler and sequence of keys", "why_tests_cant": "all key sequences", "anchors": ["projects/oak-repl/src/lib.rs: OakRepl::run"]}
{"id": "C98", "title": "Malformed messages are answered with an error", "statement": "A line that is not a valid message gets an error response, as JSON-RPC 2.0 demands.", "quantifier": "every input line", "why_tests_cant": "all inputs", "anchors": ["projects/oak-mcp/src/lib.rs: McpServer::run"]}
{"id": "C99", "title": "One bad line does not end the service", "statement": "After any line, later requests are still answered.", "quantifier": "every stream of bytes", "why_tests_cant": "all streams", "anchors": ["projects/oak-mcp/src/lib.rs: McpServer::run"]}
{"id": "C100", "title": "A tool call returns what the service found", "statement": "The result of a tool call is what the language service or the searcher returned for the given arguments.", "quantifier": "every service, tool and arguments", "why_tests_cant": "all services and arguments", "anchors": ["projects/oak-mcp/src/lib.rs: McpServer::handle_tool_call"]}
{"id": "C101", "title": "Every offered tool works", "statement": "Each tool of the list sent to clients, called with its required arguments, gives a result.", "quantifier": "every listed tool and all arguments", "why_tests_cant": "list and dispatch are in different files; all arguments", "anchors": ["projects/oak-mcp/src/lib.rs: McpServer::handle_tool_call", "projects/oak-mcp/src/tools.json"]}
{"id": "C102", "title": "The layered graph layout never panics", "statement": "Laying out a graph in layers ends without a panic, also when an edge names a missing node.", "quantifier": "every graph", "why_tests_cant": "edges and nodes are added independently; all graphs", "anchors": ["projects/oak-visualize/src/graph/mod.rs: topological_layers"]}
{"id": "C103", "title": "Rectangle operations are exact", "statement": "Containment, intersection, union, the rectangle of two corners and expansion agree with the sets of points they stand for.", "quantifier": "all rectangles and points (over exact numbers)", "why_tests_cant": "an infinite domain with many sign and order cases", "anchors": ["projects/oak-visualize/src/geometry/mod.rs: Rect"]}
{"id": "C104", "title": "Layout bounds and canvas hold every node", "statement": "The bounds of a layout are the least rectangle around its nodes, and the SVG canvas holds every node at least the padding away from its border.", "quantifier": "all layouts, canvas sizes and paddings", "why_tests_cant": "all positions and sizes", "anchors": ["projects/oak-visualize/src/layout/mod.rs: Layout::calculate_bounds", "projects/oak-visualize/src/render/mod.rs: render_layout"]}
{"id": "C105", "title": "Layered tree layout keeps nodes apart", "statement": "In the layered layout of a tree every node is placed and no two nodes overlap.", "quantifier": "every tree and every node size", "why_tests_cant": "all shapes and sizes", "anchors": ["projects/oak-visualize/src/tree/mod.rs: layered_layout"]}
{"id": "C106", "title": "Grid and layered graph layouts keep nodes apart", "statement": "The grid and hierarchical layouts of a graph place every node and no two nodes overlap.", "quantifier": "every graph and every node size", "why_tests_cant": "all graphs and sizes", "anchors": ["projects/oak-visualize/src/graph/mod.rs: hierarchical_layout, grid_layout"]}
{"id": "C107", "title": "The hierarchical engine places every node", "statement": "The hierarchical layout engine ends, places every given node and keeps nodes apart.", "quantifier": "every list of nodes and edges", "why_tests_cant": "includes cyclic inputs, where only a proof shows divergence", "anchors": ["projects/oak-visualize/src/layout/mod.rs: HierarchicalLayout"]}
{"id": "C108", "title": "Every edge is drawn", "statement": "The SVG of a layout draws a line for every edge between two placed nodes.", "quantifier": "every tree and graph layout", "why_tests_cant": "all trees, graphs and configurations", "anchors": ["projects/oak-visualize/src/render/mod.rs: render_edge", "projects/oak-visualize/src/tree/mod.rs: add_tree_edges"]}
{"id": "C109", "title": "Labels are shown as given", "statement": "A viewer of the SVG shows the label of every node exactly as it was given.", "quantifier": "every label, configuration and style", "why_tests_cant": "labels are arbitrary text, including markup characters", "anchors": ["projects/oak-visualize/src/render/mod.rs: render_node"]}
{"id": "C110", "title": "SVG tags repeat no attribute", "statement": "No tag of the SVG has the same attribute twice, so the file is well formed.", "quantifier": "every style", "why_tests_cant": "all combinations of style fields", "anchors": ["projects/oak-visualize/src/render/mod.rs: render_node"]}
{"id": "C111", "title": "Parsing again reports the same diagnostics", "statement": "Parsing an unchanged text a second time with the previous tree reports the diagnostics of the first time.", "quantifier": "every text with a previous parse of the same text", "why_tests_cant": "error recovery and reuse interact only for nested broken texts", "anchors": ["projects/oak-core/src/parser/state.rs: incremental_node, try_reuse", "examples/oak-json/src/parser/mod.rs: JsonParser::parse"]}
{"id": "C112", "title": "JSON values are those of the text", "statement": "`oak_json::parse` of a valid JSON text gives the value the text has by RFC 8259, with the source range of every part.", "quantifier": "every valid JSON text", "why_tests_cant": "whitespace, nesting and escapes combine without bound", "anchors": ["examples/oak-json/src/lib.rs: parse", "examples/oak-json/src/builder/mod.rs: JsonBuilder"]}
{"id": "C113", "title": "Malformed JSON has no value", "statement": "`oak_json::parse` answers an error for a text that is not valid JSON.", "quantifier": "every text that is not JSON", "why_tests_cant": "there are infinitely many malformed texts, and recovery makes trees for all of them", "anchors": ["examples/oak-json/src/lib.rs: parse", "examples/oak-json/src/builder/mod.rs: JsonBuilder::build"]}
{"id": "C114", "title": "Written JSON values are read back", "statement": "Parsing the text a `JsonValue` is written as gives the value back.", "quantifier": "every value", "why_tests_cant": "strings and numbers are arbitrary", "anchors": ["examples/oak-json/src/ast/mod.rs: JsonValue::to_string, to_source", "examples/oak-json/src/lib.rs: parse"]}
{"id": "C115", "title": "Field access finds the first field", "statement": "`JsonValue::get` gives the value of the first field with the name, and nothing exactly when no field has it; `to_source` and `to_string` agree.", "quantifier": "every object, name and value", "why_tests_cant": "duplicate names and nesting are unbounded", "anchors": ["examples/oak-json/src/ast/mod.rs: JsonValue::get, JsonObject::get, ToSource"]}
{"id": "C116", "title": "Rust values survive conversion to JSON and back", "statement": "`from_value(to_value(v))` gives `v` back for every value of every type made of the standard and derived implementations of serde.", "quantifier": "every type of the universe and every value of it", "why_tests_cant": "types and values are unbounded, and derived code differs per type", "anchors": ["examples/oak-json/src/serde.rs: to_value, from_value, Serializer, KeySerializer, Deserializer for JsonValue"]}
{"id": "C117", "title": "Structures are read by field name", "statement": "Reading a structure from a JSON object succeeds exactly when every field comes once and can be read, or does not come and is optional; the order of the entries and further entries do not matter.", "quantifier": "every structure type and every object", "why_tests_cant": "orders, duplicates and further entries combine without bound", "anchors": ["examples/oak-json/src/serde.rs: MapDeserializer, deserialize_any"]}
{"id": "C118", "title": "Arrays of the wrong length are rejected", "statement": "Reading a tuple or a structure from an array of another length answers an error.", "quantifier": "every tuple type and every array", "why_tests_cant": "lengths are unbounded", "anchors": ["examples/oak-json/src/serde.rs: SeqDeserializer"]}
{"id": "C119", "title": "Integers keep their value", "statement": "`to_value` of an integer is the JSON number with that value.", "quantifier": "every 64-bit integer", "why_tests_cant": "there are 2^64 of them", "anchors": ["examples/oak-json/src/serde.rs: serialize_i64, serialize_u64"]}
{"id": "C120", "title": "Rust values survive being written as text", "statement": "`from_str(to_string(v))` gives `v` back.", "quantifier": "every type and value", "why_tests_cant": "strings and nesting are unbounded", "anchors": ["examples/oak-json/src/lib.rs: to_string, from_str"]}
{"id": "C121", "title": "A formatted comment is one comment", "statement": "The text `Comment::formatted_text` gives is one comment of the comment's kind, and nothing of the content ends up outside it or is lost.", "quantifier": "every kind, content and blank indentation", "why_tests_cant": "contents are unbounded; line ends and markers may be anywhere", "anchors": ["projects/oak-pretty-print/src/comment/mod.rs: Comment::formatted_text"]}
{"id": "C122", "title": "Formatting a comment again changes nothing", "statement": "Reading a formatted comment back and formatting it again gives the same text.", "quantifier": "every kind, content and blank indentation", "why_tests_cant": "contents are unbounded", "anchors": ["projects/oak-pretty-print/src/comment/mod.rs: Comment::formatted_text"]}
{"id": "C123", "title": "Each comment is written once", "statement": "A walk over a text that calls `insert_comments_at_position` at each of its positions writes every comment that is not trailing exactly once.", "quantifier": "every collection of comments and sequence of positions", "why_tests_cant": "collections and walks are unbounded", "anchors": ["projects/oak-pretty-print/src/comment/mod.rs: CommentProcessor::insert_comments_at_position, CommentCollector::comments_before"]}
{"id": "C124", "title": "A line gets its own trailing comment", "statement": "`insert_trailing_comment` at the end of a line writes the trailing comment of that line, if there is one; sorting and the queries of the collector lose and invent no comments.", "quantifier": "every collection of comments and position", "why_tests_cant": "orders and positions are unbounded", "anchors": ["projects/oak-pretty-print/src/comment/mod.rs: CommentProcessor::insert_trailing_comment, CommentCollector::sort_by_position, comments_after"]}
{"id": "C125", "title": "Comments can be switched off", "statement": "With `preserve_comments` off no comments are written, with `format_comments` off they are written as they are.", "quantifier": "every processor, comment and position", "why_tests_cant": "any collection may be present", "anchors": ["projects/oak-pretty-print/src/comment/mod.rs: CommentProcessor"]}
{"id": "C126", "title": "CSV texts are cut into tokens in exactly one way", "statement": "For every source that serves a UTF-8 text and every separator and quote, lexing ends and its tokens, placed one after another without gaps, spell the whole text and are followed by one end token at its end. Each token is a run of blanks, a line end (LF, CR LF, or CR not before LF), the separator, a quoted field with doubled quotes (closed, or running to the end of the text) or an unquoted field up to the next separator or line end, and this cutting is the only one with these properties.", "quantifier": "every source, text, separator and quote character", "why_tests_cant": "Tests compare a few texts; the claim is about every text, every way of chunking the source and every configuration, including separators that coincide with quotes or blanks.", "anchors": ["examples/oak-csv/src/lexer/mod.rs: CsvLexer::run", "examples/oak-csv/src/lexer/mod.rs: lex_quoted_field", "examples/oak-csv/src/lexer/mod.rs: lex_unquoted_field"]}
{"id": "C127", "title": "A configured CSV separator separates", "statement": "Outside of quoted fields every occurrence of the separator given with with_separator is a separator token of its own, whichever character it is.", "quantifier": "every configuration and every text", "why_tests_cant": "Tests use the comma; the failing separators are the characters that another rule of the lexer takes first.", "anchors": ["examples/oak-csv/src/lexer/mod.rs: with_separator", "examples/oak-csv/src/lexer/mod.rs: skip_whitespace"]}
{"id": "C128", "title": "A CSV table is read as it was written", "statement": "Writing rows of plain and quoted cells with separators and line ends and parsing the text gives the tree of the table: one record per row, one field per cell (empty for empty cells), with the text of each field, each blank and each line end in its place, and no diagnostics.", "quantifier": "every table with any number of rows and cells and any cell contents, line ends LF, CR LF or CR", "why_tests_cant": "The number of rows, cells and characters is unbounded, and quoted cells may contain separators, quotes and line ends.", "anchors": ["examples/oak-csv/src/parser/parse_top_level.rs: parse_root_internal", "examples/oak-csv/src/parser/parse_top_level.rs: parse_record", "examples/oak-csv/src/parser/parse_top_level.rs: parse_field"]}
{"id": "C129", "title": "CSV parsing ends for every text, keeps it, and reports malformed quoting", "statement": "Parsing any text ends with a tree whose leaves are the tokens of the text in order, and texts with an unclosed quote or with characters after a closing quote get a diagnostic.", "quantifier": "every UTF-8 text of less than 4 GiB", "why_tests_cant": "Termination of the loops over records and fields for every sequence of tokens cannot be tested.", "anchors": ["examples/oak-csv/src/parser/parse_top_level.rs: parse_root_internal", "examples/oak-csv/src/parser/mod.rs: CsvParser::parse"]}
{"id": "C130", "title": "INI parsing ends for every text and accepts well-formed files", "statement": "For every text the parser stops without a panic, and a file of sections and key-value pairs of plain words and numbers gives a tree without diagnostics. A parser loop that runs while not_at_end() ends when the input is used up.", "quantifier": "every text of less than 4 GiB", "why_tests_cant": "Termination of the nested loops (tables, dotted keys, arrays, inline tables) for every token sequence cannot be tested, nor can that no text at all is accepted.", "anchors": ["examples/oak-ini/src/parser/mod.rs: parse_root_internal", "examples/oak-ini/src/parser/parse_top_level.rs: parse_table", "examples/oak-ini/src/parser/parse_top_level.rs: parse_value", "projects/oak-core/src/parser/state.rs: not_at_end"]}
{"id": "C131", "title": "INI lexing ends for every text and its tokens cover the text in order", "statement": "For every text lexing stops without a panic; the tokens are non-empty, in order and without overlap, lie on character boundaries and cover every character of the text, and one end token comes last.", "quantifier": "every byte sequence as a text", "why_tests_cant": "Positions inside of a character arise only from certain combinations of escapes and non-ASCII characters, after which every rule of the lexer runs off a character boundary.", "anchors": ["examples/oak-ini/src/lexer/mod.rs: run", "examples/oak-ini/src/lexer/mod.rs: lex_string_literal", "projects/oak-core/src/lexer/mod.rs: advance_if_dead_lock"]}
{"id": "C132", "title": "A passing run of a tester means that every record agrees with what the code does", "statement": "When LexerTester, ParserTester or BuilderTester passes on a directory, each file with one of the extensions that is not itself a record has been read, was processed in time, and has a record beside it (name.ext.lexed.json and so on) that says what came out; the tested files are unchanged.", "quantifier": "every directory, extension list, timeout, subject and setting of REGENERATE_TESTS", "why_tests_cant": "A test of the tester covers one directory; records that are moved, rewritten or shared between files of the same stem need an invariant over the whole run.", "anchors": ["projects/oak-testing/src/lexing.rs: run_tests", "projects/oak-testing/src/parsing.rs: test_single_file", "projects/oak-testing/src/building.rs: test_single_file"]}
{"id": "C133", "title": "A record is only changed on request, and a pass means that something was compared", "statement": "Unless REGENERATE_TESTS is set, a record that exists keeps its content whatever the outcome, a record that differs from what the code does makes the run fail, and a run passes only if every tested file had a record before.", "quantifier": "every directory, extension list, timeout and subject", "why_tests_cant": "That no order of files and no failure halfway changes a record is a claim about all runs.", "anchors": ["projects/oak-testing/src/lexing.rs: test_single_file", "projects/oak-testing/src/parsing.rs: test_single_file", "projects/oak-testing/src/building.rs: test_single_file"]}
{"id": "C134", "title": "A tester comes back with an error when the code under test hangs, is late or panics", "statement": "A subject that takes longer than the timeout gives an error once the timeout is over; a subject that never ends does too, and a subject that panics gives an error and not a panic.", "quantifier": "every subject, timeout and directory", "why_tests_cant": "That the call does not come back is not observable by a test that has to end.", "anchors": ["projects/oak-testing/src/lexing.rs: test_single_file", "projects/oak-testing/src/parsing.rs: test_single_file", "projects/oak-testing/src/building.rs: test_single_file"]}
{"id": "C135", "title": "Running the tests again after a pass passes and writes nothing", "statement": "After a run that passed, with or without REGENERATE_TESTS, a further run without it passes, tests the same files and leaves every file as it is.", "quantifier": "every directory, extension list, timeout and deterministic subject", "why_tests_cant": "Stability under repetition depends on records never counting as test files and never colliding.", "anchors": ["projects/oak-testing/src/lexing.rs: run_tests", "projects/oak-testing/src/lexing.rs: find_test_files", "projects/oak-testing/src/parsing.rs: run_tests"]}
{"id": "C136", "title": "Results with the same record are the same results", "statement": "Two parse trees with the same recorded structure are equal, the recorded count is the number of nodes, and two lists of tokens with the same lexer record are equal and had the same diagnostics.", "quantifier": "every pair of trees and every pair of token lists", "why_tests_cant": "Which differences a record hides is a claim about all pairs of results.", "anchors": ["projects/oak-testing/src/parsing.rs: to_ast", "projects/oak-testing/src/parsing.rs: count_nodes", "projects/oak-testing/src/lexing.rs: TokenData"]}
{"id": "C137", "title": "Enumerations and maps are read exactly", "statement": "A value of an enumeration is read from its own shape (a string for a variant without content, an object with one entry for the others) and from nothing else. A map from strings is read from an object exactly if every value can be read, has each name once, and holds the last value given for a name.", "quantifier": "every type, every JSON value", "why_tests_cant": "Which of all JSON values are accepted, and what a repeated key does, is a statement about all inputs.", "anchors": ["examples/oak-json/src/serde.rs: deserialize_enum, VariantDeserializer", "examples/oak-json/src/serde.rs: MapDeserializer"]}
{"id": "C138", "title": "Prefix, postfix, infix operators, brackets and subscripts group as the operator tables say", "statement": "An expression written with prefix, postfix and infix operators, brackets and subscripts is parsed by the Pratt parser into the one tree in which operators group as their precedences and associativities say: an operator never takes an operand away from a tighter one, a prefix operator extends as far right as the operators that follow it bind more tightly or equally, equal precedence groups by associativity. No error is recorded and parsing stops at the first token that cannot continue the expression.", "quantifier": "every operator table (precedences below the u8 limit), every expression tree written out as tokens with any trivia in between, every following token that is no operator", "why_tests_cant": "Unit tests parse a few expressions; interactions such as a loose prefix operator inside a tight infix operand, or a loose postfix operator after a right operand, grow with the nesting and cannot be enumerated.", "anchors": ["projects/oak-core/src/parser/pratt.rs#unary", "projects/oak-core/src/parser/pratt.rs#postfix", "projects/oak-core/src/parser/pratt.rs#binary", "projects/oak-core/src/parser/pratt.rs#PrattParser::parse", "examples/oak-lua/src/parser/mod.rs#prefix", "examples/oak-wolfram/src/parser/mod.rs#infix"]}
{"id": "C139", "title": "The Pratt parser ends on any tokens and covers what it read exactly once", "statement": "Whatever tokens follow, expression parsing terminates with one node, consumes a prefix of the tokens (at least one if there is any), stops in front of a token that cannot continue the expression at the requested precedence, and the nodes built cover the tokens read exactly once.", "quantifier": "every token sequence, valid expression or not, every operator table (precedences below the u8 limit), every minimum precedence", "why_tests_cant": "Tests use well-formed expressions; termination and coverage on arbitrary broken input need an argument over all token sequences. Subscript nodes built with checkpoint plus push_child look right in isolation.", "anchors": ["projects/oak-core/src/parser/pratt.rs#PrattParser::parse", "projects/oak-core/src/parser/state.rs#ParserState::push_child", "projects/oak-core/src/parser/state.rs#ParserState::checkpoint_before", "examples/oak-rust/src/parser/mod.rs#infix", "examples/oak-lua/src/parser/mod.rs#infix"]}
{"id": "C140", "title": "json! builds exactly the value it is given", "statement": "The json! macro, given a JSON value written as Rust tokens (null, booleans, strings, numbers, negative numbers, arrays, and objects whose keys are strings or identifiers, commas between elements, optional trailing comma), expands to an expression that evaluates to exactly that value: same nesting, same order, same keys, nothing dropped.", "quantifier": "every JSON value of any depth and width, written with or without trailing commas", "why_tests_cant": "Tests expand a handful of literals; the claim is about every nesting, and expansion happens at compile time where no run-time check can look.", "anchors": ["projects/oak-macros/src/json.rs#JsonValue", "projects/oak-macros/src/json.rs#parse", "projects/oak-macros/src/json.rs#to_tokens"]}
{"id": "C141", "title": "json! refuses or keeps what is not separated by commas", "statement": "Elements that json! accepts all appear in the value it builds; text that is not a list of comma-separated values is refused.", "quantifier": "every token sequence inside the brackets", "why_tests_cant": "A forked parser that is advanced twice drops a literal silently; no test writes two literals without a comma.", "anchors": ["projects/oak-macros/src/json.rs#parse"]}
{"id": "C142", "title": "The text of an error identifies the error", "statement": "Two errors whose Display texts are equal are of the same kind and carry the same contents: message, token, character, offset and source. Reports and logs keep all that was known.", "quantifier": "every pair of errors of the 23 kinds, with arbitrary messages (including messages that look like positions), offsets and sources", "why_tests_cant": "The text is built by concatenation without separators or escaping, so a collision needs two particular messages; tests compare single messages.", "anchors": ["projects/oak-core/src/errors/display.rs#OakErrorKind", "projects/oak-core/src/errors/mod.rs#OakErrorKind::key"]}
{"id": "C143", "title": "with_source_id attaches the source; copies of errors read the same", "statement": "with_source_id on an error that carries a position makes it carry the given source, leaves errors without position as they are, changes nothing else, and the last call wins. A cloned error has the same text, source and contents, and keeps the kind of an input/output error.", "quantifier": "every error, every sequence of source ids", "why_tests_cant": "The match has a catch-all arm, so a kind that is forgotten shows no compile error and no test fails unless it uses that kind.", "anchors": ["projects/oak-core/src/errors/mod.rs#OakError::with_source_id", "projects/oak-core/src/errors/mod.rs#OakErrorKind::clone", "projects/oak-core/src/errors/display.rs#OakErrorKind"]}
{"id": "C144", "title": "The TOML lexer cuts a text into the tokens of its grammar", "statement": "Lexing a TOML text gives the unique sequence of white space, comments, strings, numbers, booleans, bare keys and punctuation whose concatenation is the text, followed by an end token at the end of the text. true and false are booleans, [[ and ]] are single tokens, bare keys are letters, digits, underscores and dashes.", "quantifier": "every text and every source that serves it (flat or in chunks)", "why_tests_cant": "Which token a character belongs to depends on everything before it; a test compares the tokens of one text.", "anchors": ["examples/oak-toml/src/lexer/mod.rs#TomlLexer::run", "examples/oak-toml/src/lexer/mod.rs#lex_identifier", "examples/oak-toml/src/lexer/mod.rs#lex_punctuation"]}
{"id": "C145", "title": "A TOML string ends at its closing quote", "statement": "A basic string token reaches from its opening quote to the first quote that is not escaped, whatever characters are inside, and the text after it is lexed on its own.", "quantifier": "every string contents, every text after it", "why_tests_cant": "The loop steps by one byte, which only shows with characters of several bytes; the tests use ASCII strings.", "anchors": ["examples/oak-toml/src/lexer/mod.rs#lex_string"]}
{"id": "C146", "title": "A TOML number is one token", "statement": "A number of the TOML grammar (sign, digits, fraction, exponent, digit separators, prefixes) is one Integer or Float token, and nothing else is.", "quantifier": "every number and every text after it", "why_tests_cant": "The grammar has infinitely many numbers; tests try a few of the simplest form.", "anchors": ["examples/oak-toml/src/lexer/mod.rs#lex_number"]}
{"id": "C147", "title": "The TOML lexer ends, and covers the text without overlap", "statement": "For every text the lexer terminates; its tokens are non-empty, in order, do not overlap, lie on character boundaries, and the end token is at the end of the text.", "quantifier": "every string of bytes", "why_tests_cant": "Termination on all inputs and boundaries for all characters are universal; the byte-stepping loops differ from the correct ones only outside ASCII.", "anchors": ["examples/oak-toml/src/lexer/mod.rs#TomlLexer::run", "examples/oak-toml/src/lexer/mod.rs#skip_whitespace"]}
{"id": "C148", "title": "The TOML parser keeps the text and reports what is not TOML", "statement": "For every text the parser returns a root whose leaves are the tokens of the text in order, and a diagnostic exactly if the text is not TOML.", "quantifier": "every text shorter than 4 GiB", "why_tests_cant": "That an error is reported for every malformed text cannot be tested by examples; the snapshots accept whatever is produced.", "anchors": ["examples/oak-toml/src/parser/mod.rs#TomlParser::parse"]}
{"id": "C149", "title": "doc! builds a document that prints as written", "statement": "doc! given a document in its notation (nil, line, soft_line, soft_line_space, hard_line, strings, indent(...), group(...), join(items, sep), bracketed and comma-separated lists, Rust expressions; trailing comma allowed) expands to a document that prints, in every configuration, exactly as the document written down.", "quantifier": "every document of any depth in the notation, every parser of Rust expressions, every printer configuration", "why_tests_cant": "The notation nests without bound and the macro runs at compile time; the tests in macro_errors.rs expand three documents and discard them.", "anchors": ["projects/oak-macros/src/doc.rs#DocExpr::parse", "projects/oak-macros/src/doc.rs#parse_single", "projects/oak-macros/src/doc.rs#to_tokens", "projects/oak-pretty-print/src/document/mod.rs#Document"]}
{"id": "C150", "title": "doc! refuses what is not in its notation", "statement": "Input in which documents are not separated by commas is refused at compile time.", "quantifier": "every token sequence", "why_tests_cant": "Acceptance of malformed input is never exercised by tests of well-formed input.", "anchors": ["projects/oak-macros/src/doc.rs#parse_single"]}
{"id": "C151", "title": "derive(FormatRule) takes the priority from the attribute", "statement": "The priority of a derived format rule is the last priority = n written in its oak attributes, and 0 if there is none; a value that is no u8 is an error.", "quantifier": "every list of attributes with any entries in any order", "why_tests_cant": "Errors inside the attribute are dropped (let _ = ...), so a rule silently gets priority 0; no test combines entries.", "anchors": ["projects/oak-macros/src/format_rule.rs#derive_format_rule"]}
{"id": "C152", "title": "derive(AsDocument) prints the value", "statement": "The derived document of a struct or variant is the one given by the oak(doc = ...) attribute, otherwise made of the documents of all its fields in order; a malformed attribute is an error. Documents of lists print all elements in order.", "quantifier": "every attribute, every number of fields", "why_tests_cant": "The fallback for two or more fields is Nil: the output is merely empty, which no existing test looks at.", "anchors": ["projects/oak-macros/src/to_doc.rs#derive_as_document", "projects/oak-pretty-print/src/to_doc.rs#AsDocument"]}
{"id": "C153", "title": "The Python lexer covers the text and its tokens are determined by it", "statement": "For every text and every source that serves it the lexer terminates; each text has exactly one cut into words, numbers, strings, operators, marks, blanks, comments and line ends, and the tokens are that cut laid out in lines: they follow one another without gap from the start to the end of the text, with empty Indent and Dedent tokens between them, and an end token.", "quantifier": "every text, every source that serves it (flat or in chunks)", "why_tests_cant": "Where a string or an operator ends depends on all that precedes it; tests compare some texts in one kind of source.", "anchors": ["examples/oak-python/src/lexer/mod.rs#PythonLexer::run", "examples/oak-python/src/lexer/mod.rs#handle_indentation"]}
{"id": "C154", "title": "Indent and Dedent of the Python lexer match like brackets", "statement": "In the tokens of any text every Dedent closes an Indent before it, and at the end of the text every Indent has been closed.", "quantifier": "every text", "why_tests_cant": "Balance over all sequences of indentations needs an invariant of the stack; tests try a few programs.", "anchors": ["examples/oak-python/src/lexer/mod.rs#handle_indentation", "examples/oak-python/src/lexer/mod.rs#PythonLexer::lex"]}
{"id": "C155", "title": "The Python lexer gives the block structure of a program", "statement": "For every program whose statements take a line each and whose blocks are indented consistently, the tokens other than blanks, comments and line ends are those of the statements, with one Indent before and one Dedent after each block; blank lines and comments, however indented, change nothing.", "quantifier": "every tree of statements, every indentation, every placement of blank and comment lines", "why_tests_cant": "The trees are unbounded in depth and width; Dedents are delayed until the next line that counts, so an error shows only for certain neighbours.", "anchors": ["examples/oak-python/src/lexer/mod.rs#handle_indentation"]}
{"id": "C156", "title": "The Python lexer does not invent blocks", "statement": "A line is preceded by an Indent only if it is in a higher column than the line of the enclosing block; a line that returns to a column no open block has is reported.", "quantifier": "every text", "why_tests_cant": "It fails for certain combinations of columns only.", "anchors": ["examples/oak-python/src/lexer/mod.rs#handle_indentation"]}
{"id": "C157", "title": "Python lines within brackets belong together", "statement": "A line that ends within brackets goes on in the next one: the line end is white space and no Indent, Dedent or Newline is produced until the line after the closing bracket.", "quantifier": "every text", "why_tests_cant": "Whether state is left over after the bracket closes is visible only with text after it on the same line; the tests end the line there.", "anchors": ["examples/oak-python/src/lexer/mod.rs#lex_newline", "examples/oak-python/src/lexer/mod.rs#PythonLexer::run"]}
{"id": "C158", "title": "Python literals and operators are single tokens", "statement": "A keyword, name, number, string with any prefix or operator of Python is one token of its kind, whatever follows it.", "quantifier": "every token, every text after it", "why_tests_cant": "The longest match has to be checked against every continuation.", "anchors": ["examples/oak-python/src/lexer/mod.rs#lex_operator", "examples/oak-python/src/lexer/mod.rs#lex_number", "examples/oak-python/src/lexer/mod.rs#lex_string", "examples/oak-python/src/lexer/mod.rs#lex_identifier_or_keyword"]}
{"id": "C159", "title": "define_rules! yields the rules as written", "statement": "The macro accepts exactly the lists of rules that are written with a name and a brace of fields (a priority, a node handler with four names, a token handler with three, each optionally followed by a comma, at least one priority) and yields a rule for each in the same order with its priority and its handlers.", "quantifier": "every token list, every parser of Rust expressions that reads from the front", "why_tests_cant": "A procedural macro is tested with the few invocations in the repository; what it does with other token lists is open.", "anchors": ["projects/oak-macros/src/define_rules.rs#RulesInput", "projects/oak-macros/src/define_rules.rs#RuleDefinition"]}
{"id": "C160", "title": "define_rules! uses every handler that is written", "statement": "Every handler written in a rule is part of the rule, or the macro reports an error.", "quantifier": "every list of fields", "why_tests_cant": "No test writes a handler twice.", "anchors": ["projects/oak-macros/src/define_rules.rs#RuleDefinition"]}
{"id": "C161", "title": "The names of a handler stand for its arguments", "statement": "Whatever names a handler gives its arguments, in its condition and its body each name stands for the argument in its place.", "quantifier": "every choice of distinct names, all argument values", "why_tests_cant": "Capture depends on the names; tests use names that differ from those of the generated function.", "anchors": ["projects/oak-macros/src/define_rules.rs#define_rules"]}
{"id": "C162", "title": "test_lexer! and test_parser! use the configuration as written", "statement": "The macros accept exactly the lists of settings, in any order and with optional commas, that give name, language, lexer or parser, extension and path, and possibly a time limit below 2^64; the test is made from the values given, ten seconds being the limit if there is none.", "quantifier": "every token list", "why_tests_cant": "Order and omission of fields give too many invocations to try.", "anchors": ["projects/oak-macros/src/test.rs#TestConfig"]}
{"id": "C163", "title": "The code chunks are the long definitions, statements and documentation nodes", "statement": "For every tree over a source, the chunks are the nodes with one of the three roles and more than twenty bytes, nested ones included, in document order, each with its place and the bytes there; if a node with such a role is not within the source or cuts a character the collection panics.", "quantifier": "every tree, every source, every assignment of roles, every offset of the root", "why_tests_cant": "Trees are unbounded in depth and width; the repository has no test of it.", "anchors": ["projects/oak-semantic-search/src/lib.rs#ChunkCollector"]}
{"id": "C164", "title": "What was indexed can be found", "statement": "After code has been indexed a search for the text of one of its chunks returns something.", "quantifier": "every tree, every source", "why_tests_cant": "The searcher is asynchronous and has no test.", "anchors": ["projects/oak-semantic-search/src/lib.rs#SemanticSearcher"]}
{"id": "C165", "title": "The XML lexer cuts a text into the tokens of its grammar", "statement": "Lexing an XML text gives the unique sequence of white space, comments, CDATA sections, processing instructions, document types, references, names, punctuation, strings and error tokens whose concatenation is the text, followed by an end token at the end of the text. A construct that is not closed reaches to the end and is an error token.", "quantifier": "every text of Unicode scalar values", "why_tests_cant": "Which token a character belongs to depends on everything before it, and the constructs nest; a test compares the tokens of one text.", "anchors": ["examples/oak-xml/src/lexer/mod.rs#XmlLexer::run", "examples/oak-xml/src/lexer/mod.rs#skip_whitespace", "examples/oak-xml/src/lexer/mod.rs#lex_entity_reference"]}
{"id": "C166", "title": "The XML parser accepts the documents of its grammar and no others", "statement": "The parser returns a tree for a text exactly if its tokens are a sequence of elements, nested and closed, with any other tokens between them; the tree is the one of the grammar. Every other text is an error with one diagnostic.", "quantifier": "every text of Unicode scalar values shorter than 4 GiB", "why_tests_cant": "Both directions quantify over all token sequences and all nesting depths.", "anchors": ["examples/oak-xml/src/parser/parse_top_level.rs", "examples/oak-xml/src/parser/mod.rs#XmlParser::parse"]}
{"id": "C167", "title": "Attributes are read", "statement": "A start tag with attributes is parsed and its attributes are in the tree and in the value.", "quantifier": "every element name, every list of attributes, every rest of the text", "why_tests_cant": "The refusal concerns every text with white space after a name; the tests that have attributes are ignored or accept anything.", "anchors": ["examples/oak-xml/src/parser/parse_top_level.rs", "examples/oak-xml/src/builder/mod.rs#build_attribute"]}
{"id": "C168", "title": "A text of elements is read as these elements", "statement": "The tree and the value of a text made of elements only are its elements in their order and nesting, each with its name and its place in the text; the end tag of each element has the name of its start tag.", "quantifier": "every forest of elements with arbitrary names", "why_tests_cant": "Quantifies over all trees; a test reads one.", "anchors": ["examples/oak-xml/src/builder/mod.rs#build_element", "examples/oak-xml/src/builder/mod.rs#build_root", "examples/oak-xml/src/lib.rs#parse"]}
{"id": "C169", "title": "Reading XML does not panic and keeps the contents", "statement": "For every text, oak_xml::parse returns a value or an error; the value has the texts, comments and other contents of the document.", "quantifier": "every text of Unicode scalar values shorter than 4 GiB", "why_tests_cant": "No panic on any input is universal; that texts are lost shows only when a value is compared with its text.", "anchors": ["examples/oak-xml/src/lib.rs#parse", "examples/oak-xml/src/builder/mod.rs#build_element"]}
{"id": "C170", "title": "Printed XML is read back", "statement": "Reading what XmlValue's to_string writes gives the value that was written.", "quantifier": "every element whose names can be written", "why_tests_cant": "Round trips quantify over all values; the tests print without reading back.", "anchors": ["examples/oak-xml/src/ast/mod.rs#to_string", "examples/oak-xml/src/lib.rs#parse"]}
{"id": "C171", "title": "Rust values survive being XML values", "statement": "oak_xml::from_value(to_value(v)) is v.", "quantifier": "every Rust value of a type made of truth values, numbers, characters, strings, options, sequences, tuples, maps, structures and enumerations", "why_tests_cant": "Values nest without bound, and how a value is written depends on where it stands (top, field, one of one or of several elements); the tests write a few structures.", "anchors": ["examples/oak-xml/src/serde.rs#to_value", "examples/oak-xml/src/serde.rs#from_value", "examples/oak-xml/src/serde.rs#MapDeserializer::new"]}
{"id": "C172", "title": "Numbers and truth values can be read from XML", "statement": "A type with truth values, integers, floats or units in it can be read with from_value.", "quantifier": "every type, every XML value", "why_tests_cant": "That nothing ever yields a number quantifies over all XML values and all types around it.", "anchors": ["examples/oak-xml/src/serde.rs#deserialize_any"]}
{"id": "C173", "title": "Attributes are written and read as marked fields", "statement": "A field whose name begins with U+21AF is written as an attribute of that name, and an attribute is read as such a field.", "quantifier": "every structure, every field name and value", "why_tests_cant": "The panic depends on the length of the mark in bytes; no test writes an attribute.", "anchors": ["examples/oak-xml/src/serde.rs#serialize_value", "examples/oak-xml/src/serde.rs#MapDeserializer::new"]}
{"id": "C174", "title": "Rust values survive being XML texts", "statement": "oak_xml::from_str(to_string(v)) is v; from_str does not panic.", "quantifier": "every type, every text of Unicode scalar values shorter than 4 GiB", "why_tests_cant": "Quantifies over all texts and types.", "anchors": ["examples/oak-xml/src/lib.rs#from_str", "examples/oak-xml/src/lib.rs#to_string"]}
{"id": "C175", "title": "A VON text is cut into its tokens in exactly one way", "statement": "For every text the VON lexer gives the tokens that the rules for blanks, line ends, comments, words, numbers, strings and marks say, one after the other and without gaps; an unfinished string and any other character are error tokens.", "quantifier": "every text of Unicode scalar values", "why_tests_cant": "The longest-match and quote-counting rules interact on inputs of any length; tests check a few files.", "anchors": ["examples/oak-von/src/lexer/mod.rs#lex", "examples/oak-von/src/lexer/mod.rs#lex_string", "examples/oak-von/src/lexer/mod.rs#lex_number"]}
{"id": "C176", "title": "A VON document is read as what it says", "statement": "A text is parsed without diagnostics exactly if it is a VON document, and then the value is the one the document stands for, whatever blanks and comments are around its tokens.", "quantifier": "every text of Unicode scalar values shorter than 4 GiB, every parser of numbers", "why_tests_cant": "Both directions quantify over all texts; blanks before the text are not in any test.", "anchors": ["examples/oak-von/src/parser/mod.rs#parse_value", "examples/oak-von/src/parser/mod.rs#parse_object_inner", "examples/oak-von/src/builder/mod.rs#build_value", "examples/oak-von/src/builder/mod.rs#build_root"]}
{"id": "C177", "title": "The VON tree has the whole text", "statement": "The leaves of the tree of a text are its tokens, each at its place in the text, and the width of the root is the length of the text.", "quantifier": "every text of Unicode scalar values shorter than 4 GiB", "why_tests_cant": "Losslessness is about every text, also those with errors; tests compare trees of a few files.", "anchors": ["examples/oak-von/src/parser/mod.rs#parse", "examples/oak-von/src/parser/mod.rs#skip_trivia"]}
{"id": "C178", "title": "Reading VON does not panic", "statement": "For every text the builder returns a value or an error.", "quantifier": "every text of Unicode scalar values shorter than 4 GiB", "why_tests_cant": "Absence of panics is universal over inputs.", "anchors": ["examples/oak-von/src/builder/mod.rs#build", "examples/oak-von/src/builder/mod.rs#build_value"]}
{"id": "C179", "title": "Whatever follows a VON value is reported", "statement": "A text that is read without diagnostics has nothing but blanks and comments after its value.", "quantifier": "every text of Unicode scalar values shorter than 4 GiB", "why_tests_cant": "Silently dropped input is not seen by tests that give well-formed files.", "anchors": ["examples/oak-von/src/parser/mod.rs#parse", "examples/oak-von/src/builder/mod.rs#build_root"]}
{"id": "C180", "title": "Printed VON is read back", "statement": "Reading what VonValue's to_source or to_string writes gives the value that was written.", "quantifier": "every value with names and strings that can be written", "why_tests_cant": "Round trips quantify over all values, nested to any depth.", "anchors": ["examples/oak-von/src/ast/mod.rs#to_source", "examples/oak-von/src/ast/mod.rs#to_string", "examples/oak-von/src/builder/mod.rs#build"]}
{"id": "C181", "title": "A quoted name stands for the same as the quoted string", "statement": "The name of an entry that is written as a string literal is the value of this literal.", "quantifier": "every string literal", "why_tests_cant": "The two are computed by different code; tests use double quotes.", "anchors": ["examples/oak-von/src/builder/mod.rs#build_field", "examples/oak-von/src/builder/mod.rs#build_value"]}
{"id": "C182", "title": "A regular expression is cut into its tokens in exactly one way", "statement": "For every text the lexer gives the tokens that the rules for characters, classes, counts, escapes, groups and comments say.", "quantifier": "every text of Unicode scalar values", "why_tests_cant": "The rules for classes and counts emit several tokens and roll back on failure; tests look at a few patterns.", "anchors": ["examples/oak-regex/src/lexer/lex.rs#run", "examples/oak-regex/src/lexer/lex.rs#lex_character_class", "examples/oak-regex/src/lexer/lex.rs#lex_quantifier"]}
{"id": "C183", "title": "The tokens of a regular expression cover its text once", "statement": "Every byte of the text is in exactly one token.", "quantifier": "every text of Unicode scalar values", "why_tests_cant": "A rollback that does not take back its tokens is seen only on broken input, which tests do not give.", "anchors": ["examples/oak-regex/src/lexer/lex.rs#lex_quantifier", "examples/oak-regex/src/lexer/lex.rs#run"]}
{"id": "C184", "title": "The value of a regular expression says what the expression says", "statement": "The builder gives a value for a well-formed expression, and the value determines the expression.", "quantifier": "every text of Unicode scalar values", "why_tests_cant": "Which texts have a value, and which value, is a question about all texts.", "anchors": ["examples/oak-regex/src/builder/mod.rs#build_root", "examples/oak-regex/src/builder/mod.rs#build_pattern", "examples/oak-regex/src/builder/mod.rs#build_pattern_element"]}
{"id": "C185", "title": "The tree of a regular expression has its text and its structure", "statement": "Alternatives nest to the left with the bars between them, and the tree has every token of the text once.", "quantifier": "every text of Unicode scalar values shorter than 2 GiB", "why_tests_cant": "Operator nesting is for chains of any length; duplicated and dropped tokens need a comparison of every tree with its text.", "anchors": ["examples/oak-regex/src/parser/mod.rs#prefix", "examples/oak-regex/src/parser/mod.rs#infix", "projects/oak-core/src/parser/pratt.rs#parse"]}
{"id": "C186", "title": "Parsing a regular expression ends with a tree", "statement": "For every text the parser returns a tree and does not panic.", "quantifier": "every text of Unicode scalar values shorter than 2 GiB", "why_tests_cant": "Absence of panics is universal over inputs, and the failing input is nested thirty levels.", "anchors": ["examples/oak-regex/src/parser/mod.rs#parse", "projects/oak-core/src/tree/green_tree.rs#GreenNode::new"]}
{"id": "C187", "title": "A Lua text is cut into its tokens in exactly one way", "statement": "For every text the lexer gives the tokens that the rules of Lua for blanks, comments, strings, numbers, words and marks say, and each byte is in one of them.", "quantifier": "every text of Unicode scalar values", "why_tests_cant": "Longest marks, escapes, unclosed strings and keyword boundaries combine freely; tests look at a few programs.", "anchors": ["examples/oak-lua/src/lexer/mod.rs#run", "examples/oak-lua/src/lexer/mod.rs#lex_comment", "examples/oak-lua/src/lexer/mod.rs#lex_string", "examples/oak-lua/src/lexer/mod.rs#lex_number"]}
{"id": "C188", "title": "The tree of a Lua text has the whole text", "statement": "The leaves of the tree are the tokens of the text, each once and in order.", "quantifier": "every text and every parse that ends", "why_tests_cant": "Nodes are wrapped around earlier nodes while operators are read; a lost or doubled token needs a comparison of every tree with its text.", "anchors": ["examples/oak-lua/src/parser/mod.rs#parse_root_internal", "examples/oak-lua/src/parser/mod.rs#parse_statement", "examples/oak-lua/src/parser/mod.rs#infix"]}
{"id": "C189", "title": "A correct Lua program is parsed without diagnostics", "statement": "Parsing a program that follows the grammar reports nothing.", "quantifier": "every text", "why_tests_cant": "That no program at all is parsed cleanly is a statement about all programs.", "anchors": ["examples/oak-lua/src/parser/mod.rs#parse_root_internal", "examples/oak-lua/src/parser/mod.rs#primary"]}
{"id": "C190", "title": "Parsing a Lua text ends", "statement": "For every text the parser returns.", "quantifier": "every text", "why_tests_cant": "An endless loop cannot be observed by a test that ends, and which texts cause one is a question about all texts.", "anchors": ["examples/oak-lua/src/parser/mod.rs#parse_root_internal", "examples/oak-lua/src/parser/mod.rs#primary", "examples/oak-lua/src/parser/mod.rs#parse_block"]}
{"id": "C191", "title": "A Lua program is built to its statements", "statement": "For a text that is a program of statements, build gives exactly these statements, with the grouping that the precedences of the operators say, the texts of the names and the contents of the strings.", "quantifier": "every program of the grammar, however deep and long, with blanks and comments between its tokens", "why_tests_cant": "Precedence, associativity, suffixes, nested blocks and blanks combine without bound; the builder reads offsets, roles and states from the tree that the parser wrapped, which only shows on particular combinations.", "anchors": ["examples/oak-lua/src/builder/mod.rs#build", "examples/oak-lua/src/builder/mod.rs#build_root", "examples/oak-lua/src/builder/mod.rs#build_statement", "examples/oak-lua/src/builder/mod.rs#build_expression", "examples/oak-lua/src/parser/mod.rs#infix", "examples/oak-lua/src/parser/mod.rs#parse_statement"]}
{"id": "C192", "title": "A printed Lua program is a program for the same statements", "statement": "Building the text that to_source writes for the statements of a program gives these statements again.", "quantifier": "every list of statements", "why_tests_cant": "Which of the nestings need parentheses, blanks or escapes is a question about all of them.", "anchors": ["examples/oak-lua/src/ast/mod.rs#to_source"]}
{"id": "C193", "title": "The disk watcher tells every change of a watched path once", "statement": "After any sequence of watch, unwatch, unwatch_all, events and errors, an event leads to one callback for each of its paths at or below a path that is still watched, in order, Changed, Created or Removed as the event says, and nothing else leads to a callback.", "quantifier": "all sequences of calls and events, all sets of paths", "why_tests_cant": "What is still watched depends on the whole history; a test looks at one short history and cannot show that no other one gives a stray or missing callback.", "anchors": ["projects/oak-vfs/src/vfs/watch.rs#DiskWatcher", "projects/oak-vfs/src/vfs/watch.rs#VfsWatcher", "projects/oak-vfs/src/vfs/watch.rs#VfsEvent"]}
{"id": "C194", "title": "SQL tokens are the one division of the text into pieces", "statement": "For every text the SQL lexer gives the tokens of the only division of the text into pieces (white space, line ends, comments, strings, numbers, words, marks), each with its kind and its place, and then the end of the file.", "quantifier": "all texts, all tables of letters and capitals", "why_tests_cant": "Where a number, a string or a comment ends depends on what follows it; a test of some statements cannot show that no other text is cut otherwise or that the lexer stops on all of them.", "anchors": ["examples/oak-sql/src/lexer/mod.rs#SqlLexer", "examples/oak-sql/src/lexer/token_type.rs#SqlTokenType"]}
{"id": "C195", "title": "The SQL parser ends on every text and loses nothing", "statement": "For every text the SQL parser ends with a tree; the leaves of the tree are the tokens of the text in their order, none of them lost.", "quantifier": "all texts", "why_tests_cant": "The parser has loops that skip to a semicolon and loops over lists; that none of them runs for ever and what they leave out is a statement about all token sequences.", "anchors": ["examples/oak-sql/src/parser/mod.rs#SqlParser", "examples/oak-sql/src/parser/mod.rs#parse_root_internal"]}
{"id": "C196", "title": "SQL statements have the tree of the grammar", "statement": "A text that is a list of SQL statements is parsed into the nodes of those statements, operators grouped by level and to the left, without a diagnostic; any other text has a diagnostic.", "quantifier": "all texts of the grammar in SqlSpec.v", "why_tests_cant": "Nesting and operator sequences are unbounded; tests fix a handful of trees.", "anchors": ["examples/oak-sql/src/parser/mod.rs#SqlParser", "examples/oak-sql/src/parser/mod.rs#parse_select", "examples/oak-sql/src/parser/element_type.rs#SqlElementType"]}
{"id": "C197", "title": "A circular layout places every node on the circle, evenly", "statement": "In a circular layout every node is there once with its size, all middles are on the circle of the configured radius, two nodes have the distance of the chord of their share of the circle, and nodes that are small for the circle do not overlap.", "quantifier": "all configurations, all graphs with different node identifiers", "why_tests_cant": "The number of nodes, their sizes and the radius are unbounded, and the distances are values of the sine.", "anchors": ["projects/oak-visualize/src/graph/mod.rs#circular_layout"]}
{"id": "C198", "title": "A radial layout never puts two nodes at one place", "statement": "In a radial layout of a tree every node is there once with its size, the root is in the middle, a node has the distance of its level to its parent, no two nodes have the same middle, and the edges are those of the tree.", "quantifier": "all configurations with a positive level distance, all trees with different identifiers", "why_tests_cant": "That two branches never meet is a statement about trees of every depth and width and about sums of directions.", "anchors": ["projects/oak-visualize/src/tree/mod.rs#radial_layout", "projects/oak-visualize/src/tree/mod.rs#position_radial_children"]}
{"id": "C199", "title": "A balloon layout keeps a tree inside of a circle", "statement": "In a balloon layout of a tree every node is there once with its size, nodes have from their parents a distance that shrinks by three fifths with every level, siblings have the distance of the chord, and nothing is farther from the root than two and a half level distances.", "quantifier": "all configurations, all trees with different identifiers", "why_tests_cant": "The bound is a sum over all levels, for trees of every depth.", "anchors": ["projects/oak-visualize/src/tree/mod.rs#balloon_layout", "projects/oak-visualize/src/tree/mod.rs#position_balloon_children"]}
{"id": "C200", "title": "Force-directed and organic layouts stay within reach", "statement": "In a force-directed or organic layout every node is there once with its size, no middle is farther from the origin than one hundred and the number of iterations times the greatest speed, and exactly the edges between known nodes are drawn, from middle to middle.", "quantifier": "all configurations with a speed that is not negative, all graphs with different identifiers", "why_tests_cant": "The bound must hold after every number of iterations and for all forces, which depend on all positions before.", "anchors": ["projects/oak-visualize/src/graph/mod.rs#force_directed_layout", "projects/oak-visualize/src/graph/mod.rs#organic_layout"]}
{"id": "C201", "title": "The force-directed engine keeps the drawing centred", "statement": "The force-directed engine gives every node once with its size, and the middles of two or more nodes have the origin as their centre, whatever the edges, strengths, damping and number of iterations.", "quantifier": "all engines, all nodes with different identifiers, all edges", "why_tests_cant": "It is an invariant of the simulation, for every number of steps: forces come in opposite pairs.", "anchors": ["projects/oak-visualize/src/layout/mod.rs#ForceDirectedLayout"]}
{"id": "C202", "title": "The hierarchical engine draws in its direction", "statement": "In every direction of the hierarchical engine the node an edge leads to lies beyond the other one in that direction, with the spacing between them; nodes never overlap, and in a graph without closed walks exactly the given nodes are placed.", "quantifier": "all directions, configurations, nodes and edges", "why_tests_cant": "A node that is reached in several ways is placed several times, and the last place counts; that this one is beyond all its parents is a statement about all graphs.", "anchors": ["projects/oak-visualize/src/layout/mod.rs#HierarchicalLayout", "projects/oak-visualize/src/layout/mod.rs#layout_node_left_right", "projects/oak-visualize/src/layout/mod.rs#layout_bottom_up", "projects/oak-visualize/src/layout/mod.rs#layout_right_left"]}
{"id": "C203", "title": "A parser that only bumps keeps every token", "statement": "In a language whose parser only takes the tokens one by one into the root, the leaves of the root are all tokens of the text, each once, in order and with its kind and length; the diagnostics are those of the lexer.", "quantifier": "all languages (what is ignored, kind of the root), all token sequences shorter than 4 GiB in total", "why_tests_cant": "The statement is about every sequence of tokens a lexer may answer and every choice of ignored kinds; a test fixes both.", "anchors": ["examples/oak-dot/src/parser/parse_top_level.rs#parse_root_internal", "examples/oak-idl/src/parser/parse_top_level.rs#parse_root_internal", "examples/oak-erlang/src/parser/parse_top_level.rs#parse_root_internal", "examples/oak-crystal/src/parser/parse_top_level.rs#parse_root_internal", "examples/oak-pascal/src/parser/parse_top_level.rs#parse_root_internal", "projects/oak-core/src/parser/state.rs#bump"]}
{"id": "C204", "title": "A parser that only advances keeps every token", "statement": "In a language whose parser walks over the tokens with advance() and closes the root at the end, the tree covers the text: no token that counts is missing from it without a diagnostic.", "quantifier": "all languages of this kind (27 of the examples), all token sequences shorter than 4 GiB in total", "why_tests_cant": "Which tokens are lost depends on the kinds the language ignores and on their order; that it is always exactly the ones that count is a statement about all token sequences.", "anchors": ["examples/oak-scheme/src/parser/parse_top_level.rs#parse_root_internal", "examples/oak-yaml/src/parser/parse_top_level.rs#parse_root_internal", "examples/oak-graphql/src/parser/parse_top_level.rs#parse_root_internal", "examples/oak-scala/src/parser/mod.rs#parse_root_internal", "projects/oak-core/src/parser/state.rs#advance"]}
{"id": "C205", "title": "A Scheme text is divided into tokens in one way", "statement": "The tokens of a Scheme text in one piece are those of its division into white space, comments to the end of the line, comments in #| |# that may hold each other, string literals with escapes, numbers, words, brackets and marks; every character is in exactly one token, and there is only one such division. Truth values, points and line ends have tokens of their kinds.", "quantifier": "all texts, all tables of letters", "why_tests_cant": "The division is fixed for every text, with comments nested to any depth and any characters in them; tests hold a few.", "anchors": ["examples/oak-scheme/src/lexer/mod.rs#run", "examples/oak-scheme/src/lexer/mod.rs#lex_number_literal", "examples/oak-scheme/src/lexer/mod.rs#lex_identifier_or_keyword", "examples/oak-scheme/src/lexer/mod.rs#lex_single_char_tokens", "projects/oak-core/src/lexer/scan_comment.rs#CommentConfig"]}
{"id": "C206", "title": "A Scheme text has the same tokens in a rope as in a string", "statement": "The tokens of a Scheme text depend on its characters only, not on whether it is held as one string or as a rope in chunks, and so not on the edits it came from.", "quantifier": "all texts, all sources that hold them (strings, ropes after any edits, chunked buffers)", "why_tests_cant": "Where a rope is cut depends on the history of edits; the unit tests lex strings.", "anchors": ["examples/oak-scheme/src/lexer/mod.rs#lex_identifier_or_keyword", "examples/oak-scheme/src/lexer/mod.rs#lex_number_literal", "projects/oak-core/src/lexer/mod.rs#rest", "projects/oak-core/src/source/cursor.rs#rest", "projects/oak-core/src/source/rope.rs#RopeSource"]}
{"id": "C207", "title": "The tree of a Scheme text holds its code", "statement": "The tree that the Scheme parser builds has the words, numbers, strings and brackets of the text as leaves.", "quantifier": "all texts shorter than 4 GiB, all tables of letters", "why_tests_cant": "That nothing of the code is ever in the tree is a statement about all texts; the expected trees of the tests were recorded from the parser itself.", "anchors": ["examples/oak-scheme/src/parser/parse_top_level.rs#parse_root_internal", "examples/oak-scheme/src/lexer/mod.rs#lex", "projects/oak-core/src/parser/state.rs#advance"]}
{"id": "C208", "title": "The workspace has the folders that are open", "statement": "At any time of a session the workspace has exactly the folders the client gave at the start (the root and the folders) or opened since, and has not closed since; the root of a file is one of them, and a file inside one of them has a root.", "quantifier": "all sessions: any root, any folders, any sequence of openings and closings, any way in which addresses stand for paths", "why_tests_cant": "Folders are opened and closed in any order and more than once; tests do one opening.", "anchors": ["projects/oak-lsp/src/workspace.rs#initialize", "projects/oak-lsp/src/workspace.rs#add_folder", "projects/oak-lsp/src/workspace.rs#remove_folder", "projects/oak-lsp/src/workspace.rs#find_root"]}
{"id": "C209", "title": "Drawing a syntax tree shows all of it", "statement": "Visualizing a green or red tree gives one box for every node and token, labelled with its kind and in the order of the text, one line from each node to each of its children, and no two boxes overlap; the counts (nodes, leaves, depth) of the drawing are those of the tree.", "quantifier": "every syntax tree, every position of the red tree, every naming of kinds", "why_tests_cant": "trees are unboundedly deep and wide; a fixed tree shows nothing about the recursion or about boxes colliding in others", "anchors": ["projects/oak-visualize/src/tree/mod.rs: From<&GreenTree>, From<&RedTree>, TreeNode::depth, node_count, leaf_count, TreeLayout::visualize"]}
{"id": "C210", "title": "No two drawn nodes share a name", "statement": "However many threads draw trees at once, the nodes of all their drawings have different identifiers as long as fewer than 2^64 have been handed out.", "quantifier": "every interleaving of any number of threads, every starting value of the counter, every sequence of trees per thread", "why_tests_cant": "a collision needs a particular interleaving or a counter near its end", "anchors": ["projects/oak-visualize/src/tree/mod.rs: NODE_ID_COUNTER, next_node_id"]}
{"id": "C211", "title": "Editing JSON keeps the tree right", "statement": "When a JSON text that was parsed without a diagnostic is edited and parsed again with the old tree, the tree and the diagnostics are those of parsing the new text from scratch; this holds through any number of edits.", "quantifier": "every pair of texts and edits between them (also new texts with errors), every history of edits of JSON texts, every configuration of the lexer", "why_tests_cant": "which old nodes are found again depends on the interplay of the edits, the lexer's look-ahead and the shape of both trees", "anchors": ["examples/oak-json/src/parser/mod.rs: JsonParser::parse, parse_value, parse_object, parse_array", "examples/oak-json/src/lexer/mod.rs: JsonLexer", "projects/oak-core/src/parser/state.rs: try_reuse, incremental_node"]}
{"id": "C212", "title": "An HTML report says what the plain report says", "statement": "The HTML rendering of a diagnostic is a well-formed document whose tag, message, locations, listings and help read exactly as the plain rendering, whatever the source, message, file name and help contain.", "quantifier": "every source, every diagnostic with any labels (also over several lines), every file name", "why_tests_cant": "a test looks at some reports; that no text of a source or message is ever taken for markup, and that the reading of the page is unambiguous, needs a proof over all texts", "anchors": ["projects/oak-diagnostic/src/lib.rs: HtmlEmitter::render_localized, HtmlEmitter::render_snippet, html_escape, PlainTextEmitter::render_localized"]}
{"id": "C213", "title": "The first line of a report tells what was reported", "statement": "The first line of a plain report is the code, or the severity if there is no code, in brackets and then the message; help stands at the end. Two reports without codes that start with the same line have the same severity and message.", "quantifier": "every source, every diagnostic, both character sets, every file name", "why_tests_cant": "tests compare a few reports; nothing rules out two severities or messages being shown alike", "anchors": ["projects/oak-diagnostic/src/lib.rs: PlainTextEmitter::render_localized, Diagnostic, Severity"]}
{"id": "C214", "title": "LLVM IR: the tokens of a text are its division", "statement": "Whatever holds the text, the LLVM IR lexer's tokens are those of the one division of the text into blanks, line ends, comments, local and global variables, metadata, marks, numbers, strings (a backslash takes the next character along, the end of the text ends a string), words and stray characters, followed by an end token without length. Every text without wide letters has such a division. It fails where a word begins with a letter of several bytes: the token has only the first byte.", "quantifier": "every text and source, all tables of letters whose ASCII letters are A-Z and a-z", "why_tests_cant": "The lexer advances by bytes in one place and by characters in others; which texts this breaks needs all texts.", "anchors": ["examples/oak-llvm-ir/src/lexer/mod.rs: run", "examples/oak-llvm-ir/src/lexer/token_type.rs"]}
{"id": "C215", "title": "LLVM IR: what the tree leaves out", "statement": "The LLVM IR parser ends for every text, with a tree and no diagnostic or with exactly one diagnostic and no tree. The leaves of the tree are the pieces of the text in their order, except for blanks and comments at the beginning and for pieces that are neither blank, comment, line end nor global variable and are not the word define. Pieces are in fact left out without a diagnostic, and a declare leaves the whole text without a tree.", "quantifier": "every text with a division, below 4 GiB", "why_tests_cant": "Termination and the fate of each token depend on the whole token sequence.", "anchors": ["examples/oak-llvm-ir/src/parser/parse_top_level.rs: parse_item", "parse_global", "parse_function", "skip_trivia"]}
{"id": "C216", "title": "LLVM IR: printed globals are read back", "statement": "For every list of global variables whose names are names, whose types are one word and whose values are words with one blank between them (no quotes, semicolons or wide letters), the text that to_source writes is read without a diagnostic and the builder gives back exactly these variables. Outside of this the builder changes programs: a comment behind a value becomes part of it, blanks in a string constant are lost and an array type is cut, an equals sign in a comment turns an instruction into the name of a result, and a function is printed with a comma behind an operand type.", "quantifier": "every such list of globals with a printed text below 4 GiB, all tables of letters and digits that are right on ASCII", "why_tests_cant": "The lexer, parser, builder and printer each treat blanks and the end token their own way; that they fit together for every list is not a finite test.", "anchors": ["examples/oak-llvm-ir/src/builder/mod.rs: build_root, build_global, build_function", "examples/oak-llvm-ir/src/ast/mod.rs: to_source"]}
{"id": "C217", "title": "LLVM IR: printed modules are read back", "statement": "For every list of globals and functions in any order whose names and labels are names, whose types are one word and whose operands are words without blank or closing brace that neither begin nor end with a comma (nor have an equals sign where there is no result), where every block but the first of a function has a label: the text that to_source writes is read without a diagnostic, and the builder gives the module back with every parameter, label, result, opcode and operand; so two such modules with one text are the same. Outside of this the module changes: a later block without a label is read into the one before, an operand with a blank comes back as two, one with an equals sign makes the words before it a result, one with a closing brace ends the function, and a global without a name comes back as `unknown`.", "quantifier": "every such module with a printed text below 4 GiB: any number of items, parameters, blocks, instructions and operands of any length; all tables of letters and digits that are right on ASCII", "why_tests_cant": "Blocks have no delimiters of their own: where one ends is decided by look-ahead in the parser and again by cutting texts in the builder. That both agree for all nestings is not a finite test.", "anchors": ["examples/oak-llvm-ir/src/parser/mod.rs: parse", "examples/oak-llvm-ir/src/builder/mod.rs: build_root, build_global, build_function", "examples/oak-llvm-ir/src/ast/mod.rs: to_source"]}
