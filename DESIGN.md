# Formal model of oaks: design

The subject is the Rust workspace in `/repo` (read as text; nothing in it is
built or changed).  The model is written in Coq 8.16.1 under
`rocq/theories` (logical path `Verif`).  Properties are listed in
`properties.jsonl` (ids `C01`, `C02`, ...); `MANIFEST.json` maps them to theorem
names.

## Conventions

* Bytes and code points are `Z`; a Rust `&str`/`String` is the list of its
  UTF-8 bytes (`list Z`); offsets and lengths are `nat`.  A valid string is
  the encoding of a list of Unicode scalar values.  Char boundaries use Rust's
  own test (index 0, the length, or a byte that is not a continuation byte).
* A Rust panic (slicing off a boundary, out of range index, ...) is an
  explicit error value (`None` or a `Panic` constructor), never a default.
* Loops whose termination is not structural carry fuel; running out of fuel is
  an explicit error value which the theorems exclude or prove unreachable.
* Machine integers are modelled as unbounded numbers except where the
  property is about their width (u32 node length, u8 precedence), where the
  modulus is explicit.
* Each area has up to four files: `XModel.v` (transcription of the Rust code,
  each definition cites file and lines), `XSpec.v` (independent specification),
  `XProofs.v` (lemmas), `XProps.v` (the property theorems only, each followed
  by `Print Assumptions` and a concrete `Example` satisfying its hypotheses).
* When the statement of a property is false of the faithful model, the
  theorem is named `..._refuted` and exhibits a concrete witness; the property
  is then also proved under the weakest natural extra hypothesis we found and
  that theorem is named `..._partial`.

## Trusted base

* Coq's kernel (including `vm_compute` used for closed examples).
* `Print Assumptions`, which stands after every theorem of the manifest: the theorems of `RingProps.v` (real numbers) list
  three axioms of the standard library, `ClassicalDedekindReals.sig_forall_dec`, `ClassicalDedekindReals.sig_not_dec` and
  `FunctionalExtensionality.functional_extensionality_dep`.  Every other theorem is "Closed under the global context".
* `coqchk` lists what the loaded part of the standard library contains, whether a theorem uses it or not: thirty names.  Besides the
  three above these are `Classical_Prop.classic`, seven parameters of `Coq.ssr.ssrunder.Under_rel` (loaded by `ZifyBool`), and the
  nineteen opaque constants of `Coq.Reals.Rdefinitions` (`RbaseSymbolsImpl`: `R`, `Rabst`, `Rrepr`, `Rquot1`, `Rquot2`, `R0`, `R1`,
  `Rplus`, `Rmult`, `Ropp`, `Rlt` and their `_def` equations; `RinvImpl`: `Rinv`, `Rinv_def`), which the library defines behind
  module signatures.
* The faithfulness of the hand-written model: see "what is modelled" per area.

## Plan per property

| id | modelled code | method |
|----|---------------|--------|
| C01 | `SourceText::apply_edits_range` (stable sort, deltas, reverse `replace_range`) | list induction over sorted edits against a gap-and-replacement specification |
| C02 | same, returned range | same induction, prefix/suffix equality |
| C03 | same | refuted by witness (replacement listed before insertion); proved for insert-only batches and for the good order |
| C04 | `RopeBuffer` (chunkify, split_at, replace_range, apply_edits_range) | refinement: abstraction = concatenation; invariant by induction on the history |
| C05 | `chunk_index`, `text_in_chunks`, `chunk_at` | binary search invariant on cumulative starts |
| C06 | `get_text_in` of the three sources | agreement on in-range boundary ranges; refuted outside |
| C07 | `ChunkedBuffer::push_str`, `snapshot` | invariant by induction over operations |
| C08 | `SourceCursor` scanning functions | loop invariants over the chunk sequence; spec = longest matching prefix of the flat text |
| C09 | `starts_with`, `consume_if_starts_with` | loop invariant |
| C10 | `find_str` | soundness proved; completeness refuted by two chunkings; complete for single chunk |
| C11 | `simd.rs` | block loop = scalar scan, induction over blocks |
| C12 | `SourceBuffer` | induction over pushes |
| C13 | `find_char_from` | loop invariant |
| C14 | `StringConfig::scan` | equality with a spec automaton |
| C15 | `CommentConfig::scan`, `scan_line_comment`, `scan_block_comment` | equality with a bracket-depth spec |
| C16 | `advance_if_dead_lock` loops | well-founded progress measure |
| C17 | `new_with_cache` | list induction; truncation case refuted |
| C18-C22 | green/red trees, cursor, visitor | structural induction |
| C23-C25 | `ParserState` operations | invariant over operation sequences; refutations for `advance*` and diagnostics rollback |
| C26-C28 | incremental reuse | offset mapping lemma over edits; refutations |
| C29 | `ParseSession` generations | state machine invariant and a refuting history |
| C30-C31 | Pratt parser | correctness and uniqueness of precedence-respecting trees; refutation for non-associativity |
| C32 | `deep_clone_node` | structural induction; metadata refutation |
| C33-C36 | arena, chunk pool, metadata | invariants over allocation histories |
| C37-C39 | `LineMap` | round trip over UTF-8/UTF-16; refutation past end of line |
| C40-C41 | `MemoryVfs`, `list_all_files` | state machine invariant; refutation for directory roots |
| C42-C46 | `Printer` | induction over documents |
| C47 | `RuleSet` | stable sort = order by priority and registration number |
| C48-C51 | symbol table, document symbols, references, find_root | invariants / structural induction |
| C52-C56 | highlighter and exporters | structural induction, round trips |
| C57 | `to_diagnostic` | case analysis |
| C58 | `LineBuffer`, the key loop of `OakRepl::run` | refinement of an editor on characters; refuted off ASCII |
| C59 | `McpServer::run`, `handle_request`, derived `Deserialize` | induction over lines; JSON-RPC messages as a spec |
| C60-C64 | graph algorithms, layouts, transforms | graph search invariants; exact arithmetic |
| C65-C67 | JSON lexer and parser | progress/tiling invariant; refutations |
| C68 | `RopeBuffer::replace_range` off boundaries; `SourceText::apply_edits_range` on any batch | refuted by witness; the flat text accepts a batch iff each edit is in range and on boundaries (invariant over the reverse pass: the text before the next edit is still the old one); for the rope, the seams of the chunk list after each split give where the two ends land |
| C69 | `find_str` side effect | refuted on chunked text; proved on contiguous text |
| C70 | scanning/searching loops off boundaries | divergence for every fuel; termination on boundaries |
| C71 | `WhitespaceConfig::scan`, `scan_ascii_identifier` | longest-run specification |
| C72 | scanners + guard | loop invariant: ordered tokens |
| C73 | `new_with_cache` against a recogniser | induction over the token list; refuted for end-of-stream tokens |
| C74 | `ParserState::new` + checkpoint idiom | corollary of losslessness; refuted by leading trivia |
| C75 | incremental against full parsing; GramModel: grammars as programs over ParserState | refuting history; derivations: every node of the old tree is a derivation that fits into the new text, simulation of the full parse by the incremental one |
| C76 | `peek_non_trivia_at` | induction over the token list |
| C77 | two-step `alloc_raw` | invariant over schedules for exclusive ones, refuting interleaving for the rest |
| C78 | end of a thread | refuting history |
| C79 | identity tables of `DiskVfs` | refuted for every history; the contents after any history by induction on it |
| C42 | `Printer` (all of printer.rs) | the output equals the joined lines of a declarative layout relation; refuted exactly with trimming |
| C43 | `will_break`, `check_width`, `render` | width prediction = `fits`; induction on layouts; refuted for character widths |
| C44 | same | number of line feeds bounded below by forced positions |
| C45 | `newline`, `finalize` | decomposition of the output at line endings; refuted for texts with line feeds |
| C46 | `finalize` | comparison with the output without the option |
| C80 | `Line` | refuted by the documented example |
| C81 | `Formatter`, built-in rules | induction on trees, tiling of leaf spans |
| C82 | same | structural induction for trees without containers, statements, commas; refuting pair of trees |
| C83 | `FormatContext` | refuted for tokens; proved for nodes |
| C84 | `FormatContext::new`, `process_comments` | refuted |
| C48 | `GlobalSymbolTable` | induction on histories; refuted for shared names |
| C49 | `collect_symbols` | induction on trees against a listing with surroundings |
| C50 | `SimpleReferenceFinder` | visitor order and tiling of leaves |
| C51 | `find_root` | loop invariant; paths as name lists; refuted for redundant slashes |
| C85 | `definition` | refuted by a nested reference; proved for direct children; the module of a definition |
| C86 | `query` | refuted; exact for calm histories |
| C87 | `document_symbols` of the service | refuted; proved that an unparsed file has none |
| C88 | `resolve`, `initialize`, `add_folder` | induction on the roots; refuted for added folders |
| C52 | `HighlightVisitor`, `highlight` | induction on trees; tiling of leaves |
| C53 | `resolve_style`, `resolve_styles` | loop lemma on the last dot; fold invariant |
| C54 | both `html_escape` | reader relation proved functional |
| C55 | `json_escape`, `JsonExporter` | RFC 8259 grammar as a relation with values |
| C56 | `AnsiExporter` | reader relation proved functional |
| C89 | `get_token_scopes`, `resolve_styles` | refuted; proved for themes silent about the language |
| C90 | `HtmlExporter` | refuted for hostile colours; proved otherwise |
| C91 | `HtmlExporter` | refuted for classes; injective inline |
| C92 | `to_diagnostic` | refuted for `UnexpectedEof`; proved otherwise |
| C93 | `PlainTextEmitter` | rows of the output as a spec; line maps give the line, UTF-8 facts the column |
| C94 | `PlainTextEmitter` | refuted by a two-line label |
| C95 | `LspEmitter` | from the round trip of line maps; refuted off characters |
| C96 | both emitters | terminal relation `displays`; refuted for several lines |
| C97 | `OakRepl::run` | induction over keys; refuted with backspace |
| C98 | `McpServer::run` | refuted; the lines that are answered characterised on JSON values, all others shown to change nothing |
| C99 | `McpServer::run` | refuted for non-UTF-8; proved for text |
| C100 | `handle_tool_call` | proved for hover and search; refuted for five tools |
| C101 | `handle_tool_call`, tools.json | refuted for two tools; proved otherwise |
| C60 | `find_cycles`, `dfs_cycles`, `get_neighbors` | invariant of the depth-first search; refuted for undirected graphs |
| C61 | `topological_layers` | induction over rounds; the finishing order gives a rank |
| C62 | `is_connected` | search reaches exactly the walks; refuted for directed graphs |
| C102 | `topological_layers` | exact condition; refuted |
| C63 | compact tree layout | induction over trees with an extent for every subtree; refuted for wide parents |
| C64 | `Transform` | ring identities |
| C103 | `Rect` | order reasoning over rationals |
| C104 | `calculate_bounds`, canvas size and offset | least upper bound by induction; order reasoning |
| C105 | layered tree layout | rows disjoint, gaps inside a row by induction; refuted |
| C106 | grid and hierarchical graph layouts | cells disjoint; refuted for large nodes |
| C107 | `HierarchicalLayout` | invariant of the traversal, longest walk bounds the recursion; refuted for cycles |
| C108 | `render_edge`, `add_tree_edges`, straight routing | the picture equals the one without edges; refuted for trees, proved for grids |
| C109 | `render_node` | tag automaton; refuted for unescaped labels |
| C110 | `render_node` | attribute list of the tag; refuted for classes |
| C65 | JSON lexer with its configuration, over sources read in chunks | the text splits into pieces, each a lexeme of a separate grammar; refuted for stray characters |
| C66 | JSON parser over the parser state model | reference parser over token kinds, leaves of the tree |
| C67 | JSON lexer and parser | grammar of token kinds, sound and complete; lifted to RFC 8259 texts; refuted for the other direction |
| C111 | JSON parser with `incremental_node` | the old root's child is found again by the token check (induction over the tiling); two refutations by computation |
| C112 | JSON builder over the JSON parser model; `str::parse::<f64>` is a parameter that accepts all JSON numbers | pieces, tree and value of every text of a separate grammar by mutual induction; refuted by computation elsewhere |
| C113 | `oak_json::parse` | refuted; the texts are not JSON because valid texts have no diagnostics |
| C114 | `to_string` and `oak_json::parse`; `f64::to_string` is a parameter | the text written is in the grammar of C112; a denotation determines the value but for ranges |
| C115 | `JsonObject::get`, `to_source` | induction |
| C116 | to_value and from_value over a universe of types; serde's own implementations and derived code are modelled from its documented data model | induction over types, both directions |
| C117 | derived visitor of structures over MapDeserializer | invariant of the loop over the entries; induction over permutations |
| C118 | tuple visitor over SeqDeserializer | induction over the types |
| C119 | `as f64` as rounding in the standard library's IEEE 754 formalisation | arithmetic on mantissas |
| C120 | to_string and from_str | composition of C114 and C116; reading ignores spans |
| C121 | formatted_text over characters | scan for the closing marker as a fold over pieces; both directions |
| C122 | formatted_text applied to what is read back | counting line feeds and lengths |
| C123 | insert_comments_at_position folded over positions | multiset counting, induction over the walk |
| C124 | insert_trailing_comment, the collector's queries and sort | invariant of the stable sort |
| C125 | process_comments and both insertions | direct |
| C126 | CsvModel: the lexer, on the cursor and lexer state of CursorModel and LexModel | CsvSpec gives the tokens as an inductive relation with what must follow; LangLexProofs proves that a loop whose rounds cut off pieces cuts the text; a reference function shows that the cutting is unique |
| C127 | CsvModel: the configuration | Induction over the cutting |
| C128 | CsvModel: the parser on ParserModel | CsvSpec writes tables and their trees; LangParseProofs turns parser states into kinds and lengths to come and trees so far; induction over rows and cells |
| C129 | CsvModel: the parser | Reference parser on kinds and lengths, each round uses up a token; the end token is never pushed |
| C130 | IniModel: the parser on ParserModel | Every parse function either fails with a diagnostic or uses up tokens and leaves the end token; induction on the tokens to come |
| C131 | IniModel: the lexer over a SourceText | FlatProofs: the lexer state over a SourceText at any byte position; every rule stays or moves on with one token; induction over the rounds |
| C132 | TestModel: the testers over a map of files | Invariant over the files tested: recorded so far and kept by the rest; records are no test files and have different names |
| C133 | as C132 | Invariants on the record of a file; counterexample for the testers that are not strict |
| C134 | as C132, with the behaviour of the subject in time | Counterexamples for every timeout |
| C135 | as C132 | The files found do not change; every recorded file passes |
| C136 | TestModel: to_ast, count_nodes, lexer records | Induction on the tree; counterexamples |
| C137 | SerdeModel: from_value | Case analysis on the JSON value; induction on the entries |
| C138 | ExprModel: the loop of PrattParser::parse with unary, binary, postfix, bracketed primaries and subscripts over ParserModel states | a grouped tree with the same tokens is built by inserting operators along the right edge; the parser reaches every grouped tree (induction on the tree), uniqueness follows from determinism |
| C139 | the same; push_child | induction on the tokens left; witness a[i] for the push_child variant |
| C140 | MacroModel: parsing and expansion of json! over token trees | induction on the written value |
| C141 | the same | witness [1 2] |
| C142 | ErrModel: key and Display of the 23 kinds | keys clash pairwise; messages are taken apart from the right (last colon, last bracket) |
| C143 | with_source_id and clone | cases; witness UnexpectedEof |
| C144 | TomlModel: the lexer over any source | the arms one by one against `toml_token`, induction on the cut |
| C145 | lex_string | instance of C144; witness `a="é"` |
| C146 | lex_number | instance of C144; witnesses |
| C147 | TomlModel over flat sources at any offset | induction on what is left of the text; witnesses |
| C148 | the parser loop over the generic parser state | `sees` invariant; witnesses |
| C149 | DocMacroModel: parsing and expansion of doc! over token trees, with the printer of PrettyModel | mutual induction on the written document; documents that render and measure alike in every context |
| C150 | the same | witness |
| C151 | attribute parsing (syn parse_nested_meta) and the closure of derive(FormatRule) | induction on the entries; witnesses |
| C152 | derive(AsDocument) and the instances of AsDocument | from C149; witnesses |
| C153 | PyModel: the lexer over any source | the scanners one by one against `py_piece`; invariant of the loop with the indentation stack; uniqueness of the cut by cases on the first character |
| C154 | the indentation stack | induction on the pieces with the stack as the level |
| C155 | handle_indentation and the end of the text | induction on program trees; Dedents deferred to the next line that counts |
| C156 | handle_indentation | witnesses |
| C157 | lex_newline, bracket level | the layout with and without the quirk agree; witness |
| C158 | the scanners | instance of C153; witnesses |
| C159 | RuleMacroModel: parse streams of RulesInput and RuleDefinition | induction on the written rules for one direction, on the fuel for the other; inductive relation `rules` as the specification |
| C160 | the loop over the fields | witness |
| C161 | the let chains of the generated functions as scopes | induction on the names; witness |
| C162 | TestConfig::parse | as C159, with the settings |
| C163 | ChunkModel: ChunkCollector over red trees | the collector against the visitor's order (C22's `elements`) |
| C164 | index_code, search | witness |
| C165 | XmlModel: the lexer over a flat source | every rule against `xml_piece` by its view lemma, induction on the cut |
| C166 | the parser over the generic parser state | simulation by functions on pieces, sound and complete for the grammar |
| C167 | parser and builder | the grammar has no way to go on after white space; induction on trees |
| C168 | parser and builder | induction on forests; witnesses |
| C169 | parser and builder | invariant of the trees of the grammar; witnesses |
| C170 | printer, parser and builder | induction on values; witnesses |
| C171 | XmlSerdeModel: `to_value` and `from_value` over the type universe of SerdeModel | induction on types with three invariants (alone, in a field, among several); witnesses |
| C172 | the deserializer | induction on types: all that is read is made of characters and strings |
| C173 | `serialize_value`, `MapDeserializer` | computation at the failing field after any fields that can be written |
| C174 | parser, builder and deserializer | invariant of built values (C169), induction on types |
| C175 | VonModel: the lexer over a flat source | every rule against `von_piece` by its view lemma, induction on the cut |
| C176 | lexer, parser, builder | simulation of the parser by functions on pieces, sound and complete for the grammar; builder by induction on the grammar; witnesses |
| C177 | lexer and parser | invariant of the simulation: the trees cover the used pieces; witnesses |
| C178 | lexer, parser, builder | every slice taken is at the piece it is for; witness |
| C179 | lexer, parser, builder | from the grammar; witnesses |
| C180 | printer, lexer, parser, builder | induction on values: the text is cut into its pieces, which are the value; witnesses |
| C181 | lexer, parser, builder | instances of the grammar for every literal; witnesses |
| C182 | RegexModel: the lexer over a flat source | every rule against `rx_item` by its view lemma; induction on the cut; uniqueness by induction |
| C183 | lexer | the same; witnesses |
| C184 | lexer, parser, builder | shape of the first element of every tree; the builder takes only one shape; witnesses |
| C185 | lexer, parser | induction on the chain; witnesses |
| C186 | lexer, parser | measure on the tokens and a width invariant; induction on the nesting for the panic |
| C187 | LuaModel: the lexer over a flat source | every rule against a pure reader by its view lemma, the readers against `lua_piece` both ways; induction on the cut |
| C188 | LuaModel: the parser with its Pratt parser | every parsing function keeps tokens so far and to come, by induction on the fuel |
| C189 | the same | the same invariant, with a diagnostic owed for the last token |
| C190 | the same | a statement at such a token leaves the tokens to come as they are; induction on the fuel |
| C191 | LuaAstModel: the builder with LuaModel below it | grammar of LuaAstSpec; every parsing function on every form, with what the loops of the builder make of the nodes, by one mutual induction on the grammar |
| C192 | LuaAstModel: the printer | LuaPrintSpec says which programs need no parentheses; by mutual induction their text is cut into pieces of the grammar of C191, with the character that may follow each part; the rest by programs computed |
| C193 | WatchModel: the handler of events and the three calls, over a set of watched paths for notify | invariant: the set is that of the paths watched according to the history; the calls are the unique list that the specification allows |
| C194 | SqlModel: the rules of the lexer in their order, over a SourceText | the lexer is proved equal to a function on characters; its pieces meet the specification, which has one solution |
| C195 | SqlModel: all functions of the parser | each function proved to end on every state of tokens and to keep the order of leaves, by induction on the tokens that are left |
| C196 | SqlModel: all functions of the parser | each production proved to be read exactly, by induction on the grammar; operators with a lemma on levels |
| C197 | RingModel: the circular layout over the real numbers | the chord as a sine; a sine is least at the ends of an interval |
| C198 | RingModel: the radial layout over the real numbers | sums of directions of a sector stay in its cone; cones of different branches are separated by a line; induction on the tree |
| C199 | RingModel: the balloon layout over the real numbers | induction on the tree, triangle inequality, chord |
| C200 | RingModel: the simulation over the real numbers | one step is not longer than the greatest speed; induction on the iterations |
| C201 | RingModel: the engine over the real numbers, None when zero is divided by zero | the forces of a round add up to nothing; so do the velocities; the first places are the corners of a regular polygon |
| C202 | SideModel: the engine in all four directions | what an edge leads to is inserted later, and what is inserted later lies farther down; the drawing from the left is the one from the top turned over |
| C203 | BareModel: the loop of bump, any language | induction over the tokens to come; leaves compared with the tokens one by one |
| C204 | BareModel: the loop of advance, any language | the same induction; the leaves are picked by a relation of their own |
| C205 | SchModel: the lexer over a string | views of the source as lists of characters; a function on lists per rule, compared with the relation of SchSpec in both directions |
| C206 | SchModel: the lexer over any source | the same, with what is at hand as a relation; a rope after one edit as the witness |
| C207 | SchModel: lexer and parser | the exact tree of an advancing parser (C204) over the exact tokens (C205) |
| C208 | SymModel: the folders of the workspace | the events of a session as a history; the map holds the folder exactly when its last event is an opening, by induction over the events |
| C209 | `TreeNode::from`, `depth`, `node_count`, `leaf_count`, `visualize` with the layered layout of GeoModel | induction on trees; the relation `shows` (same shape, kinds as labels) and the subtrees in order; separation from the layered layout since all sizes are equal |
| C210 | `NODE_ID_COUNTER` under any schedule | invariant of the counter modulo 2^64; drawings consume a prefix of what their thread is granted; decimal numerals are injective |
| C211 | the JSON lexer and parser with `incremental_node`, on arbitrary edits | the lexer is local (JsonCutProofs: what a stretch of tokens reads decides it); the parser follows a grammar of the class of C75 where it reports nothing, derivations are deterministic; simulation of the parse from scratch by the parse with the old tree, errors included; induction over histories |
| C212 | `HtmlEmitter`, literally; HTML as an inductive grammar of closed elements, characters and entities (`HtmlDiagSpec.written`) | unambiguity of the grammar by induction, then every piece of the output is shown to be a tree whose visible characters are those of the plain output |
| C213 | `PlainTextEmitter::render_localized` | first line of the output and the line feeds that end snippets |
| C214 | lexer of oak-llvm-ir (`LlModel`) | division of the text by `ll_piece` (`LlSpec`); each round of the lexer takes the piece the reference takes; uniqueness and existence of the division; witness for wide letters |
| C215 | parser of oak-llvm-ir (`LlModel`) | invariant on the parser state (tokens taken, tokens kept, diagnostics) through every parsing function, with the number of tokens left as measure; witnesses |
| C216 | builder and printer of oak-llvm-ir (`LlModel`) | division of the printed text, run of the parser over it item by item (`item_run`, `items_run`), value built from each item's place in the text; four witnesses |
| C217 | parser, builder and printer of oak-llvm-ir, functions included (`LlModel`) | parser runs over parameters, blocks and instructions (`body_run`, `function_run`), builder over their places in the text, induction over the items (`module_round`); five witnesses |

## What is modelled, per area

* **Edits** (`Edit*.v`): `SourceText::apply_edits_range` in oak-core/source/text.rs; byte strings, panics on bad ranges.
* **Ropes** (`Rope*.v`): `RopeBuffer` with the chunk size as a parameter; reference counting is not modelled (snapshots are values).
* **SIMD scanning** (`Simd*.v`, `ScanSpec.v`): lane-wise comparison of blocks with a scalar tail.
* **Cursors and searching** (`Cursor*.v`, `SearchProofs.v`): `SourceCursor` over any chunked source.
* **Buffers** (`Buffer*.v`): `ChunkedBuffer`, `SourceBuffer`, text access of the three sources.
* **Lexer** (`Lex*.v`): lexer state, string/comment/whitespace/number/identifier scanners, the dead-lock guard, relexing with a cache.
* **Trees** (`Tree*.v`): green and red trees, cursors, visitors; arena references are values.
* **Parser** (`Parser*.v`, `Pratt*.v`): parser state, checkpoints, incremental reuse, sessions, binary operator precedence.
* **Arena** (`Arena*.v`): bump allocation with chunk pool and metadata handles; addresses are numbers, pointer provenance is not modelled.
* **Line maps and file systems** (`LineMap*.v`, `Vfs*.v`): UTF-16 positions, `MemoryVfs`, identity tables of `DiskVfs`, `list_all_files`.
* **Printer and formatter** (`Pretty*.v`, `Format*.v`): `Document`, `Printer`, `RuleSet`, `Formatter`, the built-in rules.
  Rules are arbitrary functions, but call `format_children` only on their own node.  `LineEnding::Auto` as on non-Windows
  systems; `Comment::formatted_text` is abstract.

### Symbols, navigation and workspace folders (SymModel)

Modelled: all of `GlobalSymbolTable`, `StandardResolver`, `UniversalSymbolProvider`, `SimpleReferenceFinder`,
`find_root`, `is_within_workspace`, `add_folder`, `remove_folder`, `initialize`, and the default `definition` and
`document_symbols` of the language service.  Parameters: the roles of kinds, the `Debug` name of a kind, the text
of the source (`get_text_in`), `Url` conversions, the file system and `Path::join`/`parent`.  `Path::components` and
`starts_with` are modelled for Unix paths.  Calls do not interleave (the concurrent maps are association lists
whose order is the iteration order).

### Highlighting and its exporters (HiModel, JsonSpec)

Modelled: `resolve_style`, `resolve_styles`, `get_token_scopes`, `HighlightVisitor`, `highlight`, the HTML, JSON and
ANSI exporters, and the `html_escape` of the diagnostics crate.  Texts are lists of characters, sources are UTF-8 bytes.
Parameters: the style chosen for a kind of token, the names of roles.  `HashMap` themes are association lists.
Specifications: ancestors of dotted scopes; what a browser shows (`shows`) and what a terminal shows (`displays`) as
relations; the JSON grammar with values (`JsonSpec`, RFC 8259).  Not modelled: the built-in themes, the CSS exporter
(a constant) and the parsers called by `highlight_with_language`.

### Diagnostics (DiagModel)

Modelled: the labels of `to_diagnostic`, the plain and console emitters without a localizer, and the range of the LSP
emitter.  Errors are reduced to their kind and offset; messages, codes and help texts are arbitrary.  `str::lines` and
`format!("{:>w$}")` are modelled.  Specifications: rows of a report and carets below characters (`marks`), lines of a
text given by splitting it (`line_between`), what a terminal shows (`displays`).  The HTML
emitter is in HtmlDiagModel.  Not modelled: localization, severities of LSP.

### Interactive line editor (ReplModel)

Modelled: `LineBuffer` (bytes, with the panics of `String::insert` and `String::remove`) and the key loop over finite
sequences of keys, for arbitrary handlers with state.  Specification: an editor whose state is the lines of characters
and the characters on both sides of the cursor.  Not modelled: the terminal, its errors, highlighting of the line.

### Tool server (McpModel)

Modelled: the loop over lines, the derived readers of requests and notifications (objects and arrays, repeated and
missing fields), `handle_request`, `handle_tool_call` and the names and required arguments in tools.json.  Parameters:
trimming, reading JSON values from text, integers of numbers, printing of values, and the language service with its
state.  Responses are JSON values; their printing and errors of the output stream are not modelled.

### Graph algorithms (GraphModel)

Modelled: neighbours, degree, connectivity search, cycle search and layering of oak-visualize.  Node identities are
numbers; the node table is a list in any order (its iteration order); edges keep their order.  Positions computed from
the layers are in GeoModel, force-directed and circular layouts in RingModel.

### Geometry and layouts (GeoModel)

Modelled: points, sizes, rectangles and transforms; `Layout` with its bounds; the canvas of the SVG renderer; the compact
and layered tree layouts; the grid and hierarchical graph layouts with straight routing; the hierarchical engine from top
to bottom.  Numbers are exact rationals, so rounding of `f64` and NaN are outside the model.  Node identities are numbers
and the node table is a list.  Circular, force-directed, radial and balloon layouts
are in RingModel, the other directions of the hierarchical engine in SideModel.

### SVG rendering (SvgModel)

Modelled: the SVG renderer with its configuration and styles.  Printing of numbers is a parameter; theorems ask only that
it prints no markup characters.  Export to other formats and interactive features are not modelled.

### The JSON language (JsonModel)

Modelled: the lexer, the parser and the configuration of examples/oak-json, over the models of the lexer state, the parser
state and incremental reuse.  `char::is_alphabetic` and `char::is_alphanumeric` are parameters.  `infinity_and_nan` is read by
neither the lexer nor the parser.  The AST builder is in JsonAstModel, serde support in SerdeModel; the formatter is not modelled.  The specification of JSON
texts is JsonSpec.v (RFC 8259), used also for C-numbers about JSON escapes.

### JSON values (JsonAstModel)

Modelled: the builder of examples/oak-json, `oak_json::parse`, `JsonValue::to_string`, the `ToSource` implementations and `get`.
`f64`, its parser and its printer are parameters.  Error messages, `as_str` and the like and the `From` conversions are not
modelled.

### Conversion by serde (SerdeModel)

Modelled: examples/oak-json/src/serde.rs and `to_string`, `from_str` of lib.rs, for a universe of types: booleans, integers, `f64`,
characters, strings, unit, options, sequences, tuples, maps, structures and enumerations.  What those types call on a serializer, and
which methods their visitors have, belongs to the serde crate and is written from its documentation; it is part of what is trusted.
Not modelled: recursive types, `f32`, 128-bit integers, `serialize_bytes`, serde attributes, error messages.

### Comments (CommentModel)

Modelled: projects/oak-pretty-print/src/comment/mod.rs whole, over the characters of a text.  Not modelled: the debug output of its types.

## CSV (examples/oak-csv)

Modelled: `lexer/mod.rs` whole (with any separator and quote), `parser/mod.rs` and
`parser/parse_top_level.rs`, `lexer/token_type.rs::is_ignored`, on top of the models of the core lexer
and parser state. Not modelled: the builder and AST of oak-csv, its language server, incremental
reparsing of CSV (no `incremental_node` is used by the parser). `LangModel` is the loop shared by the
example lexers; `LangSpec`, `LangLexProofs` and `LangParseProofs` are shared by the example languages.

## INI (examples/oak-ini)

Modelled: `lexer/mod.rs`, `parser/mod.rs`, `parser/parse_top_level.rs` and `is_ignored` of
`lexer/token_type.rs`, over a `SourceText`. Not modelled: the builder, the AST and the language server of
oak-ini, other kinds of source (the lexer leaves character boundaries, where chunked sources would differ).

## Testers (projects/oak-testing)

Modelled: `find_test_files`, `test_single_file`, `run_tests` of lexing.rs, parsing.rs and building.rs over a map from
paths to contents; `to_ast`, `count_nodes`, and the lexer record. The code under test is a function from texts to what
happens in time (an answer, a panic, no end). Not modelled: I/O errors, symbolic links, the pretty-printer of serde_json
(assumed to be read back), what BuilderTester serialises, and files that other programs change meanwhile.

## Expressions with all kinds of operators

`ExprModel.v` models the Pratt loop (pratt.rs) with prefix, postfix and infix operators, brackets and subscripts in the
shape the example languages give their `Pratt` implementations.  Operator tables are arbitrary functions of the token
kind; a kind may be prefix and infix at once (like minus).  The grammar is stated over expression trees (`ExprSpec.v`):
`spelled` gives the tokens, `well` says that every operator on the right edge of a left operand holds on to its operand
and every operator on the left edge of a right operand binds tightly enough.  Argument lists, member access and the error
kinds of individual languages are not modelled.

## The json! macro and the error type

`MacroModel.v` models `json!` (oak-macros/src/json.rs) over Rust token trees; the Rust expression and literal parsers of
syn are parameters.  `ErrModel.v` models `OakErrorKind` with `key`, `Display`, `with_source_id` and `clone` (oak-core
errors/mod.rs, display.rs).  Debug of a path is a parameter assumed injective; boxing, `Debug` and `std::error::Error` are
not modelled.

## TOML

`TomlModel.v` models examples/oak-toml lexer and parser function by function; `TomlSpec.v` says which characters make which
token.  The builder (`todo!`), the syntax tree, the formatter and the services of oak-toml are not modelled.

## doc! and the derive macros

`DocMacroModel.v` models `doc!` (oak-macros/src/doc.rs), the attribute handling and bodies of `derive(AsDocument)`
(to_doc.rs) and `derive(FormatRule)` (format_rule.rs), and the instances in oak-pretty-print/src/to_doc.rs.  The Rust
expression parser and the value of `expr.to_document()` are parameters; generated `impl` headers and patterns that do not
compile are not modelled.  The parsing of `define_rules!` and the test macros of oak-macros are not modelled.

## Python

`PyModel.v` models examples/oak-python/src/lexer/mod.rs function by function (the bracket level, the stack of indentations and the
start-of-line flag are part of the state).  `PySpec.v` says which characters make which piece and how pieces are laid out in lines.
The parser, builder and formatter of oak-python are not modelled.

## Rule and test macros, code chunks

`RuleMacroModel.v` models projects/oak-macros/src/define_rules.rs (parsing, and the scopes of the generated functions) and the
configuration of test.rs; `ChunkModel.v` projects/oak-semantic-search/src/lib.rs.  Not modelled: the bodies of the generated test
functions and the attribute `oak_test` (a thread and a channel); that `_` is not an identifier for syn; Rust keywords other than `if`
as names.

## XML

`XmlModel.v` models examples/oak-xml lexer, parser, builder and `to_string` function by function; `XmlSpec.v` says which
characters make which token and which tokens make a document.  The typed nodes of ast/mod.rs (`XmlNodeExt`) and
the conversion of token kinds to element kinds (a `transmute`) are not modelled.

### XML and serde

`XmlSerdeModel.v` models examples/oak-xml/src/serde.rs and `to_string`/`from_str` of lib.rs over the universe of types of
`SerdeModel.v`; the names of structures are a parameter.

## VON

`VonModel.v` models examples/oak-von lexer, parser, builder and `to_source`/`to_string` function by function; the type of
numbers is a parameter with its reading and writing.  `VonSpec.v` says which characters make which token, which tokens
make a document, and what it means.  The language server of the crate is not
modelled, nor is parsing with an old tree.

## Regular expressions

`RegexModel.v` models examples/oak-regex lexer, parser (a Pratt parser) and builder function by function.
`RegexSpec.v` says which characters make which token, what an ordinary character is, and the trees of alternatives.  The
language server, formatter and highlighter of the crate are not modelled, nor is parsing with an old tree.

## Lua

`LuaModel.v` models examples/oak-lua lexer and parser function by function; the parsing functions are written with a few
combinators (`seq`, `if_eat`, `while_not`, …) that stand for one line of Rust each.  The fuel bounds recursion and loops,
and nothing is said about how much is enough except where a theorem says so.  `LuaSpec.v` says which characters make which
token.  The language server and the highlighter of the crate are not modelled, nor is parsing with an old tree.

`LuaAstModel.v` models the builder and the printer of the crate.  A loop of the builder over the children of a node is a fold
of one step; what a step can ask of a child (its text, or the value it is built to) is computed before the fold, which changes
nothing since the builder has no effects but its result.  Numbers are what `f64::from_str` returns, a parameter of the model;
spans are left out except for the end of the root.  `LuaAstSpec.v` is a grammar from pieces of a text to values, with the
levels of the operators at both ends of an expression instead of a nonterminal for each level.

`WatchModel.v` models the disk watcher.  The library notify is idealised: a set of watched paths, an event delivered with those
of its paths that lie at or below one of them.  Its own limits (a queue that overflows, a watch below another one) are not modelled.

### SQL (`SqlModel.v`, `SqlSpec.v`, `SqlLexProofs.v`, `SqlProofs.v`, `SqlTreeProofs.v`, `SqlProps.v`)

`SqlModel.v` models `examples/oak-sql/src/lexer/mod.rs` and `parser/mod.rs`: all the lexer's rules and all functions of the parser.
Unicode tables (`is_alphanumeric`, `to_uppercase`) are parameters, so that the theorems hold for all of them.  The builder, the
formatter and the language server of this language are not modelled.

### Layouts by angles and by forces (`RingModel.v`, `RingSpec.v`, `RingProofs.v`, `ForceProofs.v`, `RingProps.v`)

Modelled: the radial and the balloon layout of trees, the circular, the force-directed and the organic layout of graphs, and
the force-directed engine of oak-visualize.  Numbers are the real numbers of the standard library, so the theorems about them
rest on its axioms: `ClassicalDedekindReals.sig_forall_dec`, `ClassicalDedekindReals.sig_not_dec` and
`FunctionalExtensionality.functional_extensionality_dep`.  Rounding of `f64` is outside the model, and where zero is divided by
zero the model has no result.  Identities are numbers; a table is the list of its entries.  Labels and kinds of nodes are left
out, and so are the bounds of the layout (they are in GeoModel).

### Directions of the hierarchical engine (`SideModel.v`, `SideSpec.v`, `SideProofs.v`, `SideProps.v`)

Modelled: `layout_left_right`, `layout_bottom_up`, `layout_right_left` and the choice of the direction, on top of GeoModel.

### Parsers without nodes (`BareModel.v`, `BareSpec.v`, `BareProofs.v`, `BareProps.v`)

Modelled: `parse_root_internal` of the example languages whose parser is a single loop of `bump` (eleven) or of `advance` (twenty-seven),
listed with their lines in BareModel.  The lexers are a parameter (the list of tokens), as is the set of ignored kinds; the incremental
mode is not involved, these parsers never ask for old nodes.

### Scheme (SchModel, SchSpec, SchProofs, SchProps)

The lexer (examples/oak-scheme/src/lexer/mod.rs) over any source and any way of asking for the text of a range, rule by rule, with the
shared scanners of LexModel; the parser is the advancing one of BareModel.  `char::is_alphabetic` is a parameter, of which only is
assumed that letters are not white space and that the ASCII ones are A-Z and a-z.  Numbers and words are read from `state.rest()`, which
is what the current chunk still has: on a text in one piece that is everything, on a rope it ends where the rope is cut.  SchSpec says
what the pieces are (comments in comments by an inductive relation over the number that are open) with the part at hand as a relation.
Not modelled: the builder, the highlighter and the language server of Scheme.

### Drawings of syntax trees (DrawModel, DrawSpec, DrawProofs, DrawProps)

The bridge from green and red trees to drawings (oak-visualize/src/tree/mod.rs:13-131) with the counter that all threads share, on top
of GeoModel for the picture.  Left out: the words "node" and "leaf" of the type of a node and its attributes, which rendering ignores.

### Editing JSON texts (JsonCutProofs, JsonIncSpec, JsonIncProofs, JsonIncProps)

The incremental parsing of C75 for the JSON parser as written, including its error recovery: no new model, the lexer and the parser
are those of JsonModel.  JsonIncSpec says what an edited JSON text is and where replacements must not meet white space or comments.  All configurations of the lexer are covered.

### HTML reports (HtmlDiagModel, HtmlDiagSpec, HtmlDiagProofs, HtmlDiagProps)

The HTML emitter of oak-diagnostic is modelled format string by format string.  `written` is a small grammar of HTML
fragments: elements with an optional class attribute, closed in order, and characters written as themselves or as one of five
entities.  It is proved unambiguous, so speaking of *the* tree of an output makes sense.  `reports` reads a report off a tree
by class names only.  Trusted: that browsers read the fragments this grammar covers in the same way.

### LLVM IR (`LlModel`, `LlSpec`, `LlLexProofs`, `LlProofs`, `LlProps`)

Modelled: the lexer (lexer/mod.rs), the parser of items, globals and functions (parser/parse_top_level.rs), the builder (builder/mod.rs)
and `to_source` (ast/mod.rs) of oak-llvm-ir; spans of the syntax tree are left out.  `char::is_alphabetic` and `char::is_alphanumeric`
are parameters.  Not modelled: `as_document`, the highlighter and the language server of this example.

Round trip of globals: `LlBuildSpec` (which globals, tables of letters), `LlBuildProofs`, `LlBuildProps`.

Round trip of modules: `LlBuildSpec` (`good_item`), `LlFunProofs` (parser runs), `LlFunBuild` (text, tokens and builder of functions), `LlModuleProofs`, `LlModuleProps`.

<!-- AREAS -->

## Incremental parsing of grammars (GramModel, GramSpec)

`GramModel.compile` turns a grammar into a program over `ParserState` as the parsers of the example languages are written:
`expect(k)?`, sequences, decisions and loops on `peek_kind`, failures that are ignored (`let _ = …`), and
`incremental_node` around every rule. C75 is proved for these programs. The hypotheses are in GramSpec: `self_contained`
(a syntactic check of the grammar), `local_lexer`, `calm`, `fair`. GramProps shows a language that meets them.

## Not modelled

Trait-only crates (oak-folding, oak-hover, oak-structural-view,
oak-semantic-tokens), the network/LSP transport, the async runtime, SIMD
instruction semantics below "lane-wise comparison", pointer provenance, floating
point rounding in layouts, and the example languages other than those named.
