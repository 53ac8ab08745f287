{
 "claims": [
  {
   "property": "C01",
   "status": "proved",
   "theorems": [
    "C01_chunking_invisible",
    "C01_total"
   ],
   "note": "Inputs shorter than MAX_FILE_SIZE; look-ahead requests 1..6000 (the library uses at most 8)."
  },
  {
   "property": "C02",
   "status": "proved",
   "theorems": [
    "C02_utf8_exact",
    "C02_utf8_error"
   ],
   "note": "Both directions of the iff, plus the position of the reported error."
  },
  {
   "property": "C03",
   "status": "proved",
   "theorems": [
    "C03_utf16_exact",
    "C03_utf16_error"
   ],
   "note": "Both byte orders."
  },
  {
   "property": "C04",
   "status": "proved",
   "theorems": [
    "C04_detection",
    "C04_offset"
   ],
   "note": "Including streams shorter than a BOM and any chunking."
  },
  {
   "property": "C05",
   "status": "proved",
   "theorems": [
    "C05_fetch",
    "C05_consume"
   ],
   "note": "Every reachable reader state, handlers may also fail."
  },
  {
   "property": "C06",
   "status": "proved",
   "theorems": [
    "C06_output_exact",
    "C06_output_total"
   ],
   "note": "UTF-8 output; outcomes are total (no store out of bounds)."
  },
  {
   "property": "C07",
   "status": "proved",
   "theorems": [
    "C07_complete_output",
    "C07_utf16_exact",
    "C07_utf16_total",
    "C07_utf16_refuted"
   ],
   "note": "Exact below U+10400, refuted from U+10400 on (writer.c:119) for the writer alone; the emitter never hands over a character above U+FFFF, so its output is exact."
  },
  {
   "property": "C08",
   "status": "proved",
   "theorems": [
    "C08_string_input",
    "C08_string_eof",
    "C08_string_is_handler"
   ],
   "note": ""
  },
  {
   "property": "C09",
   "status": "proved",
   "theorems": [
    "C09_string_output"
   ],
   "note": "Buffer sizes below 2^64."
  },
  {
   "property": "C10",
   "status": "proved",
   "theorems": [
    "C10_check_utf8",
    "C10_check_utf8_refuted"
   ],
   "note": "Exact set accepted; C10_check_utf8_refuted shows that it is larger than UTF-8."
  },
  {
   "property": "C11",
   "status": "proved",
   "theorems": [
    "C11_stack",
    "C11_stack_no_error",
    "C11_queue",
    "C11_string"
   ],
   "note": "Stacks, queues and strings at the level of allocated cells with an arbitrary allocator."
  },
  {
   "property": "C12",
   "status": "proved",
   "theorems": [
    "C12_histories",
    "C12_get_node",
    "C12_get_node_range",
    "C12_root"
   ],
   "note": ""
  },
  {
   "property": "C13",
   "status": "proved",
   "theorems": [
    "C13_safe"
   ],
   "note": "Every sequence of calls, whatever they return."
  },
  {
   "property": "C14",
   "status": "proved",
   "theorems": [
    "C14_returns",
    "C14_finite",
    "C14_ends"
   ],
   "note": "With an explicit bound 4n+2 on the number of tokens."
  },
  {
   "property": "C15",
   "status": "proved",
   "theorems": [
    "C15_first",
    "C15_last",
    "C15_end",
    "C15_stays"
   ],
   "note": ""
  },
  {
   "property": "C16",
   "status": "proved",
   "theorems": [
    "C16_balanced",
    "C16_unclosed_flow_refuted"
   ],
   "note": "C16_unclosed_flow_refuted shows why the claim is restricted to block context."
  },
  {
   "property": "C17",
   "status": "proved",
   "theorems": [
    "C17_implicit_keys",
    "C17_required_keys",
    "C17_required_value"
   ],
   "note": "Every implicit KEY is followed by its node and a VALUE on the same line within 1024 characters; a node where a key is required (first on its line, at the column of the innermost block collection, outside flow collections) has a KEY before it, so the scan fails if that cannot be met. Block scalars, which the code never treats as keys, are excluded."
  },
  {
   "property": "C18",
   "status": "proved",
   "theorems": [
    "C18_token_marks",
    "C18_error_marks",
    "C18_in_order"
   ],
   "note": "Positions are those in the text the reader delivers; BLOCK-END/STREAM-END at the end of an unfinished last line are on the next line (scanner.c:1333)."
  },
  {
   "property": "C19",
   "status": "proved",
   "theorems": [
    "C19_version",
    "C19_too_long"
   ],
   "note": ""
  },
  {
   "property": "C20",
   "status": "proved",
   "theorems": [
    "C20_parser_sound",
    "C20_parser_sound_documented",
    "C20_documented_refuted"
   ],
   "note": "Sound for the grammar parser.c implements; sound for the published grammar except when a flow sequence item is a single pair with a missing key, where C20_documented_refuted exhibits '[? : : a]'."
  },
  {
   "property": "C21",
   "status": "proved",
   "theorems": [
    "C21_events_prefix",
    "C21_events_complete"
   ],
   "note": ""
  },
  {
   "property": "C22",
   "status": "proved",
   "theorems": [
    "C22_no_undefined",
    "C22_parse_all_defined"
   ],
   "note": "The token source is an arbitrary list of tokens followed by a scan failure; refused allocations are the subject of C56."
  },
  {
   "property": "C23",
   "status": "proved",
   "theorems": [
    "C23_calls_bounded",
    "C23_terminates"
   ],
   "note": "At most four events per token."
  },
  {
   "property": "C24",
   "status": "proved",
   "theorems": [
    "C24_complete",
    "C24_complete_implemented",
    "C24_documented_refuted"
   ],
   "note": "Complete for the grammar without the productions the parser rejects, and for the exact implemented grammar; the published grammar is refuted by '[? : a]'."
  },
  {
   "property": "C25",
   "status": "proved",
   "theorems": [
    "C25_tags"
   ],
   "note": ""
  },
  {
   "property": "C26",
   "status": "proved",
   "theorems": [
    "C26_directives_exact",
    "C26_invalid_rejected"
   ],
   "note": ""
  },
  {
   "property": "C27",
   "status": "proved",
   "theorems": [
    "C27_after_end",
    "C27_after_error"
   ],
   "note": ""
  },
  {
   "property": "C28",
   "status": "proved",
   "theorems": [
    "C28_loaded_well_formed"
   ],
   "note": ""
  },
  {
   "property": "C29",
   "status": "proved",
   "theorems": [
    "C29_errors_detected",
    "C29_aliases_resolved",
    "C29_errors_justified"
   ],
   "note": "Both directions: a document fails to compose exactly for these reasons."
  },
  {
   "property": "C30",
   "status": "proved",
   "theorems": [
    "C30_loads_denoted_graph"
   ],
   "note": ""
  },
  {
   "property": "C31",
   "status": "proved",
   "theorems": [
    "C31_no_assertion",
    "C31_at_end",
    "C31_refuted"
   ],
   "note": "True as long as no earlier load failed; C31_refuted shows the assertion failing after a failed load."
  },
  {
   "property": "C32",
   "status": "proved",
   "theorems": [
    "C32_dump",
    "C32_dump_empty",
    "C32_stream"
   ],
   "note": "Documents whose ids are valid (what the API and the loader build); the emitter may fail at any call."
  },
  {
   "property": "C33",
   "status": "proved",
   "theorems": [
    "C33_anchors",
    "C33_anchor_text",
    "C33_anchor_fits"
   ],
   "note": ""
  },
  {
   "property": "C34",
   "status": "proved",
   "theorems": [
    "C34_dump_load"
   ],
   "note": "Composition at the level of events; the tag \"!\" comes back as the default tag, as the loader documents."
  },
  {
   "property": "C35",
   "status": "proved",
   "theorems": [
    "C35_accepts",
    "C35_complete"
   ],
   "note": ""
  },
  {
   "property": "C36",
   "status": "proved",
   "theorems": [
    "C36_waiting",
    "C36_finishes"
   ],
   "note": ""
  },
  {
   "property": "C37",
   "status": "proved",
   "theorems": [
    "C37_double_quoted"
   ],
   "note": "The writer of double-quoted scalars against the scanner's reader of them, for every read-ahead history."
  },
  {
   "property": "C38",
   "status": "proved",
   "theorems": [
    "C38_plain"
   ],
   "note": "The writer of plain scalars against the scanner's reader, in flow and block context, for every string the analysis allows, every continuation that ends a plain scalar and every read-ahead history."
  },
  {
   "property": "C39",
   "status": "proved",
   "theorems": [
    "C39_single_quoted"
   ],
   "note": "As C37, for every string the analysis allows."
  },
  {
   "property": "C40",
   "status": "proved",
   "theorems": [
    "C40_literal"
   ],
   "note": "The writer of literal scalars against the scanner's reader, with hints, for every string the analysis allows and every less indented continuation."
  },
  {
   "property": "C41",
   "status": "proved",
   "theorems": [
    "C41_folded",
    "C41_exact",
    "C41_folded_refuted"
   ],
   "note": "C41_exact: the value read back is the string if and only if no line that starts with a space is folded; C41_folded_refuted is the concrete case where it is not (the emitter folds where it must not)."
  },
  {
   "property": "C42",
   "status": "proved",
   "theorems": [
    "C42_tags",
    "C42_exact",
    "C42_tags_refuted"
   ],
   "note": "C42_exact: the tag read back is the tag written if and only if the abbreviated part has no ',', '[' or ']'; C42_tags_refuted is the concrete case where it has."
  },
  {
   "property": "C43",
   "status": "proved",
   "theorems": [
    "C43_simple_keys",
    "C43_runs"
   ],
   "note": "For every state the emitter reaches, at any point inside a call; keys are nodes of any kind, settings are arbitrary, including indents not normalised. That the scanner takes them for keys is part of C52."
  },
  {
   "property": "C44",
   "status": "proved",
   "theorems": [
    "C44_repertoire",
    "C44_read_back"
   ],
   "note": "Repertoire of everything written for every event sequence with valid strings; the bytes of a complete stream are read back as the same characters."
  },
  {
   "property": "C45",
   "status": "proved",
   "theorems": [
    "C45_no_document_lost",
    "C45_refuted"
   ],
   "note": "C45_refuted: a first document without '---' whose root is an empty plain scalar is lost (the empty text). Streams with tags and folded lines for which C42/C41 are refuted are excluded."
  },
  {
   "property": "C46",
   "status": "proved",
   "theorems": [
    "C46_canonical",
    "C46_tag_refuted"
   ],
   "note": "Through bytes, reader, scanner and parser. Tags whose shorthand suffix has ',', '[' or ']' (C42_tags_refuted) or NUL are excluded; C46_tag_refuted: '!' is added to untagged scalars that are not quoted-implicit."
  },
  {
   "property": "C47",
   "status": "proved",
   "theorems": [
    "C47_settings",
    "C47_kept",
    "C47_unlimited"
   ],
   "note": ""
  },
  {
   "property": "C48",
   "status": "proved",
   "theorems": [
    "C48_tests",
    "C48_position",
    "C48_values",
    "C48_moves",
    "C48_crlf"
   ],
   "note": ""
  },
  {
   "property": "C49",
   "status": "proved",
   "theorems": [
    "C49_line_endings",
    "C49_values",
    "C49_events",
    "C49_documents"
   ],
   "note": "C49_line_endings: two texts that differ only in how their breaks are written (LF, CR, CR LF, NEL) give the same tokens, values, lines, columns and errors (relational simulation of the whole scanner). C49_values: scalar values consist of characters of the text, spaces and line feeds, never CR or NEL, except by escape sequences of double-quoted scalars; LS and PS stay (C49_ls). C49_events, C49_documents: therefore the events (with lines and columns) and the documents loaded are the same too, since parser and loader commute with any change of marks."
  },
  {
   "property": "C50",
   "status": "proved",
   "theorems": [
    "C50_emitter_reports",
    "C50_refusal_reported"
   ],
   "note": "Writer alone, and the emitter with every pattern of refusals."
  },
  {
   "property": "C51",
   "status": "proved",
   "theorems": [
    "C51_delivery_independent"
   ],
   "note": ""
  },
  {
   "property": "C52",
   "status": "proved",
   "theorems": [
    "C52_round_trip",
    "C52_unique"
   ],
   "note": "Through bytes, for every setting. Exclusions as in the statement, each refuted elsewhere (C41_folded_refuted, C42_tags_refuted, C45_refuted)."
  },
  {
   "property": "C53",
   "status": "proved",
   "theorems": [
    "C53_documents",
    "C53_unique"
   ],
   "note": "C53_documents composes the dumper, the emitter, the writer, the reader, the scanner, the parser and the loader: the documents loaded are isomorphic (in UTF-8) to what was dumped; C53_unique: what bytes are loaded as is unique. Hypotheses on the documents are in LoadSpec.v (writable): strings are characters, written tags as in C42's positive part, folded scalars as in C41's, nesting within the limits; the first document is not an invisible one."
  },
  {
   "property": "C54",
   "status": "proved",
   "theorems": [
    "C54_event_call",
    "C54_event_history"
   ],
   "note": "Model of allocated blocks (HeapModel.v): double free, use after free and NULL access are a distinct outcome, the allocator's answers are an arbitrary list. C54_event_call for one call, C54_event_history for any program."
  },
  {
   "property": "C55",
   "status": "proved",
   "theorems": [
    "C55_document_history"
   ],
   "note": "C55_document_history: same model for documents; refines the model of C12 on values, call by call."
  },
  {
   "property": "C56",
   "status": "proved",
   "theorems": [
    "C56_parser_history"
   ],
   "note": "C56_parser_history. Any text: the parser, modelled statement by statement with its allocations, reads its tokens from the scanner of C60 and refines the model of C20-C27."
  },
  {
   "property": "C57",
   "status": "proved",
   "theorems": [
    "C57_loader_history",
    "C57_directives_leak_refuted",
    "C57_items_leak_refuted"
   ],
   "note": "C57_loader_history. The two places where blocks can be lost are shown by C57_directives_leak_refuted and C57_items_leak_refuted."
  },
  {
   "property": "C58",
   "status": "proved",
   "theorems": [
    "C58_document_programs",
    "C58_error_unset_refuted"
   ],
   "note": "C58_document_programs. What analysing and emitting one event does to the stacks and tag directives of the emitter is an arbitrary list of actions. C58_error_unset_refuted: a failing yaml_emitter_dump may leave no error."
  },
  {
   "property": "C59",
   "status": "proved",
   "theorems": [
    "C59_event_programs"
   ],
   "note": "C59_event_programs, under the same representation of the emitter."
  },
  {
   "property": "C60",
   "status": "proved",
   "theorems": [
    "C60_no_leak",
    "C60_same_tokens",
    "C60_memory_only",
    "C60_error_unset_refuted"
   ],
   "note": "C60_no_leak, C60_same_tokens, C60_memory_only: scanner.c statement by statement on allocated blocks with sizes, related to the scanner of C13-C19 by simulation. C60_error_unset_refuted: when the block for a tag handle is refused the call fails without setting an error."
  },
  {
   "property": "C61",
   "status": "proved",
   "theorems": [
    "C61_tokens",
    "C61_events",
    "C61_documents",
    "C61_bare_refuted"
   ],
   "note": "Tokens: no hypothesis on X. Events and documents: X begins with a directive, \"---\" or nothing; C61_bare_refuted shows that a bare document is refused behind a marker."
  },
  {
   "property": "C62",
   "status": "proved",
   "theorems": [
    "C62_between_tokens"
   ],
   "note": "For the function that yaml_parser_fetch_next_token calls before every token. The specification is shown to be functional, so the statement is an equivalence."
  },
  {
   "property": "C63",
   "status": "proved",
   "theorems": [
    "C63_quoted_scalars",
    "C63_one_string"
   ],
   "note": "Both directions. At the function that scans a quoted scalar, from any position and buffer."
  },
  {
   "property": "C64",
   "status": "proved",
   "theorems": [
    "C64_plain_scalars"
   ],
   "note": "An equivalence, and total: every outcome of the function that scans a plain scalar is described; it is called only where the hypotheses hold (C13)."
  },
  {
   "property": "C65",
   "status": "proved",
   "theorems": [
    "C65_block_scalars"
   ],
   "note": "An equivalence, and total: every outcome of the function that scans a block scalar is described."
  },
  {
   "property": "C66",
   "status": "proved",
   "theorems": [
    "C66_anchors"
   ],
   "note": "An equivalence, and total: every outcome of the function that scans an anchor or alias is described."
  },
  {
   "property": "C67",
   "status": "proved",
   "theorems": [
    "C67_tags"
   ],
   "note": "An equivalence, and total: every outcome of the function that scans a tag is described."
  },
  {
   "property": "C68",
   "status": "proved",
   "theorems": [
    "C68_directives"
   ],
   "note": "An equivalence, and total: every outcome of the function that scans a directive is described."
  },
  {
   "property": "C69",
   "status": "proved",
   "theorems": [
    "C69_tokens_of_text",
    "C69_beginning"
   ],
   "note": "An equivalence, and total. The tokens that no character spells (stream and block collection marks, KEY of a key without '?') are the subject of C15 to C22. A required key without ':' is described by its own property."
  },
  {
   "property": "C70",
   "status": "proved",
   "theorems": [
    "C70_block_exact",
    "C70_bounded",
    "C70_refused_deep",
    "C70_documented_limit_refuted",
    "C70_documented_block_limit_refuted"
   ],
   "note": "The documented limit is refuted in both directions (C70_documented_limit_refuted, C70_documented_block_limit_refuted); what the code does guarantee is proved: exact for block collections, at most 1024 too many in all, nothing refused in a text that stays below the limit."
  },
  {
   "property": "C71",
   "status": "proved",
   "theorems": [
    "C71_event_nesting",
    "C71_depth_bounded",
    "C71_limit_error",
    "C71_documented_events_refuted"
   ],
   "note": "The documented limit on nested events is refuted (C71_documented_events_refuted); the bound the code does guarantee is proved for every text and history."
  },
  {
   "property": "C72",
   "status": "proved",
   "theorems": [
    "C72_characters",
    "C72_tokens",
    "C72_events",
    "C72_documents"
   ],
   "note": "C72_characters is about the reader and any plan of handler answers; C72_tokens, C72_events and C72_documents are about a text that ends in a reader error (c_bad of CursorModel.v), for every text without NUL."
  },
  {
   "property": "C73",
   "status": "proved",
   "theorems": [
    "C73_source",
    "C73_peek"
   ],
   "note": "This joins the model of the reader (C01-C05, C72) to the cursor over which the scanner is modelled: for every script of steps the two show the same buffer."
  },
  {
   "property": "C74",
   "status": "proved",
   "theorems": [
    "C74_event_marks"
   ],
   "note": "On top of C18 (marks of tokens). After a failed scan the parser reports the error of the scanner, whose marks are in C18_error_marks."
  },
  {
   "property": "C75",
   "status": "proved",
   "theorems": [
    "C75_in_place",
    "C75_indicators",
    "C75_quotes",
    "C75_plain"
   ],
   "note": "C18 shows that marks are positions of the text, in order; this that the token is spelled there and ends there. C75_indicators, C75_quotes and C75_plain spell this out for some kinds of tokens."
  },
  {
   "property": "C76",
   "status": "proved",
   "theorems": [
    "C76_extents",
    "C76_quotes",
    "C76_quotes_end"
   ],
   "note": "C74 shows that the marks of events are positions in order; this which tokens they come from, and with C75 where those are in the text. The finding that an indicator is skipped in flow sequences (parser.c:1064-1068) shows in sp_missing_behind: the skipped indicator is the one in front of the missing node."
  },
  {
   "property": "C77",
   "status": "proved",
   "theorems": [
    "C77_same_loader",
    "C77_node_marks",
    "C77_nested"
   ],
   "note": "The loader of LoaderModel.v with the marks added (MarkLoaderModel.v); C77_same_loader shows that nothing else changes."
  },
  {
   "property": "C78",
   "status": "proved",
   "theorems": [
    "C78_fault",
    "C78_positions"
   ],
   "note": "C29 shows which loads fail; this what the error says. No bound on the fuel is needed: out of fuel is another outcome."
  },
  {
   "property": "C79",
   "status": "proved",
   "theorems": [
    "C79_blame"
   ],
   "note": "C20 and C24 show which token sequences fail; this what the error says. The marks are positions of the text by C74. An error of the scanner (no next token) is Bl_token and has no marks of the parser."
  },
  {
   "property": "C80",
   "status": "proved",
   "theorems": [
    "C80_string_output",
    "C80_served",
    "C80_complete"
   ],
   "note": "Composition of the emitter, the writer and the string handler (C09). The output that does not fit is compared with the run of a handler that accepts everything (plan []). Buffers below 2^64 bytes."
  }
 ]
}