{"id": "C01", "title": "Input chunking is invisible", "statement": "For a fixed input byte sequence, whether the input decodes, and the exact sequence of characters the library sees, do not depend on how the read handler splits the bytes into chunks: any two handlers that deliver the same bytes (in pieces of any positive sizes, then EOF) give the same decoded characters, the same encoding, and the same success or failure.", "quantifier": "all input byte sequences and all chunkings by the read handler", "why_tests_cant": "The number of ways to chunk an input is exponential in its length and multi-byte characters, BOMs and surrogate pairs may straddle any boundary.", "anchors": ["src/reader.c:yaml_parser_update_buffer", "src/reader.c:yaml_parser_update_raw_buffer", "src/reader.c:yaml_parser_determine_encoding"]}
{"id": "C02", "title": "UTF-8 input is decoded exactly and bad input is rejected", "statement": "For UTF-8 input (no BOM or UTF-8 BOM) the characters the library sees are exactly the Unicode scalar values whose UTF-8 encodings concatenate to the input, and the input is accepted iff it is well-formed UTF-8 (no overlong forms, no surrogates, nothing above U+10FFFF, no truncated character) all of whose characters are in the set YAML allows (TAB, LF, CR, NEL, printable ranges); otherwise a reader error is reported.", "quantifier": "all byte sequences", "why_tests_cant": "256^n inputs; correctness is an iff over every byte sequence.", "anchors": ["src/reader.c:yaml_parser_update_buffer"]}
{"id": "C03", "title": "UTF-16 input is decoded exactly and bad input is rejected", "statement": "For UTF-16LE and UTF-16BE input the characters seen are exactly the scalar values denoted by the code units (surrogate pairs combined), and lone/reversed surrogates, truncated units or disallowed characters give a reader error.", "quantifier": "all byte sequences, both byte orders", "why_tests_cant": "All code unit sequences, including every pair of surrogates, cannot be enumerated together with all positions.", "anchors": ["src/reader.c:yaml_parser_update_buffer"]}
{"id": "C04", "title": "Encoding detection", "statement": "When no encoding is set, a leading FF FE / FE FF / EF BB BF selects UTF-16LE / UTF-16BE / UTF-8 and is removed (and counted in the byte offset); anything else selects UTF-8 and removes nothing, even when the stream is shorter than three bytes or arrives one byte at a time.", "quantifier": "all input byte sequences and chunkings", "why_tests_cant": "Depends on prefix, length and chunking at once.", "anchors": ["src/reader.c:yaml_parser_determine_encoding"]}
{"id": "C05", "title": "Input buffers never overflow and end in exactly one NUL", "statement": "While characters are fetched, for every request size the library uses, the raw input buffer never holds more than its capacity, the decoded buffer never holds more than its capacity, each call to the read handler asks for a positive amount that fits in the free space, the call returns with at least the requested number of characters available or the whole rest of the input followed by one NUL, and the read handler is never called again after it reported end of file.", "quantifier": "all inputs, all chunkings, all sequences of fetch requests of bounded look-ahead", "why_tests_cant": "Overflow would need a particular alignment of buffer fill level, chunk size and multi-byte characters.", "anchors": ["src/reader.c:yaml_parser_update_buffer", "src/yaml_private.h:INPUT_BUFFER_SIZE", "src/yaml_private.h:INPUT_RAW_BUFFER_SIZE"]}
{"id": "C06", "title": "Output bytes are delivered once and in order whatever the flush points", "statement": "With UTF-8 output and a write handler that succeeds, the concatenation of everything passed to the write handler is exactly the sequence of bytes put by the emitter, in order, independent of where internal flushes fall, and the output buffer is never written past its end.", "quantifier": "all sequences of put/copy/line-break/flush operations", "why_tests_cant": "Flush points depend on the accumulated length modulo the buffer size.", "anchors": ["src/writer.c:yaml_emitter_flush", "src/emitter.c:FLUSH", "src/emitter.c:PUT", "src/emitter.c:PUT_BREAK", "src/emitter.c:WRITE", "src/emitter.c:WRITE_BREAK"]}
{"id": "C07", "title": "UTF-16 output decodes to the emitted characters", "statement": "With UTF-16LE/BE output, what is passed to the write handler is the UTF-16 encoding of the characters put in the buffer, and never overruns the raw buffer. (False for characters at or above U+10400 handed to the writer; recorded as refuted together with the part that holds and a proof that the emitter never hands the writer a character above U+FFFF.)", "quantifier": "all sequences of characters in the output buffer", "why_tests_cant": "All characters, all positions, both byte orders.", "anchors": ["src/writer.c:yaml_emitter_flush"]}
{"id": "C08", "title": "String input handler delivers exactly the given bytes", "statement": "A parser set up with yaml_parser_set_input_string hands the library exactly the given bytes once, in order, for any sequence of requested sizes, and then reports end of file; it never reads outside the given buffer.", "quantifier": "all inputs and all sequences of requested sizes", "why_tests_cant": "All request schedules.", "anchors": ["src/api.c:yaml_string_read_handler"]}
{"id": "C09", "title": "String output handler never overruns the caller's buffer", "statement": "An emitter set up with yaml_emitter_set_output_string writes into the caller's buffer exactly the first min(size, produced) bytes of the output, never past size, reports the number written, and fails (so that emit returns an error) as soon as the output does not fit.", "quantifier": "all buffer sizes and all write sequences", "why_tests_cant": "Boundary depends on sums of lengths over a history.", "anchors": ["src/api.c:yaml_string_write_handler"]}
{"id": "C10", "title": "Event constructors validate UTF-8", "statement": "The event and node constructors accept a string argument iff it is a sequence of complete, non-overlong UTF-8 style sequences. (They also accept encoded surrogates and values above U+10FFFF, which are not UTF-8: recorded as refuted.)", "quantifier": "all byte strings", "why_tests_cant": "An iff over all byte strings.", "anchors": ["src/api.c:yaml_check_utf8"]}
{"id": "C11", "title": "Growable buffers behave like unbounded lists", "statement": "Strings, stacks and queues used by the library behave as append-only strings, LIFO stacks and FIFO queues (with positional insert) for any operation sequence: growth preserves contents and order, and every write is within the allocated area; a failed growth leaves the contents unchanged and reports a memory error.", "quantifier": "all operation sequences of any length, with any pattern of allocation failures", "why_tests_cant": "Reallocation points depend on the whole history.", "anchors": ["src/api.c:yaml_string_extend", "src/api.c:yaml_string_join", "src/api.c:yaml_stack_extend", "src/api.c:yaml_queue_extend", "src/yaml_private.h:STRING_EXTEND", "src/yaml_private.h:PUSH", "src/yaml_private.h:ENQUEUE", "src/yaml_private.h:QUEUE_INSERT"]}
{"id": "C12", "title": "Document building API keeps documents well formed", "statement": "yaml_document_add_* returns consecutive ids starting at 1, a node never changes its id, yaml_document_get_node returns a node exactly for ids 1..n, the root is node 1, append operations change only the named collection and only by adding at its end, and every stored child id refers to an existing node.", "quantifier": "all sequences of document API calls", "why_tests_cant": "Invariant over all histories.", "anchors": ["src/api.c:yaml_document_add_scalar", "src/api.c:yaml_document_add_sequence", "src/api.c:yaml_document_add_mapping", "src/api.c:yaml_document_append_sequence_item", "src/api.c:yaml_document_append_mapping_pair", "src/api.c:yaml_document_get_node", "src/api.c:yaml_document_get_root_node"]}
{"id": "C13", "title": "Scanning never reads past the end of input and never underflows", "statement": "For every decoded input the scanner looks only at characters it has requested and that exist (the input followed by one NUL), never skips the terminating NUL, never pops an empty stack and never removes from an empty queue.", "quantifier": "all decoded inputs", "why_tests_cant": "Memory safety for all inputs.", "anchors": ["src/scanner.c:yaml_parser_fetch_more_tokens", "src/scanner.c:yaml_parser_fetch_next_token"]}
{"id": "C14", "title": "Scanning terminates", "statement": "Every call to yaml_parser_scan (and hence parse/load) returns after finitely many steps; scanning any finite input yields finitely many tokens, ending in STREAM-END or in an error.", "quantifier": "all inputs", "why_tests_cant": "Non-termination on some input cannot be excluded by samples.", "anchors": ["src/scanner.c:yaml_parser_scan", "src/scanner.c:yaml_parser_fetch_more_tokens"]}
{"id": "C15", "title": "Token stream is bracketed by STREAM-START and STREAM-END", "statement": "The first token is STREAM-START, a STREAM-END token appears exactly once and last on success, and after STREAM-END or an error no further token is produced.", "quantifier": "all inputs and any number of further calls", "why_tests_cant": "Ranges over all inputs and call histories.", "anchors": ["src/scanner.c:yaml_parser_scan", "src/scanner.c:yaml_parser_fetch_stream_start", "src/scanner.c:yaml_parser_fetch_stream_end"]}
{"id": "C16", "title": "Block structure tokens are balanced", "statement": "In the token stream of any successfully scanned input every BLOCK-END closes exactly one earlier BLOCK-SEQUENCE-START or BLOCK-MAPPING-START, and all of them are closed before any STREAM-END, document indicator or directive in block context (inside an unclosed flow collection the scanner closes nothing).", "quantifier": "all inputs", "why_tests_cant": "Depends on unbounded indentation history.", "anchors": ["src/scanner.c:yaml_parser_roll_indent", "src/scanner.c:yaml_parser_unroll_indent"]}
{"id": "C17", "title": "Implicit keys are short and on one line", "statement": "A KEY token that is not written with '?' is produced only when the key starts on the same line as its ':' and at most 1024 characters before it; a key that must be a key but violates this is an error.", "quantifier": "all inputs", "why_tests_cant": "Ranges over all positions and lengths.", "anchors": ["src/scanner.c:yaml_stale_simple_keys", "src/scanner.c:yaml_parser_save_simple_key", "src/scanner.c:yaml_parser_fetch_value"]}
{"id": "C18", "title": "Marks are faithful positions", "statement": "The index of every mark equals the number of characters consumed from the start of the input, and the line/column equal the number of line breaks before it and the number of characters since the last one (for input that does not start with an unstripped BOM).", "quantifier": "all inputs and all token positions", "why_tests_cant": "A relation for all inputs.", "anchors": ["src/scanner.c:SKIP", "src/scanner.c:SKIP_LINE", "src/scanner.c:READ", "src/scanner.c:READ_LINE"]}
{"id": "C19", "title": "Directive version numbers cannot overflow", "statement": "The version numbers scanned from %YAML are at most nine digits long, equal the decimal value written and are below 10^9 so that int arithmetic never overflows; longer numbers are an error.", "quantifier": "all inputs", "why_tests_cant": "Unbounded digit strings.", "anchors": ["src/scanner.c:yaml_parser_scan_version_directive_number"]}
{"id": "C20", "title": "Token sequences are parsed according to the published grammar (soundness)", "statement": "Whenever yaml_parser_parse reaches STREAM-END without error, the sequence of tokens consumed is generated by the grammar stated at the head of parser.c, and the events returned are the ones that derivation denotes. (False in one corner: a KEY with no node in a flow sequence swallows the following VALUE or FLOW-ENTRY, so '[? : : x]' is accepted; recorded as refuted, with soundness proved for every stream without a missing key in a flow sequence pair, and for the grammar that describes the corner.)", "quantifier": "all token sequences (hence all inputs)", "why_tests_cant": "Infinite set of nested token sequences.", "anchors": ["src/parser.c:yaml_parser_state_machine", "src/parser.c:yaml_parser_parse_node"]}
{"id": "C21", "title": "Event streams are well formed", "statement": "For any token source, the events returned by yaml_parser_parse form a prefix of a well-formed stream: STREAM-START, documents (DOCUMENT-START, one node, DOCUMENT-END) and STREAM-END, with sequences and mappings properly nested and mappings containing an even number of nodes; if STREAM-END is returned the stream is complete.", "quantifier": "all token sequences and any number of calls", "why_tests_cant": "Unbounded nesting and histories.", "anchors": ["src/parser.c:yaml_parser_parse", "src/parser.c:yaml_parser_state_machine"]}
{"id": "C22", "title": "Parser never underflows its stacks or dereferences a missing token", "statement": "For any token source, including one that fails at an arbitrary point, no parse step pops an empty state or mark stack, uses a token that is not there, or hits an internal assertion.", "quantifier": "all token sequences, all failure points", "why_tests_cant": "Failure injection at every point of every input.", "anchors": ["src/parser.c:yaml_parser_state_machine", "src/parser.c:PEEK_TOKEN", "src/parser.c:SKIP_TOKEN"]}
{"id": "C23", "title": "Parser makes progress and terminates", "statement": "On every finite token sequence the parser reaches STREAM-END or an error after a number of parse calls bounded linearly by the number of tokens; no state loops without consuming input.", "quantifier": "all token sequences", "why_tests_cant": "Termination for all inputs.", "anchors": ["src/parser.c:yaml_parser_state_machine"]}
{"id": "C24", "title": "Grammar completeness of the parser", "statement": "Every token sequence generated by the grammar in parser.c's header comment is accepted. (False: an empty key in a flow-sequence single-pair mapping, e.g. tokens of '[? : x]' and '[?, a]', is rejected, and so is a VALUE without KEY in a block mapping; recorded as refuted, with completeness proved for the grammar without those productions.)", "quantifier": "all token sequences derivable in the grammar", "why_tests_cant": "Infinite language.", "anchors": ["src/parser.c:yaml_parser_parse_flow_sequence_entry_mapping_key"]}
{"id": "C25", "title": "Tag shorthands are expanded with the directives of their own document", "statement": "A tag handle!suffix in a node event is the prefix bound to handle by that document's %TAG directives (or the built-in bindings for ! and !! unless overridden) followed by the suffix; an unbound handle is an error; bindings never leak into the next document; verbatim tags are unchanged.", "quantifier": "all token sequences", "why_tests_cant": "Unbounded documents and directive sets.", "anchors": ["src/parser.c:yaml_parser_process_directives", "src/parser.c:yaml_parser_append_tag_directive", "src/parser.c:yaml_parser_parse_node"]}
{"id": "C26", "title": "Directive validity", "statement": "A document whose directives contain two %YAML, a %YAML other than 1.1 or 1.2, or two %TAG with the same handle is rejected; DOCUMENT-START events carry exactly the written directives in order.", "quantifier": "all directive token sequences", "why_tests_cant": "Unbounded directive lists.", "anchors": ["src/parser.c:yaml_parser_process_directives"]}
{"id": "C27", "title": "Nothing is parsed after the end or after an error", "statement": "Once yaml_parser_parse has returned STREAM-END or failed, every later call succeeds with an empty event, consumes nothing and changes nothing.", "quantifier": "all inputs, any number of later calls", "why_tests_cant": "Histories.", "anchors": ["src/parser.c:yaml_parser_parse", "src/scanner.c:yaml_parser_scan"]}
{"id": "C28", "title": "Loaded documents are well formed", "statement": "A document returned by yaml_parser_load has its root as node 1 (or no nodes at end of stream), every child id in 1..n, every mapping pair complete, every node except the root is a child of some collection, and node i+1 was begun after node i.", "quantifier": "all event sequences produced by a parser", "why_tests_cant": "All documents.", "anchors": ["src/loader.c:yaml_parser_load", "src/loader.c:yaml_parser_load_node_add", "src/loader.c:yaml_parser_load_nodes"]}
{"id": "C29", "title": "Aliases resolve to the anchored node", "statement": "In a loaded document an alias yields the id of the node carrying that anchor earlier in the same document (possibly an enclosing one); an undefined alias or a duplicated anchor is a composer error; anchors never leak from one document to the next.", "quantifier": "all event sequences", "why_tests_cant": "All documents.", "anchors": ["src/loader.c:yaml_parser_register_anchor", "src/loader.c:yaml_parser_load_alias"]}
{"id": "C30", "title": "Loading builds the graph the events describe", "statement": "The node graph built by yaml_parser_load is exactly the one denoted by the events: same kinds, tags (with the documented defaults), values and styles, children in order.", "quantifier": "all well-formed event sequences", "why_tests_cant": "All documents.", "anchors": ["src/loader.c:yaml_parser_load_scalar", "src/loader.c:yaml_parser_load_sequence", "src/loader.c:yaml_parser_load_mapping"]}
{"id": "C31", "title": "Loader assertions", "statement": "yaml_parser_load never hits an internal assertion on any input. (False when called again after a failed load: recorded as refuted; true as long as no earlier call failed.)", "quantifier": "all event sequences and call histories", "why_tests_cant": "All histories.", "anchors": ["src/loader.c:yaml_parser_load", "src/loader.c:yaml_parser_load_document"]}
{"id": "C32", "title": "Dumping terminates and serialises every reachable node once", "statement": "yaml_emitter_dump on any document, including cyclic ones, terminates, emits a well-formed event sequence, serialises each node reachable from the root exactly once and as aliases afterwards, and does not emit unreachable nodes.", "quantifier": "all document graphs", "why_tests_cant": "Arbitrary graphs.", "anchors": ["src/dumper.c:yaml_emitter_dump", "src/dumper.c:yaml_emitter_anchor_node", "src/dumper.c:yaml_emitter_dump_node"]}
{"id": "C33", "title": "Anchors are generated exactly where needed and are unique", "statement": "A node gets an anchor iff it is referenced more than once from the reachable part of the document; distinct nodes get distinct anchors; every alias refers to an anchor already emitted.", "quantifier": "all document graphs", "why_tests_cant": "Arbitrary graphs.", "anchors": ["src/dumper.c:yaml_emitter_anchor_node", "src/dumper.c:yaml_emitter_generate_anchor"]}
{"id": "C34", "title": "Dump then load gives back the same document", "statement": "Composing the events emitted by yaml_emitter_dump for a document with yaml_parser_load's composition yields a document whose graph is isomorphic to the part of the original reachable from the root.", "quantifier": "all document graphs", "why_tests_cant": "Arbitrary graphs, sharing and cycles.", "anchors": ["src/dumper.c:yaml_emitter_dump", "src/loader.c:yaml_parser_load"]}
{"id": "C35", "title": "Emitter accepts exactly well-formed event sequences", "statement": "Starting from a fresh emitter, yaml_emitter_emit returns success for a sequence of events with valid anchors/tags/versions only if the sequence is a prefix of a well-formed stream, and reports an error as soon as a processed event does not fit; internal stacks never underflow.", "quantifier": "all event sequences", "why_tests_cant": "Unbounded nesting.", "anchors": ["src/emitter.c:yaml_emitter_emit", "src/emitter.c:yaml_emitter_state_machine"]}
{"id": "C36", "title": "Event look-ahead neither loses nor reorders events", "statement": "The emitter processes events in exactly the order they were given; buffering never delays an event past the point where the construct it opens is complete, and after STREAM-END (of a well-formed stream) the queue is empty.", "quantifier": "all event sequences", "why_tests_cant": "Histories.", "anchors": ["src/emitter.c:yaml_emitter_emit", "src/emitter.c:yaml_emitter_need_more_events"]}
{"id": "C37", "title": "Double-quoted scalars round-trip", "statement": "For every string of Unicode scalar values, any line width, indentation, unicode setting and starting column, the double-quoted text the emitter writes is scanned back as exactly that string.", "quantifier": "all strings, widths, indents, columns", "why_tests_cant": "Infinite strings, escapes and fold positions.", "anchors": ["src/emitter.c:yaml_emitter_write_double_quoted_scalar", "src/scanner.c:yaml_parser_scan_flow_scalar"]}
{"id": "C38", "title": "Plain scalars round-trip", "statement": "Whenever the emitter chooses the plain style for a string, the text it writes in that context is scanned back as one plain scalar with exactly that value.", "quantifier": "all strings allowed plain, all widths, contexts", "why_tests_cant": "All strings.", "anchors": ["src/emitter.c:yaml_emitter_analyze_scalar", "src/emitter.c:yaml_emitter_write_plain_scalar", "src/scanner.c:yaml_parser_scan_plain_scalar"]}
{"id": "C39", "title": "Single-quoted scalars round-trip", "statement": "Whenever the emitter chooses the single-quoted style for a string, the text it writes is scanned back as exactly that string.", "quantifier": "all strings allowed single-quoted, all widths", "why_tests_cant": "All strings.", "anchors": ["src/emitter.c:yaml_emitter_write_single_quoted_scalar", "src/scanner.c:yaml_parser_scan_flow_scalar"]}
{"id": "C40", "title": "Literal scalars round-trip", "statement": "Whenever the emitter chooses the literal style, the text it writes (with its indentation and chomping hints) is scanned back as exactly that string.", "quantifier": "all strings allowed as block scalars, all indents", "why_tests_cant": "All strings.", "anchors": ["src/emitter.c:yaml_emitter_write_literal_scalar", "src/emitter.c:yaml_emitter_write_block_scalar_hints", "src/scanner.c:yaml_parser_scan_block_scalar"]}
{"id": "C41", "title": "Folded scalars round-trip", "statement": "Whenever the emitter chooses the folded style, the text it writes is scanned as one folded scalar that ends where the text ends, and its value is exactly the string unless a line that starts with a space had to be folded (the line reaches beyond the width before a single space inside it); in that case, and only then, the value is another string.", "quantifier": "all strings allowed as block scalars, all widths and indents", "why_tests_cant": "All strings.", "anchors": ["src/emitter.c:yaml_emitter_write_folded_scalar", "src/scanner.c:yaml_parser_scan_block_scalar"]}
{"id": "C42", "title": "Tags round-trip", "statement": "The text the emitter writes for a tag is scanned and resolved back to the same tag unless it is abbreviated with a directive and what is left behind the prefix contains ',', '[' or ']'; in that case, and only then, it is rejected or resolved to another tag.", "quantifier": "all tags and tag directive sets", "why_tests_cant": "All strings.", "anchors": ["src/emitter.c:yaml_emitter_analyze_tag", "src/emitter.c:yaml_emitter_write_tag_content", "src/scanner.c:yaml_parser_scan_tag", "src/scanner.c:yaml_parser_scan_tag_uri"]}
{"id": "C43", "title": "Implicit keys written by the emitter satisfy the scanner's limits", "statement": "Every key the emitter writes as a simple key occupies one line and fewer than 1024 characters, so that the scanner accepts it as a key.", "quantifier": "all keys", "why_tests_cant": "All strings.", "anchors": ["src/emitter.c:yaml_emitter_check_simple_key", "src/scanner.c:yaml_stale_simple_keys"]}
{"id": "C44", "title": "Emitter output is legal YAML text in the requested repertoire", "statement": "Every character the emitter writes is one the reader accepts, is never above U+FFFF, and is ASCII when unicode output is not enabled.", "quantifier": "all event sequences with valid strings", "why_tests_cant": "All strings.", "anchors": ["src/emitter.c:yaml_emitter_write_double_quoted_scalar", "src/emitter.c:yaml_emitter_analyze_scalar", "src/reader.c:yaml_parser_update_buffer"]}
{"id": "C45", "title": "No document is lost on emit", "statement": "Each document given to the emitter appears in the output: parsing the output gives back as many documents. (False for an implicit first document whose root is an empty plain scalar: recorded as refuted. Streams with the tags and folded scalars for which C42 and C41 fail are left out.)", "quantifier": "all event sequences", "why_tests_cant": "All documents.", "anchors": ["src/emitter.c:yaml_emitter_emit_document_start", "src/emitter.c:yaml_emitter_check_empty_document"]}
{"id": "C46", "title": "Canonical output round-trips", "statement": "The text emitted in canonical mode for any well-formed event stream is parsed back to the same events (up to styles and implicit flags), with every scalar double quoted and every collection in flow style. (An untagged scalar that is not implicit when quoted comes back with the tag '!': recorded as refuted. Tags for which C42 fails are left out.)", "quantifier": "all well-formed event streams", "why_tests_cant": "Unbounded trees and strings.", "anchors": ["src/emitter.c:yaml_emitter_emit", "src/parser.c:yaml_parser_parse", "src/scanner.c:yaml_parser_scan"]}
{"id": "C47", "title": "Emitter settings are normalised", "statement": "After the first event the indentation is in 2..9, the width is larger than twice the indentation (or unlimited), a line break kind and an encoding are set, whatever values were requested.", "quantifier": "all int settings", "why_tests_cant": "All ints.", "anchors": ["src/api.c:yaml_emitter_set_indent", "src/api.c:yaml_emitter_set_width", "src/emitter.c:yaml_emitter_emit_stream_start"]}
{"id": "C48", "title": "Byte level character tests agree with characters", "statement": "On any valid UTF-8 text, the byte-level tests and moves the library uses (blank, break, NUL, BOM, printable, alphanumeric, width, copy, move) classify and advance exactly one whole character.", "quantifier": "all characters and all following bytes", "why_tests_cant": "All characters with all continuations.", "anchors": ["src/yaml_private.h:IS_BREAK_AT", "src/yaml_private.h:IS_PRINTABLE_AT", "src/yaml_private.h:WIDTH_AT", "src/yaml_private.h:COPY"]}
{"id": "C49", "title": "Line break normalisation", "statement": "In the value of any scalar the library reads a line break written as CR, LF, CR LF or NEL appears as LF, and LS/PS appear unchanged, so that switching line ending conventions of a text does not change any scalar's value.", "quantifier": "all inputs", "why_tests_cant": "All texts.", "anchors": ["src/scanner.c:READ_LINE"]}
{"id": "C50", "title": "A write failure is reported", "statement": "If the write handler fails while an event is being emitted, yaml_emitter_emit (or flush) returns failure with a writer error; success is never reported for bytes the handler refused.", "quantifier": "all event sequences and all failure points of the write handler", "why_tests_cant": "Failure injection at every point.", "anchors": ["src/writer.c:yaml_emitter_flush", "src/emitter.c:yaml_emitter_emit"]}
{"id": "C51", "title": "Tokens do not depend on how the input is delivered", "statement": "For a readable input, the tokens (with their marks) and the outcome of scanning depend only on the characters of the input: not on how the read handler cuts it into pieces, and so not on how far the reader has read ahead at any call of yaml_parser_scan.", "quantifier": "all texts and all pairs of read-ahead histories", "why_tests_cant": "Every way of cutting the input, at every call.", "anchors": ["src/scanner.c:yaml_parser_scan", "src/scanner.c:CACHE", "src/reader.c:yaml_parser_update_buffer"]}
{"id": "C52", "title": "What is emitted is parsed back", "statement": "Under any settings (encoding, canonical, indentation, width, unicode, line break), if a complete stream of documents has been emitted and the write handler has accepted it, the bytes accepted are read, scanned and parsed without error to the same documents: the same structure, anchors, values, directives, and the same tags as far as they are not implied; the encoding is detected. The result is unique. (Tags and folded scalars for which C42 and C41 fail, first documents for which C45 fails and documents deeper than the nesting limit are left out.)", "quantifier": "all document streams, all settings, all ways the handlers cut the bytes", "why_tests_cant": "Unbounded trees and strings, all settings.", "anchors": ["src/emitter.c:yaml_emitter_emit", "src/writer.c:yaml_emitter_flush", "src/reader.c:yaml_parser_update_buffer", "src/scanner.c:yaml_parser_scan", "src/parser.c:yaml_parser_parse"]}
{"id": "C53", "title": "Documents dumped, written and loaded back are the same graphs", "statement": "If documents are passed one after the other to yaml_emitter_dump and the stream is closed, all calls succeed and the write handler accepts everything, then yaml_parser_load on the bytes written returns as many documents, each isomorphic to the part of the original reachable from its root: the same directives, kinds, tags, values, order of children and the same sharing of nodes, including cycles. (Left out as in C52: tags and folded scalars for which C42 and C41 fail, an invisible first document, documents nested deeper than the parser allows.)", "quantifier": "all lists of documents, all settings, all ways the handlers cut the bytes", "why_tests_cant": "Unbounded graphs and strings, all settings.", "anchors": ["src/dumper.c:yaml_emitter_dump", "src/emitter.c:yaml_emitter_emit", "src/writer.c:yaml_emitter_flush", "src/reader.c:yaml_parser_update_buffer", "src/scanner.c:yaml_parser_scan", "src/parser.c:yaml_parser_parse", "src/loader.c:yaml_parser_load"]}
{"id": "C54", "title": "Events own their memory, whatever the allocator answers", "statement": "Whatever requests for memory are refused, a call of yaml_*_event_initialize touches no memory it does not own and frees nothing twice. If it succeeds the new blocks are exactly those that belong to the event, the event holds exactly the values given, and yaml_event_delete gives back exactly these blocks. If it fails, exactly the blocks are allocated that were before (no leak), and the reason is a refusal or a string that is not UTF-8. After any history of creating and deleting events the blocks allocated are those of the events not yet deleted.", "quantifier": "all events, all histories of calls, all patterns of allocation failure", "why_tests_cant": "Every pattern of refused allocations for every event; sanitizers only see the executions that are run.", "anchors": ["src/api.c:yaml_document_start_event_initialize", "src/api.c:yaml_scalar_event_initialize", "src/api.c:yaml_event_delete", "src/api.c:yaml_stack_extend"]}
{"id": "C55", "title": "Documents own their memory, whatever the allocator answers", "statement": "Whatever requests for memory are refused, any history of yaml_document_initialize, yaml_document_add_* and yaml_document_append_* calls touches no memory it does not own and frees nothing twice; the blocks allocated are those allocated before and those that belong to the document; a call that fails leaves the document as it was; without refusals no call fails except for its arguments; yaml_document_delete gives back exactly the blocks of the document.", "quantifier": "all histories of calls, all patterns of allocation failure", "why_tests_cant": "Every pattern of refused allocations in every history.", "anchors": ["src/api.c:yaml_document_initialize", "src/api.c:yaml_document_add_scalar", "src/api.c:yaml_document_append_sequence_item", "src/api.c:yaml_document_delete"]}
{"id": "C56", "title": "A parser owns its memory, whatever the allocator answers", "statement": "Whatever requests for memory are refused and whatever the text is, any program that calls yaml_parser_initialize, yaml_parser_parse and yaml_event_delete any number of times touches no memory it does not own and frees nothing twice. At each point the blocks allocated are those of the parser and of the events not yet deleted. The events returned are those of the calls without refusals, up to the first refusal. yaml_parser_delete at any time gives back exactly the blocks of the parser; a failed yaml_parser_initialize leaves nothing behind.", "quantifier": "all texts, valid or not, all ways the read handler splits them, all histories of calls, all patterns of allocation failure", "why_tests_cant": "Every error path of the parser combined with every pattern of refused allocations and every point of deletion.", "anchors": ["src/parser.c:yaml_parser_parse", "src/parser.c:yaml_parser_parse_node", "src/parser.c:yaml_parser_process_directives", "src/api.c:yaml_parser_initialize", "src/api.c:yaml_parser_delete", "src/api.c:yaml_event_delete"]}
{"id": "C57", "title": "Loading loses no memory unless it is refused memory", "statement": "Whatever requests for memory are refused and whatever the text is, calls of yaml_parser_load touch no memory they do not own and free nothing twice; after deleting the documents and the parser every block allocated on the way is free, except, if a call failed because a request was refused, at most one block or the blocks of one event. The documents loaded before the failure are complete and are those loaded without refusals.", "quantifier": "all texts, valid or not, all ways the read handler splits them, all numbers of calls, all patterns of allocation failure", "why_tests_cant": "Every error path of the loader combined with every pattern of refused allocations.", "anchors": ["src/loader.c:yaml_parser_load", "src/loader.c:yaml_parser_load_nodes", "src/loader.c:yaml_parser_load_scalar", "src/loader.c:yaml_parser_load_sequence", "src/loader.c:yaml_parser_load_mapping", "src/loader.c:yaml_parser_register_anchor", "src/loader.c:yaml_parser_delete_aliases"]}
{"id": "C58", "title": "Programs that load, build, dump and delete documents lose no memory", "statement": "Whatever requests for memory are refused, a program that creates a parser and an emitter and then, in any order, loads documents, builds documents with the yaml_document functions, gives documents to yaml_emitter_dump, deletes documents, opens and closes the emitter and emits events touches no memory it does not own and frees nothing twice. yaml_emitter_dump takes over its document in every case, successful or not; deleting what the program still holds gives back every block, except those that a failed load lost (C57). What the calls do is what the models of loader, documents and dumper on values say.", "quantifier": "all texts, all programs, all patterns of allocation failure, whatever analysing and emitting events does to the stacks and tag directives of the emitter", "why_tests_cant": "Every sequence of calls combined with every pattern of refused allocations; tests free everything at the end of successful runs only.", "anchors": ["src/dumper.c:yaml_emitter_open", "src/dumper.c:yaml_emitter_close", "src/dumper.c:yaml_emitter_dump", "src/dumper.c:yaml_emitter_delete_document_and_anchors", "src/emitter.c:yaml_emitter_emit", "src/emitter.c:yaml_emitter_append_tag_directive", "src/api.c:yaml_emitter_initialize", "src/api.c:yaml_emitter_delete", "src/api.c:yaml_document_delete"]}
{"id": "C59", "title": "Programs that parse and emit events lose no memory", "statement": "Whatever requests for memory are refused, a program that creates a parser and an emitter and then, in any order, parses events, makes events with the yaml_*_event_initialize functions, gives events to yaml_emitter_emit and deletes events touches no memory it does not own and frees nothing twice. yaml_emitter_emit takes over its event in every case, successful or not; deleting what the program still holds gives back every block.", "quantifier": "all texts, all programs, all patterns of allocation failure, whatever analysing and emitting events does to the stacks and tag directives of the emitter", "why_tests_cant": "Every sequence of calls combined with every pattern of refused allocations.", "anchors": ["src/emitter.c:yaml_emitter_emit", "src/emitter.c:yaml_emitter_need_more_events", "src/parser.c:yaml_parser_parse", "src/api.c:yaml_event_delete", "src/api.c:yaml_emitter_delete"]}
{"id": "C60", "title": "Programs that scan lose no memory", "statement": "Whatever requests for memory are refused, a program that initialises a parser on any text, calls yaml_parser_scan any number of times and deletes the tokens and the parser comes to an end, touches no memory it does not own, writes nothing behind the end of a string, stack or queue, frees nothing twice and gives back every block. The tokens it is given are the first ones of those that the text has; it is given all of them, and the same error if the text has one, unless a request was refused; it ends for want of memory only if a request was refused.", "quantifier": "all texts, valid or not, all ways the read handler splits them, all numbers of calls, all patterns of allocation failure", "why_tests_cant": "A leak or overrun shows only for the combination of a text that reaches a piece of code and of one particular refused request in it.", "anchors": ["src/scanner.c:yaml_parser_scan", "src/scanner.c:yaml_parser_fetch_next_token", "src/scanner.c:yaml_parser_scan_tag", "src/scanner.c:yaml_parser_scan_uri_escapes", "src/scanner.c:yaml_parser_scan_block_scalar", "src/scanner.c:yaml_parser_scan_flow_scalar", "src/scanner.c:yaml_parser_scan_plain_scalar", "src/yaml_private.h:STRING_EXTEND", "src/yaml_private.h:JOIN", "src/yaml_private.h:QUEUE_INSERT", "src/api.c:yaml_string_extend", "src/api.c:yaml_string_join", "src/api.c:yaml_token_delete"]}
{"id": "C61", "title": "Documents of a stream are independent", "statement": "Let the line \"...\" that follows a text A be scanned as a DOCUMENT-END outside flow collections, and let any text X follow it in the same stream. The tokens of the whole are those of A and its end marker followed by those X gives as a stream of its own (without STREAM-START), at the same columns and further on in lines and characters; and the whole ends as X alone ends, an error of X being the same error further on. Nothing of A - indentation, open simple keys, directives, anchors, open collections, characters looked at ahead - reaches into X, and nothing of X changes what A gave. The same holds for the events of yaml_parser_parse and the documents of yaml_parser_load, if X begins with a directive or \"---\" or has no document: the documents are those of A, then those X gives alone, then X's end or error.", "quantifier": "for every text A ending in such a marker, every text X, every way the input is cut into pieces and any number of calls", "why_tests_cant": "What could leak from one document into the next is state: an indentation stack, a pending key, a flag. Which state is left depends on the first document; tests try a few pairs of documents.", "anchors": ["src/scanner.c:yaml_parser_fetch_document_indicator", "src/scanner.c:yaml_parser_fetch_more_tokens", "src/scanner.c:yaml_parser_fetch_next_token", "src/scanner.c:yaml_parser_unroll_indent", "src/scanner.c:yaml_parser_scan_to_next_token", "src/parser.c:yaml_parser_parse_document_start", "src/parser.c:yaml_parser_parse_document_end"]}
{"id": "C62", "title": "White space between tokens", "statement": "Between two tokens the scanner passes over exactly: a byte order mark at the beginning of a line, spaces, tabs where they cannot be taken for indentation (in flow context, or on a line on which something has begun), comments up to the end of their line, and line breaks (CR, LF, CR LF, NEL, LS, PS); after a line break in block context, and only then, a simple key becomes possible. Nothing but an error of the reader can stop it there.", "quantifier": "for every text, every position in it, every state of the read buffer and every way the input arrives", "why_tests_cant": "Comments, marks, tabs and breaks combine in any number and order; a character too many that is passed over is silently lost from the data.", "anchors": ["src/scanner.c:yaml_parser_scan_to_next_token"]}
{"id": "C63", "title": "Quoted scalars are read as they are spelled", "statement": "A quoted scalar is accepted if and only if the text between its quotes spells a string by the rules of YAML 1.1, and its value is that string: characters stand for themselves, '' for a quote in single quotes, the escape sequences (no others) for their characters in double quotes, where the code of \\x, \\u and \\U must be that of a Unicode scalar value; blanks inside a line are kept and those around line breaks dropped; a single line feed is a space, and of several the first is dropped, LS and PS being kept; an escaped line break is dropped; no document marker may begin a line. The token ends behind the closing quote.", "quantifier": "for every text, every position in it, every state of the read buffer and every way the input arrives", "why_tests_cant": "The rules interact (escapes, folding, CR LF, markers) over texts of any length; both a wrong value and a wrongly refused text are failures.", "anchors": ["src/scanner.c:yaml_parser_scan_flow_scalar"]}
{"id": "C64", "title": "Plain scalars are read as they are spelled", "statement": "Where a plain scalar begins, it consists of exactly the words that the rules give it: a word goes on to white space, to a ':' before white space, and in flow context to one of , [ ] { }; another word belongs to the scalar unless it begins with '#' or, after a line break, is indented less than the collection demands (in block context) or is a document marker. Blanks between words of a line are kept, line breaks are folded as in quoted scalars. The scanner stops behind the white space after the last word and knows whether that had a line break in it. It fails only with an error of the reader, or at a ':' before an indicator in flow context, or at a tab instead of indentation.", "quantifier": "for every text, every indentation, block and flow context, every state of the read buffer and every way the input arrives", "why_tests_cant": "Where a plain scalar ends is decided by characters ahead, indentation and context; tests cover some combinations.", "anchors": ["src/scanner.c:yaml_parser_scan_plain_scalar"]}
{"id": "C65", "title": "Block scalars are read as they are spelled", "statement": "Behind '|' or '>' come, in either order and each at most once, a sign for the last line breaks and a digit from 1 to 9 for the indentation, then blanks, a comment and a line break. The indentation is the digit counted from that of the enclosing block collection, or else the largest of the columns of the empty lines before the first text, the column of that text, one more than that of the collection, and 1. The value is made of the lines that are indented so far, up to the first text that is less indented or the end: literal scalars keep the line breaks; folded ones turn a single line feed into a space and drop the first of several, except next to lines that begin with a blank; the last break is kept unless the sign is '-', the empty lines behind it only if it is '+'. The scanner fails only with an error of the reader, or at the indentation 0, at other text behind the header, or at a tab instead of indentation.", "quantifier": "for every text, every indentation, every state of the read buffer and every way the input arrives", "why_tests_cant": "Indentation is discovered from text of any length; folding, chomping and empty lines interact in unboundedly many ways.", "anchors": ["src/scanner.c:yaml_parser_scan_block_scalar", "src/scanner.c:yaml_parser_scan_block_scalar_breaks"]}
{"id": "C66", "title": "Anchors and aliases are read as they are spelled", "statement": "Behind '&' or '*' an anchor or alias is read if and only if a name (letters, digits, '-', '_', at least one) stands there with white space or one of ? : , ] } % @ ` behind it. The token has exactly that name and ends behind it; otherwise there is an error.", "quantifier": "for every text, every state of the read buffer and every way the input arrives", "why_tests_cant": "A name may have any length and be followed by anything; a name cut short or a character too many joins the wrong nodes.", "anchors": ["src/scanner.c:yaml_parser_scan_anchor"]}
{"id": "C67", "title": "Tags are read as they are spelled", "statement": "Behind '!' a tag is read if and only if it has one of the forms !<uri>, !name!uri, !uri or '!' alone, with white space (in flow context maybe a comma) behind it, where a uri is made of the URI characters - with , [ ] only in the first form - and of escaped bytes that form sequences beginning and continuing like UTF-8. Handle and suffix are as written, with the escapes decoded, up to the first zero byte. Otherwise there is an error.", "quantifier": "for every text, in block and flow context, every state of the read buffer and every way the input arrives", "why_tests_cant": "The forms are told apart only behind a name of any length, and escapes may stand anywhere in any number.", "anchors": ["src/scanner.c:yaml_parser_scan_tag", "src/scanner.c:yaml_parser_scan_tag_handle", "src/scanner.c:yaml_parser_scan_tag_uri", "src/scanner.c:yaml_parser_scan_uri_escapes"]}
{"id": "C68", "title": "Directives are read as they are spelled", "statement": "Behind '%' a directive is read if and only if the line is YAML, blanks and two numbers of at most nine digits with a '.' between them, or TAG, blanks, a handle (!, !! or !name!), blanks and a prefix, in each case followed by blanks, maybe a comment, and the end of the line. The token has exactly these numbers, or this handle and this prefix (decoded as in tags). Everything else, other directives too, is an error.", "quantifier": "for every text, every state of the read buffer and every way the input arrives", "why_tests_cant": "Numbers, handles, prefixes, blanks and comments have any length and content.", "anchors": ["src/scanner.c:yaml_parser_scan_directive", "src/scanner.c:yaml_parser_scan_directive_name", "src/scanner.c:yaml_parser_scan_version_directive_value", "src/scanner.c:yaml_parser_scan_version_directive_number", "src/scanner.c:yaml_parser_scan_tag_directive_value"]}
{"id": "C69", "title": "The tokens of a text are determined by the text", "statement": "For every text there is at most one sequence of tokens it can be read as under the lexical rules (white space, indicators, anchors, tags, directives, scalars, flow levels, indentation, where '-', '?' and ':' may stand, which nodes before ':' can be keys). If yaml_parser_scan reaches the end of the stream, the tokens it has handed out that are spelled by characters are that sequence; until then they are a beginning of it. If it fails, then because the input cannot be decoded, an INT_MAX limit is exceeded or a required key has no ':', or else the text cannot be read as tokens at all, and is well-formed exactly up to the tokens fetched so far.", "quantifier": "for all texts, all ways the input arrives in the buffer, all depths of nesting and all calls", "why_tests_cant": "Any string is a text; whether the scanner's state (flow level, indentation stack, candidate keys, positions) always agrees with the rules depends on everything read before, without bound.", "anchors": ["src/scanner.c:yaml_parser_fetch_next_token", "src/scanner.c:yaml_parser_fetch_more_tokens", "src/scanner.c:yaml_parser_save_simple_key", "src/scanner.c:yaml_parser_stale_simple_keys", "src/scanner.c:yaml_parser_unroll_indent", "src/scanner.c:yaml_parser_roll_indent", "src/scanner.c:yaml_parser_fetch_value"]}
{"id": "C70", "title": "The nesting limit bounds the nesting of what is accepted", "statement": "With a limit n set by yaml_set_max_nest_level: a block collection is refused exactly if with it at least n collections are open; as long as the parser has refused nothing, fewer than n block collections and at most n + 1024 collections in all are open, in whatever order block and flow collections nest; and no text is refused in which fewer than n collections ever are open. (The documentation says: at most n; the look-ahead for simple keys makes this false in both directions.)", "quantifier": "for every text, limit, encoding and buffering plan, and every sequence of yaml_parser_scan/parse calls", "why_tests_cant": "The test looks at the state of a scanner that has run ahead by an amount that depends on the text; that no arrangement of keys, flow collections and dedents can evade it by more than the look-ahead needs all token histories.", "anchors": ["src/parser.c:67", "src/parser.c:172-174", "src/parser.c:679-717", "src/scanner.c:783-846", "src/scanner.c:1091-1300", "include/yaml.h:1460-1471"]}
{"id": "C71", "title": "Events never nest deeper than the nesting limit allows", "statement": "Whatever the text, the collections open after any number of yaml_parser_parse calls are at least those open in the tokens taken and at most twice as many, so with limit n never more than 2(n + 1024): recursion over the events of a hostile text is bounded. The error that the limit is reached is returned only for a text in which at least n collections are open somewhere. (The documented bound of n nested events does not hold.)", "quantifier": "for every text, limit, buffering plan and every number of yaml_parser_parse calls", "why_tests_cant": "The two uncounted kinds of collections (indentless sequences, single pairs) and the look-ahead can combine in any order and depth; only an invariant over all parser histories excludes that they add up.", "anchors": ["src/parser.c:181-201", "src/parser.c:548-753", "src/parser.c:819-855", "src/parser.c:984-1124", "include/yaml.h:1460-1471"]}
{"id": "C72", "title": "Input that breaks off is never taken for complete input", "statement": "If the read handler fails (or the input stops being decodable) after some part of a text, then what the application has got until then is what the complete text begins with: the characters of the reader, the tokens of yaml_parser_scan, the events of yaml_parser_parse and the documents of yaml_parser_load are each a beginning of those of any complete text with that part in front. The calls end with an error, which is either the reader's or the very error that the complete text gives; STREAM-END is never produced and yaml_parser_load never reports that there are no more documents.", "quantifier": "for every input, every point and call at which the handler fails, every continuation of the text, every buffering plan and number of calls", "why_tests_cant": "Tests let a handler fail at a few places; that no look-ahead, pending simple key, open collection or half-read scalar turns the missing rest into an end of input (or into a different token) has to hold for every cut point of every text.", "anchors": ["src/reader.c:94-132", "src/reader.c:143-471", "src/scanner.c:480-500", "src/scanner.c:742-854", "src/scanner.c:860-1049", "src/parser.c:48-61", "src/parser.c:181-324", "src/loader.c:86-257"]}
{"id": "C73", "title": "The scanner sees the decoded input, however it arrives", "statement": "After any sequence of requests for characters and steps over characters (CACHE, SKIP, SKIP_LINE), the buffer between buffer.pointer and buffer.last holds exactly the UTF-8 form of the next parser->unread characters of what the input bytes stand for, with one NUL behind the last one; a request fails only if the read handler fails or the input cannot be decoded; and the byte that a CHECK_AT inspects is the first byte of the character it is meant for.", "quantifier": "for every input, encoding, behaviour of the read handler (any chunk sizes, failure at any call) and every sequence of steps", "why_tests_cant": "Characters may be cut anywhere by the chunks of the handler and by the two buffers; which characters are in the buffer after a refill depends on all earlier requests and chunks.", "anchors": ["src/reader.c:94-132", "src/reader.c:143-471", "src/scanner.c:486-568", "src/yaml_private.h:138-300"]}
{"id": "C74", "title": "Events carry their true positions, in the order of the text", "statement": "Every event of yaml_parser_parse begins and ends at a position of the text (index, line and column agree), ends not before it begins, and begins not before any earlier event ends; empty nodes, implicit documents and collections without a token of their own included. The marks of a parser error are positions of the text, too.", "quantifier": "for every text, encoding, buffering plan and number of yaml_parser_parse calls", "why_tests_cant": "Marks of events are put together from tokens taken at different calls (properties, indicators, the token after an empty node); that none of them ever goes backwards needs all parser histories.", "anchors": ["src/parser.c:332-1263", "include/yaml.h:140-151"]}
{"id": "C75", "title": "A token stands in the text where its marks say", "statement": "For every token that yaml_parser_scan hands out and that is spelled by characters of the input (indicators, scalars, anchors, aliases, tags, directives, document markers), the text from its start_mark on is a spelling of just this token with this value, and the token ends at its end_mark: where the spelling ends, but for a plain scalar behind its last character that is not white space, for a block scalar at the beginning of the first line that does not belong to it, and for a directive behind its version or prefix, although the scanner has read on.  In particular the character at the start mark of an indicator is the indicator and its end mark is one further; quotation marks are the first and the last character between the marks of a quoted scalar.  A token that no character spells (stream and block collection boundaries, the KEY of an implicit key) is empty.", "quantifier": "for every text, encoding, nesting limit, buffering plan and number of yaml_parser_scan calls", "why_tests_cant": "A mark taken one step too early or late at some branch, or after some history of buffering, is still a position of the text; only a statement over all texts ties it to the characters there.", "anchors": ["src/scanner.c:790-1000", "src/scanner.c:1433-1950", "include/yaml.h:140-151"]}
{"id": "C76", "title": "An event begins and ends with the tokens it is made from", "statement": "The events of yaml_parser_parse are made one after the other from consecutive pieces of the tokens, and take their marks from them: a scalar or collection begins with its first property (anchor or tag) or else with its own token, and ends with the scalar's token, the token that opens the collection, or its last property if nothing follows; a missing node is empty and stands where the indicator in front of it ends or (without indicator, and in flow collections) where the next token begins; a closing event has the extent of its closing token, or is empty where the next token begins; an explicit document begins with its first directive and its start ends with the marker.  So between the marks of the event of a quoted scalar without properties is this scalar in the text, with its quotation marks.", "quantifier": "for every sequence of tokens (hence every text) and every number of yaml_parser_parse calls", "why_tests_cant": "Start and end are put together from tokens of different calls; using the wrong one of two neighbouring tokens gives plausible, ordered positions that only particular combinations of properties, empty nodes and indicators show to be wrong.", "anchors": ["src/parser.c:332-1263", "include/yaml.h:140-151"]}
{"id": "C77", "title": "Documents and nodes carry the marks of what they were made from", "statement": "A document returned by yaml_parser_load has the start mark of its DOCUMENT-START event and the end mark of its DOCUMENT-END event.  Each node has, in the order of the nodes, the marks of the event it was made from: a scalar both marks of its event, a collection the start mark of the event that opens it and the end mark of the event that closes it (not that of a collection within it), whatever aliases and empty nodes are between.  So the marks of nodes are positions of the text within the document, and of two nodes the later one lies behind the earlier one or within it.", "quantifier": "for every text, every document of it, every buffering plan and depth of nesting", "why_tests_cant": "Which node gets the mark of a closing event depends on the loader's stack of open collections after any events before; tests compare marks of a few small documents, if at all.", "anchors": ["src/loader.c:86-132", "src/loader.c:184-257", "src/loader.c:374-544", "include/yaml.h:720-800"]}
{"id": "C78", "title": "A composer error names the node that is wrong, and where", "statement": "If yaml_parser_load fails and the parser has not, the last event read is an alias to an anchor that no earlier node of the document carries, or a node whose anchor an earlier node carries already; parser->problem_mark is the start of this event and, for a duplicate anchor, parser->context_mark is the start of the first node with the anchor.  The marks of any error of yaml_parser_load are positions of the text.", "quantifier": "for every text, every document of it, every buffering plan and number of anchors", "why_tests_cant": "The error is put together from a table filled by all nodes before; tests look at the error of a few short documents, and rarely at its marks.", "anchors": ["src/loader.c:86-132", "src/loader.c:140-178", "src/loader.c:216-292", "src/loader.c:350-368"]}
{"id": "C79", "title": "A parser error says what is wrong, and where", "statement": "If yaml_parser_parse fails and the scanner has not, the events so far are made from the first tokens, and the error describes the tokens behind them.  In a collection where an entry, key or separator is missing, parser->context_mark is the start of the innermost collection that is opened and not closed by the tokens so far, and parser->problem_mark the start of the token that is none of those that may come.  For a node without content, or nested too deeply, the context is the start of the node (with its properties) and the problem the start of the token there; for a tag whose handle is not declared it is the tag, although further tokens have been read.  For directives it is the directive that is repeated or not supported; for a missing document start the token in its place.", "quantifier": "for every sequence of tokens (hence every text), every depth of nesting and every number of yaml_parser_parse calls", "why_tests_cant": "The context comes from parser->marks, a stack that every collection before has pushed to and popped from; an unbalanced push or pop somewhere shows only in the marks of an error after a particular history.", "anchors": ["src/parser.c:163-208", "src/parser.c:332-455", "src/parser.c:549-755", "src/parser.c:760-1206", "src/parser.c:1265-1405"]}
{"id": "C80", "title": "Output into a caller's buffer is complete, or its beginning and an error", "statement": "With yaml_emitter_set_output_string, whatever is emitted: the buffer holds the beginning of the output that an unlimited handler would get, as far as it fits, the rest of the buffer is unchanged, *size_written is the number of bytes of the output in it, and yaml_emitter_emit (or flush) has failed with a writer error just if the output does not fit.  When a complete stream has been emitted without error, the bytes before *size_written are the characters written, in the encoding of the stream.", "quantifier": "for every sequence of events, every setting of the emitter and every size of the buffer", "why_tests_cant": "Where the output is cut into blocks depends on all that was written before, and each block may be the one that does not fit.", "anchors": ["src/api.c:413-477", "src/writer.c:16-141", "src/emitter.c:8-62"]}
