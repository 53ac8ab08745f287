# Formal model of libyaml in Rocq (Coq 8.16.1)

The source is `/repo` (yaml/libyaml at the pinned commit). Nothing is built or
run from it; the model is a function-by-function reading of the C text. Every
model definition cites the lines it models and says where it simplifies.

## Trusted base

* Coq 8.16.1's kernel (and `coqchk`).
* What `Print Assumptions` prints under each property theorem. The goal is
  "Closed under the global context" for every one of them.
* The reading of the C code into Gallina (see "Modelled / not modelled").

## Representation choices

* Bytes and characters are `N`. Byte strings and character strings are `list N`.
* Undefined behaviour, failed `assert`s and exhausted fuel are distinct
  outcomes of the model (`UB`, `AssertFail`, `OutOfFuel`), never ordinary values;
  safety theorems state that they do not occur.
* A C function mutating `parser`/`emitter` becomes a function returning the new state.
* The reader is modelled on bytes (raw buffer, decoded buffer, chunks). The
  scanner is modelled on the decoded characters that the reader theorems (C01,
  C02, C03, C05) say it sees: the input characters followed by one NUL. The
  byte-level character tests of yaml_private.h are modelled separately and
  proved equivalent to tests on characters (C48), which justifies this.
* The parser is modelled over an arbitrary token source (a finite list of
  tokens, then end or scan error); the scanner does not depend on parser state.
* The emitter writes a list of characters; the buffer/flush mechanics are a
  separate model (C06, C07, C50).

## Plan per property

| id | what is modelled | how it is proved |
|----|------------------|------------------|
| C01 | reader with a read handler = arbitrary list of non-empty chunks | refinement: reader state abstracts to "decoded prefix ++ decode of rest"; two chunkings refine the same spec |
| C02 | UTF-8 branch of update_buffer | decode/encode inverse lemmas against an independent UTF-8 spec |
| C03 | UTF-16 branch | same, against independent UTF-16 spec |
| C04 | determine_encoding | case analysis over chunk schedule |
| C05 | capacities of raw/decoded buffers | invariant over fetch requests |
| C06 | output buffer + flush, write handler | refinement to a byte log |
| C07 | UTF-16 branch of flush | positive theorem for BMP, `_refuted` witness for U+10400 |
| C08 | string read handler | induction over request list |
| C09 | string write handler | induction over writes |
| C10 | yaml_check_utf8 | iff with an inductive spec of generalised UTF-8; `_refuted` vs real UTF-8 |
| C11 | string/stack/queue macros with explicit capacities and a malloc oracle | refinement to lists |
| C12 | document API | invariant over op sequences |
| C13-C19 | scanner, function by function | invariants by induction on the run |
| C20-C27 | parser state machine, function by function, against an inductive grammar transcribed from the header comment | invariant relating the state stack to a partial derivation |
| C28-C31 | loader over event lists | invariant over context stack; refinement to a denotational "event tree -> graph" |
| C32-C34 | dumper over document graphs | fuel/measure on unvisited nodes; simulation with loader |
| C35-C36 | emitter state machine and look-ahead queue | abstract pushdown acceptor, refinement |
| C37-C42 | emitter scalar/tag writers + scanner scalar/tag readers | round-trip by induction on the string with a generalised invariant on (column, pending spaces) |
| C43 | check_simple_key + writers | the state on top of the stack returns after the key (induction over the tree); length bounds by induction |
| C44 | all writers | predicate preserved by every write |
| C45 | whole emitter + parser | `_refuted` witness; positive for explicit starts |
| C46 | canonical mode whole pipeline | composition of token-level and character-level lemmas |
| C47 | setters + stream start | arithmetic |
| C48 | macros on bytes | case analysis on encoded character |
| C49 | READ_LINE users | simulation between texts differing only in line endings |
| C50 | flush with a failing handler | case analysis, invariant |
| C51 | scanner with two read-ahead plans | every cursor function commutes with filling the buffer (simulation), safety excludes reads outside it |
| C52 | whole pipeline on events | grammar of the emitted text; composition of emitter, writer, reader, scanner and parser |
| C53 | whole pipeline on documents | C32 + C52 + C34, over UTF-8 |
| C54 | events as allocated blocks, malloc answers arbitrarily | each call changes the multiset of allocated blocks by what it returns; composition of such calls |
| C55 | documents as allocated blocks | as C54, and simulation of the document API model of C12 |
| C56 | parser.c and yaml_parser_initialize/delete as allocated blocks, reading its tokens from the scanner of C60, on any text | PEEK_TOKEN and SKIP_TOKEN consume the tokens that ScannerModel.v has for the text; simulation of the parser model of C20-C27, each function gives and takes exactly the blocks it should; induction on the calls |
| C57 | loader.c as allocated blocks, for any parser with the contract proved for C56 | as C56, with the loader model of C28-C31 |
| C58 | dumper.c, the event queue of emitter.c and yaml_emitter_initialize/delete as allocated blocks; programs over parser, emitter and documents; what emitting one event does to the emitter's stacks is arbitrary | simulation of the dumper model of C32-C34, then an invariant of programs, by induction on the calls |
| C59 | the same for programs over parser, emitter and events | invariant of programs, by induction on the calls |
| C60 | scanner.c on allocated blocks: strings with their sizes and growth, token queue, stacks; the error labels | each function simulates its counterpart of C13-C19 or fails for want of memory, and gives and takes exactly its blocks; induction on the calls |
| C61 | two runs of the scanner side by side, on texts that begin alike (SplitCur, SplitScan, SplitScanner) | relation between the states of both runs, kept by every function as long as the differing part is not looked at; the state after a DOCUMENT-END is shown to be that after STREAM-START; for events and documents: the parser's result does not depend on tokens it has not consumed (SplitParse), the state after DOCUMENT-END, and loading as a function of the events read (SplitLoad) |
| C62 | scan_to_next_token of ScanModel.v | loop invariant: what is a gap from here on is one from the start on |
| C63 | scan_flow_scalar of ScanModel.v | read => spelled: loop invariant as for C62; spelled => read: induction on the spelling, running the scanner on a full buffer, and C51's independence of the buffer |
| C64 | scan_plain_scalar of ScanModel.v | loop invariant as for C62, with the reason for every error; LexUnique.v shows that the relations of C62, C64 and C65 are functional, so that they hold exactly of what is read |
| C65 | scan_block_scalar of ScanModel.v with its header, line end and breaks | as for C64 |
| C66 | scan_anchor of ScanModel.v | as for C64 |
| C67 | scan_tag of ScanModel.v with handle, URI and escapes | as for C64; the four forms exclude each other (`tag_unique`) |
| C68 | scan_directive of ScanModel.v with its parts | as for C64 |
| C69 | fetch_next_token and all fetch functions of ScannerModel.v | the invariant of C13 extended by "what has been queued is what the text up to here reads as"; every branch by C62 to C68; uniqueness of the reading from the uniqueness of each lexeme |
| C70 | the test of parser.c:680-713 as `is_deep` in `scan`, on the state the scanner has reached by looking ahead | the invariant of C13 extended by "flow_level and indents count what is open behind the queue; the queue closes at most 1025 flow collections, as it holds a possible simple key that is not stale; a queued block start is followed by no block token" |
| C71 | parser.c on the tokens the scanner hands out | each state counts the collections it is inside of, in events and in tokens; the sums over the state stack are what is open in the events returned and the tokens taken (invariant of every call); with C70 |
| C72 | reader with failing handler; scanner, parser, loader on a text that ends in a reader error | simulation between the run that breaks off and the run on the complete text, function by function (a read error, or the same result); that the end is not met is by the invariant of the scanner, since NUL is never in the buffer |
| C73 | reader and scanner cursor, any script of CACHE, SKIP and line steps | simulation: the invariants of the reader (`live`, `done`) against a cursor whose text and plan are built backwards from the end of the script; the text is shown to be what the input encodes |
| C74 | scanner and parser, any number of calls | invariant of the parser: no token left begins before the end of the last event (in the states that begin a collection: ends before it); with C18 for the tokens |
| C75 | scanner, any number of calls | what every branch of fetch_next_token adds to the queue (the lexeme from the position of the scanner to the one after, or tokens without extent), then an invariant of the queue over successive calls |
| C76 | parser over any list of tokens | for each state of the parser the tokens consumed and the marks of the event (case analysis), the parser invariant of C22 for the first token of a collection, then induction over the calls; with C75 for the text of quoted scalars |
| C77 | loader with the marks of nodes, any document of any text | the loader's stack is the list of collections not yet closed by the events so far (invariant), erasure of the marks, order of the events from C74 |
| C78 | loader, any call that fails | parser->aliases is the list of the anchors of the events so far with their starts (invariant); C74 for the positions |
| C79 | parser over any list of tokens, any call that fails | parser->marks is the list of the starts of the collections opened and not closed by the tokens consumed so far (invariant); for each state the error it can give (case analysis); C76 for the tokens of the events before |
| C80 | emitter, writer and string handler together | simulation between the run with a handler that may refuse and one that accepts everything: the blocks offered are the same up to the first refusal; then C09 |

## Modelled

| model file | code | simplifications |
|---|---|---|
| ReaderModel.v | reader.c, all of it | sizes as unbounded `N`; the input is a list of non-empty chunks, then end or failure |
| WriterModel.v | writer.c, FLUSH/PUT/PUT_BREAK/WRITE of emitter.c | output buffer as a list with a capacity; handler = a list of outcomes |
| ContainerModel.v | api.c:73-164 and the STRING/STACK/QUEUE macros of yaml_private.h | memory = allocated blocks with capacities; malloc is an oracle |
| ApiModel.v | string read/write handlers, yaml_check_utf8, setters | |
| Types.v, DocModel.v | tokens, events, documents of yaml.h; document API of api.c:1035-1430 | node ids are `nat` (arguments `Z`); allocation succeeds |
| CharModel.v | character macros of yaml_private.h | |
| ParserModel.v | parser.c, all of it | token source = a list, then scan failure; the fixed nesting limit is a flag on the token (`t_deep`); allocation succeeds |
| LoaderModel.v | loader.c, all of it | allocation succeeds; the 2^31 limit on nodes is not reached; node marks only where read |
| DumperModel.v | dumper.c, all of it | allocation succeeds; freeing is not modelled; the emitter is a sink that accepts or refuses each event |
| CursorModel.v | CACHE/SKIP/SKIP_LINE/READ/READ_LINE of scanner.c:480-560 and the look-ahead buffer | the input is the list of decoded characters followed by one NUL; how many characters each refill brings is a list (`c_plan`); reading past the filled part of the buffer is `CBad`; that this is what the reader delivers is C73 |
| ScanModel.v | scanner.c:1915-3601, the scanners of each token | context strings dropped; string growth always succeeds |
| ScannerModel.v | scanner.c:742-1913, the token queue, simple keys, indentation, flow levels | tokens and stacks as lists; allocation succeeds; the `int` casts of columns are exact (the limit of 2^31-1 is checked where the code checks it); after a failure only the error is meaningful |
| PenModel.v | emitter.c:22-81, 1789-2358, the functions that write indicators, anchors, tags and scalars | output as a log of operations on the writer's buffer; strings as code points; a failing flush stops the run (composed with WriterModel) |
| EmitModel.v | emitter.c:281-1788, api.c:346-378, 510-577: event queue, state machine, analysis of events, choice of style | stacks and queues as lists; allocation succeeds; the text of events is valid UTF-8 without NUL, as api.c checks; pointers into event data are copies |
| EmitIOModel.v | emitter.c with writer.c: yaml_emitter_emit and its write handler | composition: the operations logged by EmitModel are run through WriterModel and stop at the first that fails; after a failed call nothing more is emitted |
| HeapModel.v | api.c:30-67, 118-169, 668-1391: allocation, ownership and destruction of events and documents; stack and queue macros | a block = a number, never reused; its text is fixed when it is allocated; each refusal of memory is an element of a list; the size limit of yaml_stack_extend is one more refusal |
| HeapTokenModel.v | api.c:583-624 (yaml_token_delete), the queue macros: tokens and their strings | as HeapModel.v |
| HeapParserModel.v | parser.c, api.c:178-242 (initialize, delete): allocation and ownership | the tokens are those of HeapScanModel.v; after an error of the scanner the input is not looked at again (in C so too, except that a call that failed without setting parser->error, see C60_error_unset_refuted, may be followed by calls that go on with the rest of the input; they are not represented) |
| HeapLoaderModel.v | loader.c: allocation and ownership | as LoaderModel.v; parser->aliases and parser->document are local to a call |
| HeapEmitModel.v | dumper.c, emitter.c:281-396 (event queue, tag directives), api.c:355-425 (initialize, delete): allocation and ownership | analysing and emitting the event at the head of the queue is an arbitrary list of actions: pushes and pops of the stacks, reading the strings of the event and of the tag directives, appending and clearing tag directives, then success or failure; the writer is not represented; the handlers do not fail to return |
| HeapLexModel.v | scanner.c:1985-3605 (the scanners of directives, anchors, tags, scalars), yaml_private.h:104-190 and api.c:73-112 (strings): allocation, sizes, growth and ownership | a yaml_string_t is its block, the bytes before its pointer and its size; the input is that of CursorModel.v; the local strings of a call are slots of a frame; what the code frees at its error label is the list given to `scope` |
| HeapScanModel.v | scanner.c:742-1913, parser.c:48-61 (PEEK_TOKEN, SKIP_TOKEN): token queue, simple keys, indentation, with allocation and ownership | as ScannerModel.v for what is not in blocks; arrays have their capacity, writing behind it is undefined; raw and decoded buffer are allocated and freed, their contents are those of CursorModel.v |
| HeapWorld.v, HeapClient.v, HeapScanProg.v | (no code: client programs) | a program may hold any number of documents or events and refers to them by position |

Specifications and proofs that are not models of one C function:

| File | What it says |
|---|---|
| AgreeSpec.v, TripSpec.v, RoundSpec.v | what must be the same after writing and reading; which streams are covered; what "parsed as" means |
| TextGrammar.v, DocText.v | the texts the emitter can write, as an inductive grammar over document trees (used in proofs only) |
| ReadLeaf/ReadFlow/ReadBlock/DocRead.v | the scanner and the parser's grammar read such a text back |
| EmitRun/EmitPen/EmitLeaf/EmitFlow/EmitBlock/DocEmit.v | the emitter writes such a text |
| EagerScan/EagerInv/ScanStep/PlanFree/FullRun.v | the scanner can be run ahead of its caller without changing the tokens |
| DocTrip.v | composition through bytes: emit, write, read, scan, parse |
| RequiredSpec/RequiredLine/RequiredKey/RequiredLoop.v | what stands where a key must be; the scanner makes it a key or fails (C17) |
| LineSpec/LineCur/LineScan/LineScanner.v | texts that differ in their line breaks only; two runs of the scanner side by side (C49) |
| ValueRun.v | what the values of scalars are made of (C49) |
| MarkMap.v | parser and loader commute with any map of marks |
| LineLoadSpec/LineLoad.v | C49 for events and documents |
| LoadSpec/LoadTrip.v | documents through dumper, emitter, writer, reader, scanner, parser and loader (C53) |
| HeapSpec/HeapLemmas/HeapEvents/HeapDocs.v | which blocks belong to an object; what a call gives and takes (C54, C55) |
| ScanRest.v | the tokens that a scanner still delivers, before and after PEEK_TOKEN and SKIP_TOKEN |
| HeapTokenSpec/HeapParserSpec/HeapScan/HeapParser/HeapParse*.v | which blocks belong to a parser and which parser of ParserModel.v it represents; the simulation, function by function (C56) |
| HeapLoader/HeapLoad.v | the same for the loader (C57) |
| HeapClient/HeapFinal.v | programs that parse or load; what is left after them |
| HeapEmitSpec/HeapEmit/HeapDump/HeapDumps.v | which blocks belong to an emitter; what emitting and dumping give and take (C58, C59) |
| HeapWorlds.v | programs with a parser and an emitter; what is left after them |
| HeapLex/HeapLexRun/HeapLexScalar.v, HeapScanSpec/HeapScanSim/HeapScanFinal.v | the scanner with memory does what the scanner without does, or memory was refused; programs that scan (C60) |
| SplitSpec.v | marks, tokens and errors further on in the text (C61) |
| SplitCur/SplitScan/SplitScanner.v, SplitDoc/SplitRun.v | two runs side by side; the state after a DOCUMENT-END; the tokens behind it (C61) |
| SplitParse/SplitFlow/SplitEvents/SplitLoad.v | a call of the parser looks at no token that it leaves (C61); flow collections open after the tokens consumed; events and documents behind a marker |
| LexSpec.v, LexUnique.v, GapExact/QuotedExact/PlainExact/BlockExact/TagLex.v | white space, quoted, plain and block scalars, anchors, tags and directives as relations on text; the scanner reads exactly these (C62-C68) |
| LexemeSpec.v, Lexemes.v, LexemeRun.v, LexemeLoop.v, LexemeUnique.v | a text as a sequence of lexemes, with flow level, indentation and candidate keys; the scanner hands out exactly these (C69) |
| NestSpec.v, Nest.v, NestEvents.v | how deep tokens and events nest, and what the parser's limit says about it (C70, C71) |
| CutSpec.v, CutReader.v, Prefix.v, PrefixEnd.v, PrefixEvents.v, PrefixOpen.v, Cut.v | input that breaks off, compared with the complete input (C72) |
| SourceSpec.v, Source.v | the reader's buffer and the scanner's cursor compared step by step (C73) |
| EventMarksSpec.v, EventMarks.v | the marks of events and of parser errors (C74) |
| SpeltSpec.v, SpeltEnds.v, Spelt.v | the tokens are spelled at their marks (C75) |
| ExtentSpec.v, Extent.v | the tokens an event is made from and its marks (C76) |
| MarkLoaderModel.v, NodeMarksSpec.v, NodeMarks.v | the marks that the loader puts into documents and nodes (C77) |
| FaultSpec.v, Fault.v | the errors of the composer (C78) |
| BlameSpec.v, Blame.v | the errors of the parser (C79) |
| StringOutSpec.v, StringOut.v | emitting into a buffer of the caller (C80) |
| KeySpec/KeyText.v | what a simple key is; the emitter's simple keys are on one line and short (C43) |

## Not modelled

yaml_version, file handlers (`fread`/`fwrite`), allocation failure and freeing outside
ContainerModel.v and the Heap*Model.v files (so: in emitter.c after line 396, in the raw and decoded buffers of reader.c and in writer.c), error message texts.

## Findings: where the code does not do what one would expect

* writer.c:119 masks the low surrogate with the wrong constant: UTF-16 output is wrong from U+10400 on (`C07_utf16_refuted`).
* yaml_check_utf8 accepts surrogates and values above U+10FFFF (`C10_check_utf8_refuted`); its callers pass such text to the emitter.
* The parser rejects `[? : x]` and `[?, a]`, which the published grammar generates
  (`C24_documented_refuted`), and accepts `[? : : x]` and `[?,, a]`, which it does not
  (`C20_documented_refuted`): parser.c:1064-1068 skips a token that belongs to the pair's value.
* A VALUE with no KEY in a block mapping is generated by the published grammar, but rejected.
* yaml_parser_load called again after a load that failed runs into `assert(event->type == YAML_DOCUMENT_START_EVENT)`
  (or the STREAM-START one): yaml_parser_parse then returns success with no event (`C31_refuted`).
* A flow collection that is not closed at the end of the stream (or before `---`/`...`) is not a scanner error, and
  leaves the block collections around it unclosed in the token stream (`C16_unclosed_flow_refuted`); the event parser rejects it.
* yaml_parser_scan_uri_escapes does not reject overlong forms, surrogates or `%00`; a tag is cut at the NUL
  (the model keeps what is before it).
* A folded scalar line that starts with a space and is wider than the width is folded, and is read back with a line break
  where a space was (`C41_folded_refuted`, emitter.c:2344). `C41_exact`: this is the only way a folded scalar is changed.
* A tag written with a handle whose remaining part has `,`, `[` or `]` is written unescaped (emitter.c:1884-1894), but these
  characters end a shorthand tag for the scanner (scanner.c:2597-2617): `!a,b` is an error in block context and the tag
  `!a` in flow context (`C42_tags_refuted`). `C42_exact`: these are the only tags that do not come back.
* A first document without `---` whose root is an empty plain scalar is written as an empty line, and is lost
  (`C45_refuted`, emitter.c:638-642 and 1109-1112: yaml_emitter_check_empty_document always says no).
* In canonical mode (and whenever a scalar has to be quoted) an untagged scalar with plain_implicit but not
  quoted_implicit is written with the tag `!`, and is read back with it (`C46_tag_refuted`, emitter.c:1215-1253, parser.c:660-675).
* yaml_parser_load_sequence and yaml_parser_load_mapping: if the array of nodes cannot be extended, the new array of items or
  pairs is lost (`C57_items_leak_refuted`, loader.c:435-458, 503-526).
* yaml_parser_load: if the array for the aliases is refused after DOCUMENT-START was parsed, the event's version and tag
  directives are lost (`C57_directives_leak_refuted`, loader.c:113-114).
* yaml_emitter_dump can return 0 and leave emitter->error unset, when the array of anchors or the name of an anchor is refused
  (`C58_error_unset_refuted`, dumper.c:134-136, 270-273).
* yaml_parser_scan can return 0 and leave parser->error unset, when the handle of a verbatim or of a `!suffix` tag is refused
  (`C60_error_unset_refuted`, scanner.c:2403-2404, 2455-2456).
* A document without `---` is refused behind an explicit `...`, although it is accepted at the start of a stream
  (`C61_bare_refuted`, parser.c:376-451: only the first document may be implicit).
* In flow context `:` before `?` is an error inside a plain scalar (`[a:?b]`), although `?` cannot begin anything there
  (`bad_colon` in C64, scanner.c:3444-3456).
* An escaped zero byte ends a tag: `!a%00b` is read as `!a` and `!%00b` as `!`, silently, because the suffix is copied and
  joined as a C string (`up_to_nul` in C67, example `C67_nul`).
* Escapes in tags are checked for the structure of UTF-8 only (`utf8_like` in C67): overlong forms, surrogates and numbers
  above 0x10FFFF pass, so that a tag can be read that yaml_*_event_initialize would refuse.
* A directive of an unknown name is an error (C68, `C68_unknown`); the YAML specification asks for a warning.
* A comment directly behind the header of a block scalar, without a blank before it, is accepted (`|#c`; `line_tail` in C65,
  scanner.c:2831-2848), although YAML demands white space before `#`.
* The limit set by yaml_set_max_nest_level (yaml.h:1460-1471, "the maximum number of allowed nested events") is compared with
  flow_level and the number of indents of a scanner that has read on (parser.c:680-713). So `[[[[x]]]]` is accepted with a limit
  of 1 (`C70_documented_limit_refuted`; at most 1024 levels too many, `C70_bounded`), a collection can be refused for what
  is nested in it (`C70_reaches`), and of block collections one fewer than the limit is accepted
  (`C70_documented_block_limit_refuted`). A block sequence at the indentation of its key and a single pair in a flow sequence
  open a collection without a token of their own and are not counted at all (`C71_documented_events_refuted`; `C71_depth_bounded` is what holds).
