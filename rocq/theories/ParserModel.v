(* Model of parser.c: the event parser.

   The token source (scanner.c behind PEEK_TOKEN) is a finite list of tokens;
   when it is exhausted PEEK_TOKEN returns NULL (the scanner or reader has
   failed and has set parser->error).  Allocation failures are not modelled
   here.  [PUB] is undefined behaviour: a POP of an empty stack or the use of a
   NULL token. *)
From Verif Require Import Base ReaderModel Types.

(* include/yaml.h:1012-1064 yaml_parser_state_t *)
Inductive pstate :=
| PS_StreamStart | PS_ImplicitDocStart | PS_DocStart | PS_DocContent | PS_DocEnd
| PS_BlockNode | PS_BlockNodeOrIndentless | PS_FlowNode
| PS_BSeqFirst | PS_BSeqEntry | PS_Indentless
| PS_BMapFirst | PS_BMapKey | PS_BMapValue
| PS_FSeqFirst | PS_FSeqEntry | PS_FSeqMapKey | PS_FSeqMapValue | PS_FSeqMapEnd
| PS_FMapFirst | PS_FMapKey | PS_FMapValue | PS_FMapEmptyValue
| PS_End.

(* parser->problem (and context), one per message of parser.c *)
Inductive pproblem :=
| TokenError                 (* PEEK_TOKEN returned NULL: error set by scanner/reader *)
| NoStreamStart | NoDocStart | UndefinedTagHandle | MaxNesting
| NoNodeContent (block : bool)
| NoBlockEntry | NoKey | NoFlowSeqEntry | NoFlowMapEntry
| DuplicateYaml | Incompatible | DuplicateTag
| DuplicateAnchor | UndefinedAlias.    (* set by loader.c *)
Record perr := mkPerr { pe_problem : pproblem; pe_context : option mark; pe_mark : option mark }.

(* The parser's own part of yaml_parser_t, include/yaml.h:1250-1290.  The first
   element of [p_states] and [p_marks] is the top of the stack; [p_tags] is in
   the order of the C array. *)
Record parser := mkParser {
  p_in : list token;
  p_end : bool;                (* stream_end_produced *)
  p_error : option perr;
  p_state : pstate;
  p_states : list pstate;
  p_marks : list mark;
  p_tags : list tagdir }.

Inductive pout :=
| PEvent (e : event) (p : parser)     (* return 1 with an event *)
| PNothing (p : parser)               (* return 1 with an empty event *)
| PFail (p : parser)                  (* return 0 *)
| PUB.

Definition set_state (p : parser) (s : pstate) : parser :=
  mkParser (p_in p) (p_end p) (p_error p) s (p_states p) (p_marks p) (p_tags p).
Definition push_state (p : parser) (s : pstate) : parser :=
  mkParser (p_in p) (p_end p) (p_error p) (p_state p) (s :: p_states p) (p_marks p) (p_tags p).
Definition push_mark (p : parser) (m : mark) : parser :=
  mkParser (p_in p) (p_end p) (p_error p) (p_state p) (p_states p) (m :: p_marks p) (p_tags p).
Definition set_tags (p : parser) (t : list tagdir) : parser :=
  mkParser (p_in p) (p_end p) (p_error p) (p_state p) (p_states p) (p_marks p) t.
Definition fail (p : parser) (e : perr) : pout :=
  PFail (mkParser (p_in p) (p_end p) (Some e) (p_state p) (p_states p) (p_marks p) (p_tags p)).
Definition error (p : parser) (pr : pproblem) (m : mark) : pout := fail p (mkPerr pr None (Some m)).
Definition error_context (p : parser) (pr : pproblem) (c m : mark) : pout := fail p (mkPerr pr (Some c) (Some m)).
Definition no_token (p : parser) : pout := fail p (mkPerr TokenError None None).

(* parser->state = POP(parser, parser->states) *)
Definition pop_state (p : parser) (k : parser -> pout) : pout :=
  match p_states p with
  | [] => PUB
  | s :: ss => k (mkParser (p_in p) (p_end p) (p_error p) s ss (p_marks p) (p_tags p))
  end.
(* POP(parser, parser->marks) *)
Definition pop_mark (p : parser) (k : mark -> parser -> pout) : pout :=
  match p_marks p with
  | [] => PUB
  | m :: ms => k m (mkParser (p_in p) (p_end p) (p_error p) (p_state p) (p_states p) ms (p_tags p))
  end.

(* token = PEEK_TOKEN(parser); if (!token) return 0;   parser.c:48-50 *)
Definition peek (p : parser) (k : token -> pout) : pout :=
  match p_in p with [] => no_token p | t :: _ => k t end.
(* the same without the test, parser.c:768, 876, 991, 1147 *)
Definition peek_unchecked (p : parser) (k : token -> pout) : pout :=
  match p_in p with [] => PUB | t :: _ => k t end.
(* SKIP_TOKEN, parser.c:56-61 *)
Definition is_stream_end (t : tok) : bool := match t with TStreamEnd => true | _ => false end.
Definition skip (p : parser) : parser :=
  match p_in p with
  | [] => p
  | t :: r => mkParser r (is_stream_end (t_tok t)) (p_error p) (p_state p) (p_states p) (p_marks p) (p_tags p)
  end.

Definition ret (e : ev) (s m : mark) (p : parser) : pout := PEvent (mkEvent e s m) p.
Definition empty_scalar : ev := EScalar None None [] true false Plain.
(* parser.c:1246-1263 yaml_parser_process_empty_scalar *)
Definition process_empty_scalar (p : parser) (m : mark) : pout := ret empty_scalar m m p.

(* parser.c:332-351 *)
Definition parse_stream_start (p : parser) : pout :=
  peek p (fun token =>
    match t_tok token with
    | TStreamStart enc =>
        ret (EStreamStart enc) (t_start token) (t_start token) (skip (set_state p PS_ImplicitDocStart))
    | _ => error p NoStreamStart (t_start token)
    end).

(* parser.c:1382-1415 yaml_parser_append_tag_directive: Some tags, or None for
   the duplicate error *)
Definition bound (tags : list tagdir) (handle : list N) : bool :=
  existsb (fun td => str_eqb handle (fst td)) tags.
Definition append_tag_directive (tags : list tagdir) (v : tagdir) (allow_duplicates : bool) : option (list tagdir) :=
  if bound tags (fst v) then (if allow_duplicates then Some tags else None) else Some (tags ++ [v]).

(* parser.c:1275-1279 *)
Definition default_tag_directives : list tagdir :=
  [([33], [33]); ([33; 33], [116;97;103;58;121;97;109;108;46;111;114;103;44;50;48;48;50;58])].

(* parser.c:1293-1341: the loop over directive tokens; [ver] and [dirs] are the
   version_directive and tag_directives collected so far *)
Inductive dirs_out :=
| DirsOk (ver : option version) (dirs : list tagdir) (p : parser)
| DirsFail (p : parser).
Definition dirs_fail (p : parser) (e : perr) : dirs_out :=
  DirsFail (mkParser (p_in p) (p_end p) (Some e) (p_state p) (p_states p) (p_marks p) (p_tags p)).
Fixpoint directive_loop (fuel : list token) (ver : option version) (dirs : list tagdir) (p : parser) : dirs_out :=
  match fuel, p_in p with
  | _ :: f, t :: _ =>
      match t_tok t with
      | TVersion major minor =>
          match ver with
          | Some _ => dirs_fail p (mkPerr DuplicateYaml None (Some (t_start t)))
          | None =>
              if negb (major =? 1) || (negb (minor =? 1) && negb (minor =? 2))
              then dirs_fail p (mkPerr Incompatible None (Some (t_start t)))
              else directive_loop f (Some (major, minor)) dirs (skip p)
          end
      | TTagDirective handle prefix =>
          match append_tag_directive (p_tags p) (handle, prefix) false with
          | None => dirs_fail p (mkPerr DuplicateTag None (Some (t_start t)))
          | Some tags => directive_loop f ver (dirs ++ [(handle, prefix)]) (skip (set_tags p tags))
          end
      | _ => DirsOk ver dirs p
      end
  | _, _ => dirs_fail p (mkPerr TokenError None None)
  end.
(* parser.c:1343-1348: the default directives *)
Definition add_defaults (tags : list tagdir) : list tagdir :=
  fold_left (fun ts d => match append_tag_directive ts d true with Some ts' => ts' | None => ts end)
            default_tag_directives tags.
(* parser.c:1269-1376 yaml_parser_process_directives *)
Definition process_directives (p : parser) : dirs_out :=
  match directive_loop (p_in p) None [] p with
  | DirsOk ver dirs p' => DirsOk ver dirs (set_tags p' (add_defaults (p_tags p')))
  | DirsFail p' => DirsFail p'
  end.

(* parser.c:376-384: extra document end indicators *)
Fixpoint skip_doc_ends (fuel : list token) (p : parser) : parser :=
  match fuel, p_in p with
  | _ :: f, t :: _ => match t_tok t with TDocEnd => skip_doc_ends f (skip p) | _ => p end
  | _, _ => p
  end.

Definition starts_explicit (t : tok) : bool :=
  match t with TVersion _ _ | TTagDirective _ _ | TDocStart => true | _ => false end.

(* parser.c:361-451 *)
Definition parse_document_start (p : parser) (implicit : bool) : pout :=
  peek p (fun _ =>
  let p := if implicit then p else skip_doc_ends (p_in p) p in
  peek p (fun token =>
  if implicit && negb (starts_explicit (t_tok token)) && negb (is_stream_end (t_tok token)) then
    match process_directives p with
    | DirsFail p' => PFail p'
    | DirsOk _ _ p' =>
        ret (EDocStart None [] true) (t_start token) (t_start token)
            (set_state (push_state p' PS_DocEnd) PS_BlockNode)
    end
  else if negb (is_stream_end (t_tok token)) then
    match process_directives p with
    | DirsFail p' => PFail p'
    | DirsOk ver dirs p' =>
        peek p' (fun token2 =>
          match t_tok token2 with
          | TDocStart =>
              ret (EDocStart ver dirs false) (t_start token) (t_end token2)
                  (skip (set_state (push_state p' PS_DocEnd) PS_DocContent))
          | _ => error p' NoDocStart (t_start token2)
          end)
    end
  else ret EStreamEnd (t_start token) (t_end token) (skip (set_state p PS_End)))).

(* parser.c:594-632: the tag of a node; None = undefined handle.  A tag token
   with an empty handle is verbatim. *)
Definition resolve_tag (tags : list tagdir) (handle suffix : list N) : option (list N) :=
  match handle with
  | [] => Some suffix
  | _ => match find (fun td => str_eqb (fst td) handle) tags with
         | Some td => Some (snd td ++ suffix)
         | None => None
         end
  end.
Definition is_bang (tag : list N) : bool := str_eqb tag [33].

(* parser.c:634-742: the content of a node, after its properties *)
Definition parse_content (p : parser) (block indentless : bool)
    (anchor tag : option (list N)) (start_mark end_mark : mark) (token : token) : pout :=
  let implicit := match tag with None => true | Some [] => true | Some _ => false end in
  let limited (k : pout) : pout :=
    if t_deep token then error_context p MaxNesting start_mark (t_start token) else k in
  if indentless && (match t_tok token with TBlockEntry => true | _ => false end) then
    ret (ESeqStart anchor tag implicit BlockColl) start_mark (t_end token) (set_state p PS_Indentless)
  else
    match t_tok token, block with
    | TScalar value style, _ =>
        let plain_implicit :=
          match tag with None => sstyle_eqb style Plain | Some t => is_bang t end in
        let quoted_implicit :=
          if plain_implicit then false else match tag with None => true | Some _ => false end in
        pop_state p (fun p =>
          ret (EScalar anchor tag value plain_implicit quoted_implicit style) start_mark (t_end token) (skip p))
    | TFlowSeqStart, _ => limited
        (ret (ESeqStart anchor tag implicit FlowColl) start_mark (t_end token) (set_state p PS_FSeqFirst))
    | TFlowMapStart, _ => limited
        (ret (EMapStart anchor tag implicit FlowColl) start_mark (t_end token) (set_state p PS_FMapFirst))
    | TBlockSeqStart, true => limited
        (ret (ESeqStart anchor tag implicit BlockColl) start_mark (t_end token) (set_state p PS_BSeqFirst))
    | TBlockMapStart, true => limited
        (ret (EMapStart anchor tag implicit BlockColl) start_mark (t_end token) (set_state p PS_BMapFirst))
    | _, _ =>
        match anchor, tag with
        | None, None => error_context p (NoNodeContent block) start_mark (t_start token)
        | _, _ => pop_state p (fun p => ret (EScalar anchor tag [] implicit false Plain) start_mark end_mark p)
        end
    end.

(* tag expansion between properties and content, parser.c:594-632 *)
Definition with_tag (p : parser) (tag : option (list N * list N * mark)) (start_mark : mark)
    (k : option (list N) -> pout) : pout :=
  match tag with
  | None => k None
  | Some (handle, suffix, tag_mark) =>
      match resolve_tag (p_tags p) handle suffix with
      | Some t => k (Some t)
      | None => error_context p UndefinedTagHandle start_mark tag_mark
      end
  end.

(* parser.c:548-753 yaml_parser_parse_node *)
Definition parse_node (p : parser) (block indentless : bool) : pout :=
  peek p (fun token =>
  match t_tok token with
  | TAlias name => pop_state p (fun p => ret (EAlias name) (t_start token) (t_end token) (skip p))
  | TAnchor anchor =>
      let p := skip p in
      peek p (fun token2 =>
        match t_tok token2 with
        | TTag handle suffix =>
            let p := skip p in
            peek p (fun token3 =>
              with_tag p (Some (handle, suffix, t_start token2)) (t_start token) (fun tag =>
                parse_content p block indentless (Some anchor) tag (t_start token) (t_end token2) token3))
        | _ => parse_content p block indentless (Some anchor) None (t_start token) (t_end token) token2
        end)
  | TTag handle suffix =>
      let p := skip p in
      peek p (fun token2 =>
        match t_tok token2 with
        | TAnchor anchor =>
            let p := skip p in
            peek p (fun token3 =>
              with_tag p (Some (handle, suffix, t_start token)) (t_start token) (fun tag =>
                parse_content p block indentless (Some anchor) tag (t_start token) (t_end token2) token3))
        | _ =>
            with_tag p (Some (handle, suffix, t_start token)) (t_start token) (fun tag =>
              parse_content p block indentless None tag (t_start token) (t_end token) token2)
        end)
  | _ => parse_content p block indentless None None (t_start token) (t_start token) token
  end).

(* parser.c:459-480 *)
Definition parse_document_content (p : parser) : pout :=
  peek p (fun token =>
    match t_tok token with
    | TVersion _ _ | TTagDirective _ _ | TDocStart | TDocEnd | TStreamEnd =>
        pop_state p (fun p => process_empty_scalar p (t_start token))
    | _ => parse_node p true false
    end).

(* parser.c:489-517; the tag directives are popped until none is left *)
Definition parse_document_end (p : parser) : pout :=
  peek p (fun token =>
    match t_tok token with
    | TDocEnd => ret (EDocEnd false) (t_start token) (t_end token) (set_state (set_tags (skip p) []) PS_DocStart)
    | _ => ret (EDocEnd true) (t_start token) (t_start token) (set_state (set_tags p []) PS_DocStart)
    end).

(* if (first) { token = PEEK_TOKEN(parser); PUSH(marks, token->start_mark); SKIP_TOKEN } *)
Definition enter (p : parser) (first : bool) (k : parser -> pout) : pout :=
  if first then peek_unchecked p (fun token => k (skip (push_mark p (t_start token)))) else k p.

(* parser.c:761-811 *)
Definition parse_block_sequence_entry (p : parser) (first : bool) : pout :=
  enter p first (fun p =>
  peek p (fun token =>
    match t_tok token with
    | TBlockEntry =>
        let p := skip p in
        peek p (fun token2 =>
          match t_tok token2 with
          | TBlockEntry | TBlockEnd =>
              process_empty_scalar (set_state p PS_BSeqEntry) (t_end token)
          | _ => parse_node (push_state p PS_BSeqEntry) true false
          end)
    | TBlockEnd =>
        pop_state p (fun p => pop_mark p (fun _ p => ret ESeqEnd (t_start token) (t_end token) (skip p)))
    | _ => pop_mark p (fun m p => error_context p NoBlockEntry m (t_start token))
    end)).

(* parser.c:819-855 *)
Definition parse_indentless_sequence_entry (p : parser) : pout :=
  peek p (fun token =>
    match t_tok token with
    | TBlockEntry =>
        let p := skip p in
        peek p (fun token2 =>
          match t_tok token2 with
          | TBlockEntry | TKey | TValue | TBlockEnd =>
              process_empty_scalar (set_state p PS_Indentless) (t_end token)
          | _ => parse_node (push_state p PS_Indentless) true false
          end)
    | _ => pop_state p (fun p => ret ESeqEnd (t_start token) (t_start token) p)
    end).

(* parser.c:869-920 *)
Definition parse_block_mapping_key (p : parser) (first : bool) : pout :=
  enter p first (fun p =>
  peek p (fun token =>
    match t_tok token with
    | TKey =>
        let p := skip p in
        peek p (fun token2 =>
          match t_tok token2 with
          | TKey | TValue | TBlockEnd =>
              process_empty_scalar (set_state p PS_BMapValue) (t_end token)
          | _ => parse_node (push_state p PS_BMapValue) true true
          end)
    | TBlockEnd =>
        pop_state p (fun p => pop_mark p (fun _ p => ret EMapEnd (t_start token) (t_end token) (skip p)))
    | _ => pop_mark p (fun m p => error_context p NoKey m (t_start token))
    end)).

(* parser.c:934-968 *)
Definition parse_block_mapping_value (p : parser) : pout :=
  peek p (fun token =>
    match t_tok token with
    | TValue =>
        let p := skip p in
        peek p (fun token2 =>
          match t_tok token2 with
          | TKey | TValue | TBlockEnd =>
              process_empty_scalar (set_state p PS_BMapKey) (t_end token)
          | _ => parse_node (push_state p PS_BMapKey) true true
          end)
    | _ => process_empty_scalar (set_state p PS_BMapKey) (t_start token)
    end).

(* parser.c:1032-1036 and 1197-1201 *)
Definition end_collection (p : parser) (e : ev) (token : token) : pout :=
  pop_state p (fun p => pop_mark p (fun _ p => ret e (t_start token) (t_end token) (skip p))).

(* parser.c:984-1037 *)
Definition parse_flow_sequence_entry (p : parser) (first : bool) : pout :=
  enter p first (fun p =>
  peek p (fun token =>
    match t_tok token with
    | TFlowSeqEnd => end_collection p ESeqEnd token
    | _ =>
        let entry (p : parser) (token : Types.token) : pout :=
          match t_tok token with
          | TKey => ret (EMapStart None None true FlowColl) (t_start token) (t_end token)
                        (skip (set_state p PS_FSeqMapKey))
          | TFlowSeqEnd => end_collection p ESeqEnd token
          | _ => parse_node (push_state p PS_FSeqEntry) false false
          end in
        if first then entry p token
        else match t_tok token with
             | TFlowEntry => let p := skip p in peek p (fun token => entry p token)
             | _ => pop_mark p (fun m p => error_context p NoFlowSeqEntry m (t_start token))
             end
    end)).

(* parser.c:1045-1072 *)
Definition parse_flow_sequence_entry_mapping_key (p : parser) : pout :=
  peek p (fun token =>
    match t_tok token with
    | TFlowSeqEnd => process_empty_scalar (set_state p PS_FSeqMapValue) (t_start token)
    | TValue | TFlowEntry => process_empty_scalar (set_state (skip p) PS_FSeqMapValue) (t_end token)
    | _ => parse_node (push_state p PS_FSeqMapValue) false false
    end).

(* parser.c:1080-1103 *)
Definition parse_flow_sequence_entry_mapping_value (p : parser) : pout :=
  peek p (fun token =>
    match t_tok token with
    | TValue =>
        let p := skip p in
        peek p (fun token2 =>
          match t_tok token2 with
          | TFlowEntry | TFlowSeqEnd => process_empty_scalar (set_state p PS_FSeqMapEnd) (t_start token2)
          | _ => parse_node (push_state p PS_FSeqMapEnd) false false
          end)
    | _ => process_empty_scalar (set_state p PS_FSeqMapEnd) (t_start token)
    end).

(* parser.c:1111-1124 *)
Definition parse_flow_sequence_entry_mapping_end (p : parser) : pout :=
  peek p (fun token => ret EMapEnd (t_start token) (t_start token) (set_state p PS_FSeqEntry)).

(* parser.c:1140-1202 *)
Definition parse_flow_mapping_key (p : parser) (first : bool) : pout :=
  enter p first (fun p =>
  peek p (fun token =>
    match t_tok token with
    | TFlowMapEnd => end_collection p EMapEnd token
    | _ =>
        let entry (p : parser) (token : Types.token) : pout :=
          match t_tok token with
          | TKey =>
              let p := skip p in
              peek p (fun token2 =>
                match t_tok token2 with
                | TValue | TFlowEntry | TFlowMapEnd =>
                    process_empty_scalar (set_state p PS_FMapValue) (t_start token2)
                | _ => parse_node (push_state p PS_FMapValue) false false
                end)
          | TFlowMapEnd => end_collection p EMapEnd token
          | _ => parse_node (push_state p PS_FMapEmptyValue) false false
          end in
        if first then entry p token
        else match t_tok token with
             | TFlowEntry => let p := skip p in peek p (fun token => entry p token)
             | _ => pop_mark p (fun m p => error_context p NoFlowMapEntry m (t_start token))
             end
    end)).

(* parser.c:1210-1240 *)
Definition parse_flow_mapping_value (p : parser) (empty : bool) : pout :=
  peek p (fun token =>
    if empty then process_empty_scalar (set_state p PS_FMapKey) (t_start token)
    else
      match t_tok token with
      | TValue =>
          let p := skip p in
          peek p (fun token2 =>
            match t_tok token2 with
            | TFlowEntry | TFlowMapEnd => process_empty_scalar (set_state p PS_FMapKey) (t_start token2)
            | _ => parse_node (push_state p PS_FMapKey) false false
            end)
      | _ => process_empty_scalar (set_state p PS_FMapKey) (t_start token)
      end).

(* parser.c:245-324.  "default: assert(1)" then return 0 without an error. *)
Definition state_machine (p : parser) : pout :=
  match p_state p with
  | PS_StreamStart => parse_stream_start p
  | PS_ImplicitDocStart => parse_document_start p true
  | PS_DocStart => parse_document_start p false
  | PS_DocContent => parse_document_content p
  | PS_DocEnd => parse_document_end p
  | PS_BlockNode => parse_node p true false
  | PS_BlockNodeOrIndentless => parse_node p true true
  | PS_FlowNode => parse_node p false false
  | PS_BSeqFirst => parse_block_sequence_entry p true
  | PS_BSeqEntry => parse_block_sequence_entry p false
  | PS_Indentless => parse_indentless_sequence_entry p
  | PS_BMapFirst => parse_block_mapping_key p true
  | PS_BMapKey => parse_block_mapping_key p false
  | PS_BMapValue => parse_block_mapping_value p
  | PS_FSeqFirst => parse_flow_sequence_entry p true
  | PS_FSeqEntry => parse_flow_sequence_entry p false
  | PS_FSeqMapKey => parse_flow_sequence_entry_mapping_key p
  | PS_FSeqMapValue => parse_flow_sequence_entry_mapping_value p
  | PS_FSeqMapEnd => parse_flow_sequence_entry_mapping_end p
  | PS_FMapFirst => parse_flow_mapping_key p true
  | PS_FMapKey => parse_flow_mapping_key p false
  | PS_FMapValue => parse_flow_mapping_value p false
  | PS_FMapEmptyValue => parse_flow_mapping_value p true
  | PS_End => PFail p
  end.

(* parser.c:181-201 yaml_parser_parse *)
Definition is_end_state (s : pstate) : bool := match s with PS_End => true | _ => false end.
Definition parse (p : parser) : pout :=
  if p_end p || (match p_error p with Some _ => true | None => false end) || is_end_state (p_state p)
  then PNothing p
  else state_machine p.

(* api.c:178-219 yaml_parser_initialize: state 0 is YAML_PARSE_STREAM_START_STATE *)
Definition init_parser (input : list token) : parser := mkParser input false None PS_StreamStart [] [] [].

(* Calling yaml_parser_parse until it gives no event.  The fuel is a number of
   calls. *)
Inductive presult :=
| Parsed                   (* STREAM-END has been returned *)
| Failed (e : option perr) (* a call returned 0 *)
| MoreToCome               (* the calls allowed were used up *)
| Undefined.
Fixpoint parse_all (calls : nat) (p : parser) : list event * presult :=
  match calls with
  | O => ([], MoreToCome)
  | S n =>
      match parse p with
      | PEvent e p' => let (es, r) := parse_all n p' in (e :: es, r)
      | PNothing _ => ([], Parsed)
      | PFail p' => ([], Failed (p_error p'))
      | PUB => ([], Undefined)
      end
  end.
