(* Model of parser.c, and of the parts of api.c that create and destroy a
   parser, at the level of allocated blocks, for any answers of the allocator.
   The tokens come from the scanner of HeapScanModel.v.  The functions are those of
   ParserModel.v, statement by statement in the order of the C code.

   When the scanner fails without setting parser->error (XUnset, see
   C60_error_unset_refuted) the error is recorded here as HUnset: further calls on
   such a parser, which in C go on with what is left of the input, are not
   represented. *)
From Verif Require Import Base ReaderModel Types CursorModel ParserModel DocModel HeapModel HeapLoaderModel HeapTokenModel HeapLexModel HeapScanModel.

Inductive herror := HProblem (e : perr) | HScanner (e : serr) | HMemory | HUnset.
(* yaml_parser_t, include/yaml.h:1090-1290 *)
Record hp := mkHp {
  hp_scan : ysc;
  hp_error : option herror;
  hp_state : pstate;
  hp_states : arr pstate;
  hp_marks : arr mark;
  hp_tags : arr hpair }.

Definition with_scan (p : hp) (s : ysc) : hp := mkHp s (hp_error p) (hp_state p) (hp_states p) (hp_marks p) (hp_tags p).
Definition with_error (p : hp) (e : herror) : hp := mkHp (hp_scan p) (Some e) (hp_state p) (hp_states p) (hp_marks p) (hp_tags p).
Definition with_state (p : hp) (s : pstate) : hp := mkHp (hp_scan p) (hp_error p) s (hp_states p) (hp_marks p) (hp_tags p).
Definition with_states (p : hp) (a : arr pstate) : hp := mkHp (hp_scan p) (hp_error p) (hp_state p) a (hp_marks p) (hp_tags p).
Definition with_marks (p : hp) (a : arr mark) : hp := mkHp (hp_scan p) (hp_error p) (hp_state p) (hp_states p) a (hp_tags p).
Definition with_htags (p : hp) (a : arr hpair) : hp := mkHp (hp_scan p) (hp_error p) (hp_state p) (hp_states p) (hp_marks p) a.

(* ---- tokens ---- *)
Definition hparsed := hm (hp * option hevent).
Definition scan_error (e : xerr) : herror := match e with XScan e => HScanner e | XMemory => HMemory | XUnset => HUnset end.
(* token = PEEK_TOKEN(parser); [none]: what is done if (!token).  parser.c:48-50 *)
Definition h_peek {R} (p : hp) (none : hp -> hm R) (k : hp -> htoken -> hm R) : hm R :=
  '(y, r) <~ y_peek (hp_scan p) ;;
  match r with
  | inl t => k (with_scan p y) t
  | inr e => none (with_error (with_scan p y) (scan_error e))
  end.
(* SKIP_TOKEN, parser.c:56-61 *)
Definition h_skip {R} (p : hp) (k : hp -> hm R) : hm R :=
  y <~ y_skip (hp_scan p) ;; k (with_scan p y).

(* ---- helpers ---- *)
Definition h_none (p : hp) : hparsed := hret (p, None).
Definition h_fail (p : hp) (e : perr) : hparsed := hret (with_error p (HProblem e), None).
Definition h_error (p : hp) (pr : pproblem) (m : mark) : hparsed := h_fail p (mkPerr pr None (Some m)).
Definition h_error_context (p : hp) (pr : pproblem) (c m : mark) : hparsed := h_fail p (mkPerr pr (Some c) (Some m)).
Definition h_ret (e : hev) (s m : mark) (p : hp) : hparsed := hret (p, Some (mkHevent e s m)).
(* PUSH(parser, parser->states, ...) *)
Definition h_push_state (p : hp) (s : pstate) (none : hp -> hparsed) (k : hp -> hparsed) : hparsed :=
  '(a, ok) <~ h_push (hp_states p) s ;;
  if ok : bool then k (with_states p a) else none (with_error (with_states p a) HMemory).
Definition h_push_mark (p : hp) (m : mark) (k : hp -> hparsed) : hparsed :=
  '(a, ok) <~ h_push (hp_marks p) m ;;
  if ok : bool then k (with_marks p a) else h_none (with_error (with_marks p a) HMemory).
(* parser->state = POP(parser, parser->states) *)
Definition h_pop_state (p : hp) (k : hp -> hparsed) : hparsed :=
  '(s, a) <~ h_pop (hp_states p) ;; k (with_state (with_states p a) s).
Definition h_pop_mark (p : hp) (k : mark -> hp -> hparsed) : hparsed :=
  '(m, a) <~ h_pop (hp_marks p) ;; k m (with_marks p a).

(* parser.c:1246-1263 yaml_parser_process_empty_scalar *)
Definition h_empty_scalar (p : hp) (m : mark) : hparsed :=
  v <~ h_malloc [] ;;
  if is_null v then h_none (with_error p HMemory)
  else h_ret (HScalar None None v true false Plain) m m p.

(* parser.c:332-351 *)
Definition h_stream_start (p : hp) : hparsed :=
  h_peek p h_none (fun p token =>
    match ht_tok token with
    | HTStreamStart enc =>
        h_skip (with_state p PS_ImplicitDocStart) (h_ret (HStreamStart enc) (ht_start token) (ht_start token))
    | _ => h_error p NoStreamStart (ht_start token)
    end).

(* parser.c:1388-1397, 598-601: the search through parser->tag_directives *)
Fixpoint h_find_handle (at_ : ptr) (els : list hpair) (handle : list N) : hm (option hpair) :=
  match els with
  | [] => hret None
  | x :: r =>
      h_touch at_ ;;;
      y <~ h_read (fst x) ;;
      if str_eqb handle y then hret (Some x) else h_find_handle at_ r handle
  end.
(* parser.c:1382-1415 yaml_parser_append_tag_directive.  [dup]: the error for
   allow_duplicates = 0; the result says whether the call succeeded. *)
Definition h_append_tag (p : hp) (handle prefix : list N) (dup : option perr) : hm (hp * bool) :=
  r <~ h_find_handle (a_at (hp_tags p)) (a_els (hp_tags p)) handle ;;
  match r, dup with
  | Some _, None => hret (p, true)
  | Some _, Some e => hret (with_error p (HProblem e), false)
  | None, _ =>
      a <~ h_malloc handle ;;
      b <~ h_malloc prefix ;;
      if is_null a || is_null b then h_free a ;;; h_free b ;;; hret (with_error p HMemory, false)
      else
        '(ts, ok) <~ h_push (hp_tags p) (a, b) ;;
        if ok : bool then hret (with_htags p ts, true)
        else h_free a ;;; h_free b ;;; hret (with_error (with_htags p ts) HMemory, false)
  end.

(* the result of yaml_parser_process_directives: None = return 0 *)
Definition hdirs := hm (hp * option (ptr * arr hpair)).
(* parser.c:1366-1375: "error:" *)
Definition dirs_error (ver : ptr) (dirs : arr hpair) (p : hp) : hdirs :=
  h_free ver ;;; h_empty_stack free_pair dirs ;;; h_del dirs ;;; hret (p, None).
(* parser.c:1293-1341: the loop over directive tokens *)
Fixpoint h_directive_loop (fuel : nat) (ver : ptr) (dirs : arr hpair) (p : hp) : hdirs :=
  match fuel with
  | O => hundef
  | S f =>
      h_peek p (dirs_error ver dirs) (fun p t =>
        match ht_tok t with
        | HTVersion major minor =>
            if negb (is_null ver) then dirs_error ver dirs (with_error p (HProblem (mkPerr DuplicateYaml None (Some (ht_start t)))))
            else if negb (major =? 1) || (negb (minor =? 1) && negb (minor =? 2))
            then dirs_error ver dirs (with_error p (HProblem (mkPerr Incompatible None (Some (ht_start t)))))
            else
              v <~ h_malloc (version_text (major, minor)) ;;
              if is_null v then dirs_error v dirs (with_error p HMemory)
              else h_skip p (h_directive_loop f v dirs)
        | HTTagDirective handle prefix =>
            x <~ h_read handle ;;
            y <~ h_read prefix ;;
            '(p, ok) <~ h_append_tag p x y (Some (mkPerr DuplicateTag None (Some (ht_start t)))) ;;
            if negb ok then dirs_error ver dirs p
            else
              '(dirs, ok) <~ h_push dirs (handle, prefix) ;;
              if negb ok then dirs_error ver dirs (with_error p HMemory)
              else h_skip p (h_directive_loop f ver dirs)
        | _ => hret (p, Some (ver, dirs))
        end)
  end.
(* parser.c:1343-1348 *)
Fixpoint h_add_defaults (ds : list tagdir) (p : hp) : hm (hp * bool) :=
  match ds with
  | [] => hret (p, true)
  | d :: r => '(p, ok) <~ h_append_tag p (fst d) (snd d) None ;; if ok : bool then h_add_defaults r p else hret (p, false)
  end.
(* parser.c:1269-1376 yaml_parser_process_directives; [wanted]: the caller gave
   addresses for the directives *)
Definition h_process_directives (p : hp) (wanted : bool) : hdirs :=
  '(dirs, ok) <~ h_init ;;
  if negb ok then dirs_error None dirs (with_error p HMemory)
  else
    '(p, r) <~ h_directive_loop (S (S (y_left (hp_scan p)))) None dirs p ;;
    match r with
    | None => hret (p, None)
    | Some (ver, dirs) =>
        '(p, ok) <~ h_add_defaults default_tag_directives p ;;
        if negb ok then dirs_error ver dirs p
        else if wanted then
          match a_els dirs with
          | [] => h_del dirs ;;; hret (p, Some (ver, null_arr))
          | _ => hret (p, Some (ver, dirs))
          end
        else h_del dirs ;;; h_free ver ;;; hret (p, Some (None, null_arr))
    end.

(* parser.c:376-384 *)
Fixpoint h_skip_doc_ends (fuel : nat) (p : hp) (k : hp -> htoken -> hparsed) : hparsed :=
  match fuel with
  | O => hundef
  | S f =>
      h_peek p h_none (fun p t =>
        match ht_tok t with
        | HTDocEnd => h_skip p (fun p => h_skip_doc_ends f p k)
        | _ => k p t
        end)
  end.
Definition h_starts_explicit (t : htok) : bool :=
  match t with HTVersion _ _ | HTTagDirective _ _ | HTDocStart => true | _ => false end.
(* parser.c:441-450: "error:" *)
Definition doc_start_error (ver : ptr) (dirs : arr hpair) (p : hp) : hparsed :=
  h_free ver ;;; h_empty_stack free_pair dirs ;;; h_free (a_at dirs) ;;; hret (p, None).
(* parser.c:361-451 *)
Definition h_document_start_at (implicit : bool) (p : hp) (token : htoken) : hparsed :=
  if implicit && negb (h_starts_explicit (ht_tok token)) && negb (is_hstream_end (ht_tok token)) then
    '(p, r) <~ h_process_directives p false ;;
    match r with
    | None => hret (p, None)
    | Some _ =>
        h_push_state p PS_DocEnd h_none (fun p =>
          h_ret (HDocStart None null_arr true) (ht_start token) (ht_start token) (with_state p PS_BlockNode))
    end
  else if negb (is_hstream_end (ht_tok token)) then
    '(p, r) <~ h_process_directives p true ;;
    match r with
    | None => hret (p, None)
    | Some (ver, dirs) =>
        let error := doc_start_error ver dirs in
        h_peek p error (fun p token2 =>
          match ht_tok token2 with
          | HTDocStart =>
              h_push_state p PS_DocEnd error (fun p =>
                h_skip (with_state p PS_DocContent) (h_ret (HDocStart ver dirs false) (ht_start token) (ht_end token2)))
          | _ => error (with_error p (HProblem (mkPerr NoDocStart None (Some (ht_start token2)))))
          end)
    end
  else h_skip (with_state p PS_End) (h_ret HStreamEnd (ht_start token) (ht_end token)).
Definition h_document_start (p : hp) (implicit : bool) : hparsed :=
  h_peek p h_none (fun p token =>
    if implicit then h_document_start_at true p token
    else h_skip_doc_ends (S (S (y_left (hp_scan p)))) p (h_document_start_at false)).

(* parser.c:744-752: "error:" *)
Definition node_error (anchor handle suffix tag : ptr) (p : hp) : hparsed :=
  h_free anchor ;;; h_free handle ;;; h_free suffix ;;; h_free tag ;;; hret (p, None).
(* parser.c:594-632 *)
Definition h_with_tag (p : hp) (anchor handle suffix : ptr) (tag_mark start_mark : mark) (k : ptr -> hparsed) : hparsed :=
  if is_null handle then k None
  else
    x <~ h_read handle ;;
    match x with
    | [] => h_free handle ;;; k suffix
    | _ =>
        r <~ h_find_handle (a_at (hp_tags p)) (a_els (hp_tags p)) x ;;
        match r with
        | None => node_error anchor handle suffix None
                    (with_error p (HProblem (mkPerr UndefinedTagHandle (Some start_mark) (Some tag_mark))))
        | Some td =>
            y <~ h_read (snd td) ;;
            z <~ h_read suffix ;;
            tag <~ h_malloc (y ++ z) ;;
            if is_null tag then node_error anchor handle suffix tag (with_error p HMemory)
            else h_free handle ;;; h_free suffix ;;; k tag
        end
    end.
(* parser.c:634-742 *)
Definition h_content (p : hp) (block indentless : bool) (anchor tag : ptr) (start_mark end_mark : mark) (token : htoken) : hparsed :=
  x <~ (match tag with None => hret [] | Some _ => h_read tag end) ;;
  let implicit := match x with [] => true | _ => false end in
  let error := node_error anchor None None tag in
  let limited (s : pstate) (e : hev) : hparsed :=
    if ht_deep token then error (with_error p (HProblem (mkPerr MaxNesting (Some start_mark) (Some (ht_start token)))))
    else h_ret e start_mark (ht_end token) (with_state p s) in
  if indentless && (match ht_tok token with HTBlockEntry => true | _ => false end) then
    h_ret (HSeqStart anchor tag implicit BlockColl) start_mark (ht_end token) (with_state p PS_Indentless)
  else
    match ht_tok token, block with
    | HTScalar value style, _ =>
        let plain_implicit :=
          (sstyle_eqb style Plain && is_null tag) || (negb (is_null tag) && is_bang x) in
        let quoted_implicit := if plain_implicit then false else is_null tag in
        h_pop_state p (fun p =>
          h_skip p (h_ret (HScalar anchor tag value plain_implicit quoted_implicit style) start_mark (ht_end token)))
    | HTFlowSeqStart, _ => limited PS_FSeqFirst (HSeqStart anchor tag implicit FlowColl)
    | HTFlowMapStart, _ => limited PS_FMapFirst (HMapStart anchor tag implicit FlowColl)
    | HTBlockSeqStart, true => limited PS_BSeqFirst (HSeqStart anchor tag implicit BlockColl)
    | HTBlockMapStart, true => limited PS_BMapFirst (HMapStart anchor tag implicit BlockColl)
    | _, _ =>
        if negb (is_null anchor) || negb (is_null tag) then
          value <~ h_malloc [] ;;
          if is_null value then error (with_error p HMemory)
          else h_pop_state p (h_ret (HScalar anchor tag value implicit false Plain) start_mark end_mark)
        else error (with_error p (HProblem (mkPerr (NoNodeContent block) (Some start_mark) (Some (ht_start token)))))
    end.
(* parser.c:548-753 yaml_parser_parse_node *)
Definition h_node (p : hp) (block indentless : bool) : hparsed :=
  h_peek p h_none (fun p token =>
  match ht_tok token with
  | HTAlias name =>
      h_pop_state p (fun p => h_skip p (h_ret (HAlias name) (ht_start token) (ht_end token)))
  | HTAnchor anchor =>
      h_skip p (fun p =>
      h_peek p (node_error anchor None None None) (fun p token2 =>
        match ht_tok token2 with
        | HTTag handle suffix =>
            h_skip p (fun p =>
            h_peek p (node_error anchor handle suffix None) (fun p token3 =>
              h_with_tag p anchor handle suffix (ht_start token2) (ht_start token) (fun tag =>
                h_content p block indentless anchor tag (ht_start token) (ht_end token2) token3)))
        | _ => h_content p block indentless anchor None (ht_start token) (ht_end token) token2
        end))
  | HTTag handle suffix =>
      h_skip p (fun p =>
      h_peek p (node_error None handle suffix None) (fun p token2 =>
        match ht_tok token2 with
        | HTAnchor anchor =>
            h_skip p (fun p =>
            h_peek p (node_error anchor handle suffix None) (fun p token3 =>
              h_with_tag p anchor handle suffix (ht_start token) (ht_start token) (fun tag =>
                h_content p block indentless anchor tag (ht_start token) (ht_end token2) token3)))
        | _ =>
            h_with_tag p None handle suffix (ht_start token) (ht_start token) (fun tag =>
              h_content p block indentless None tag (ht_start token) (ht_end token) token2)
        end))
  | _ => h_content p block indentless None None (ht_start token) (ht_start token) token
  end).

(* parser.c:459-480 *)
Definition h_document_content (p : hp) : hparsed :=
  h_peek p h_none (fun p token =>
    match ht_tok token with
    | HTVersion _ _ | HTTagDirective _ _ | HTDocStart | HTDocEnd | HTStreamEnd =>
        h_pop_state p (fun p => h_empty_scalar p (ht_start token))
    | _ => h_node p true false
    end).

(* parser.c:489-517 *)
Definition h_drop_tags (p : hp) (k : hp -> hparsed) : hparsed :=
  h_empty_stack free_pair (hp_tags p) ;;;
  k (with_htags p (mkArr (a_at (hp_tags p)) [] (a_off (hp_tags p)) (a_cap (hp_tags p)))).
Definition h_document_end (p : hp) : hparsed :=
  h_peek p h_none (fun p token =>
    match ht_tok token with
    | HTDocEnd => h_skip p (fun p => h_drop_tags p (fun p =>
        h_ret (HDocEnd false) (ht_start token) (ht_end token) (with_state p PS_DocStart)))
    | _ => h_drop_tags p (fun p =>
        h_ret (HDocEnd true) (ht_start token) (ht_start token) (with_state p PS_DocStart))
    end).

(* parser.c:767-772, 875-880, 990-995, 1146-1151: PEEK_TOKEN without a test *)
Definition h_enter (p : hp) (first : bool) (k : hp -> hparsed) : hparsed :=
  if first then
    h_peek p (fun _ => hundef) (fun p token => h_push_mark p (ht_start token) (fun p => h_skip p k))
  else k p.
(* parser->state = POP(states); (void)POP(marks); ... SKIP_TOKEN *)
Definition h_end_collection (p : hp) (e : hev) (token : htoken) : hparsed :=
  h_pop_state p (fun p => h_pop_mark p (fun _ p => h_skip p (h_ret e (ht_start token) (ht_end token)))).

(* parser.c:761-811 *)
Definition h_block_sequence_entry (p : hp) (first : bool) : hparsed :=
  h_enter p first (fun p =>
  h_peek p h_none (fun p token =>
    match ht_tok token with
    | HTBlockEntry =>
        h_skip p (fun p =>
        h_peek p h_none (fun p token2 =>
          match ht_tok token2 with
          | HTBlockEntry | HTBlockEnd => h_empty_scalar (with_state p PS_BSeqEntry) (ht_end token)
          | _ => h_push_state p PS_BSeqEntry h_none (fun p => h_node p true false)
          end))
    | HTBlockEnd => h_end_collection p HSeqEnd token
    | _ => h_pop_mark p (fun m p => h_error_context p NoBlockEntry m (ht_start token))
    end)).
(* parser.c:819-855 *)
Definition h_indentless_sequence_entry (p : hp) : hparsed :=
  h_peek p h_none (fun p token =>
    match ht_tok token with
    | HTBlockEntry =>
        h_skip p (fun p =>
        h_peek p h_none (fun p token2 =>
          match ht_tok token2 with
          | HTBlockEntry | HTKey | HTValue | HTBlockEnd => h_empty_scalar (with_state p PS_Indentless) (ht_end token)
          | _ => h_push_state p PS_Indentless h_none (fun p => h_node p true false)
          end))
    | _ => h_pop_state p (h_ret HSeqEnd (ht_start token) (ht_start token))
    end).
(* parser.c:869-920 *)
Definition h_block_mapping_key (p : hp) (first : bool) : hparsed :=
  h_enter p first (fun p =>
  h_peek p h_none (fun p token =>
    match ht_tok token with
    | HTKey =>
        h_skip p (fun p =>
        h_peek p h_none (fun p token2 =>
          match ht_tok token2 with
          | HTKey | HTValue | HTBlockEnd => h_empty_scalar (with_state p PS_BMapValue) (ht_end token)
          | _ => h_push_state p PS_BMapValue h_none (fun p => h_node p true true)
          end))
    | HTBlockEnd => h_end_collection p HMapEnd token
    | _ => h_pop_mark p (fun m p => h_error_context p NoKey m (ht_start token))
    end)).
(* parser.c:934-968 *)
Definition h_block_mapping_value (p : hp) : hparsed :=
  h_peek p h_none (fun p token =>
    match ht_tok token with
    | HTValue =>
        h_skip p (fun p =>
        h_peek p h_none (fun p token2 =>
          match ht_tok token2 with
          | HTKey | HTValue | HTBlockEnd => h_empty_scalar (with_state p PS_BMapKey) (ht_end token)
          | _ => h_push_state p PS_BMapKey h_none (fun p => h_node p true true)
          end))
    | _ => h_empty_scalar (with_state p PS_BMapKey) (ht_start token)
    end).
(* parser.c:984-1037 *)
Definition h_flow_sequence_at (p : hp) (token : htoken) : hparsed :=
  match ht_tok token with
  | HTKey => h_skip (with_state p PS_FSeqMapKey)
               (h_ret (HMapStart None None true FlowColl) (ht_start token) (ht_end token))
  | HTFlowSeqEnd => h_end_collection p HSeqEnd token
  | _ => h_push_state p PS_FSeqEntry h_none (fun p => h_node p false false)
  end.
Definition h_flow_sequence_entry (p : hp) (first : bool) : hparsed :=
  h_enter p first (fun p =>
  h_peek p h_none (fun p token =>
    match ht_tok token with
    | HTFlowSeqEnd => h_end_collection p HSeqEnd token
    | _ =>
        if first then h_flow_sequence_at p token
        else match ht_tok token with
             | HTFlowEntry => h_skip p (fun p => h_peek p h_none h_flow_sequence_at)
             | _ => h_pop_mark p (fun m p => h_error_context p NoFlowSeqEntry m (ht_start token))
             end
    end)).
(* parser.c:1045-1072 *)
Definition h_flow_sequence_entry_mapping_key (p : hp) : hparsed :=
  h_peek p h_none (fun p token =>
    match ht_tok token with
    | HTFlowSeqEnd => h_empty_scalar (with_state p PS_FSeqMapValue) (ht_start token)
    | HTValue | HTFlowEntry => h_skip p (fun p => h_empty_scalar (with_state p PS_FSeqMapValue) (ht_end token))
    | _ => h_push_state p PS_FSeqMapValue h_none (fun p => h_node p false false)
    end).
(* parser.c:1080-1103 *)
Definition h_flow_sequence_entry_mapping_value (p : hp) : hparsed :=
  h_peek p h_none (fun p token =>
    match ht_tok token with
    | HTValue =>
        h_skip p (fun p =>
        h_peek p h_none (fun p token2 =>
          match ht_tok token2 with
          | HTFlowEntry | HTFlowSeqEnd => h_empty_scalar (with_state p PS_FSeqMapEnd) (ht_start token2)
          | _ => h_push_state p PS_FSeqMapEnd h_none (fun p => h_node p false false)
          end))
    | _ => h_empty_scalar (with_state p PS_FSeqMapEnd) (ht_start token)
    end).
(* parser.c:1111-1124 *)
Definition h_flow_sequence_entry_mapping_end (p : hp) : hparsed :=
  h_peek p h_none (fun p token => h_ret HMapEnd (ht_start token) (ht_start token) (with_state p PS_FSeqEntry)).
(* parser.c:1140-1202 *)
Definition h_flow_mapping_at (p : hp) (token : htoken) : hparsed :=
  match ht_tok token with
  | HTKey =>
      h_skip p (fun p =>
      h_peek p h_none (fun p token2 =>
        match ht_tok token2 with
        | HTValue | HTFlowEntry | HTFlowMapEnd => h_empty_scalar (with_state p PS_FMapValue) (ht_start token2)
        | _ => h_push_state p PS_FMapValue h_none (fun p => h_node p false false)
        end))
  | HTFlowMapEnd => h_end_collection p HMapEnd token
  | _ => h_push_state p PS_FMapEmptyValue h_none (fun p => h_node p false false)
  end.
Definition h_flow_mapping_key (p : hp) (first : bool) : hparsed :=
  h_enter p first (fun p =>
  h_peek p h_none (fun p token =>
    match ht_tok token with
    | HTFlowMapEnd => h_end_collection p HMapEnd token
    | _ =>
        if first then h_flow_mapping_at p token
        else match ht_tok token with
             | HTFlowEntry => h_skip p (fun p => h_peek p h_none h_flow_mapping_at)
             | _ => h_pop_mark p (fun m p => h_error_context p NoFlowMapEntry m (ht_start token))
             end
    end)).
(* parser.c:1210-1240 *)
Definition h_flow_mapping_value (p : hp) (empty : bool) : hparsed :=
  h_peek p h_none (fun p token =>
    if empty then h_empty_scalar (with_state p PS_FMapKey) (ht_start token)
    else
      match ht_tok token with
      | HTValue =>
          h_skip p (fun p =>
          h_peek p h_none (fun p token2 =>
            match ht_tok token2 with
            | HTFlowEntry | HTFlowMapEnd => h_empty_scalar (with_state p PS_FMapKey) (ht_start token2)
            | _ => h_push_state p PS_FMapKey h_none (fun p => h_node p false false)
            end))
      | _ => h_empty_scalar (with_state p PS_FMapKey) (ht_start token)
      end).

(* parser.c:245-324 *)
Definition h_state_machine (p : hp) : hparsed :=
  match hp_state p with
  | PS_StreamStart => h_stream_start p
  | PS_ImplicitDocStart => h_document_start p true
  | PS_DocStart => h_document_start p false
  | PS_DocContent => h_document_content p
  | PS_DocEnd => h_document_end p
  | PS_BlockNode => h_node p true false
  | PS_BlockNodeOrIndentless => h_node p true true
  | PS_FlowNode => h_node p false false
  | PS_BSeqFirst => h_block_sequence_entry p true
  | PS_BSeqEntry => h_block_sequence_entry p false
  | PS_Indentless => h_indentless_sequence_entry p
  | PS_BMapFirst => h_block_mapping_key p true
  | PS_BMapKey => h_block_mapping_key p false
  | PS_BMapValue => h_block_mapping_value p
  | PS_FSeqFirst => h_flow_sequence_entry p true
  | PS_FSeqEntry => h_flow_sequence_entry p false
  | PS_FSeqMapKey => h_flow_sequence_entry_mapping_key p
  | PS_FSeqMapValue => h_flow_sequence_entry_mapping_value p
  | PS_FSeqMapEnd => h_flow_sequence_entry_mapping_end p
  | PS_FMapFirst => h_flow_mapping_key p true
  | PS_FMapKey => h_flow_mapping_key p false
  | PS_FMapValue => h_flow_mapping_value p false
  | PS_FMapEmptyValue => h_flow_mapping_value p true
  | PS_End => h_none p
  end.
(* parser.c:181-201 yaml_parser_parse *)
Definition h_parse (p : hp) : hparsed :=
  if y_ended (hp_scan p) || (match hp_error p with Some _ => true | None => false end) || is_end_state (hp_state p)
  then hret (p, Some (mkHevent HNoEvent (mkMark 0 0 0) (mkMark 0 0 0)))
  else h_state_machine p.

(* api.c:178-213 yaml_parser_initialize.  BUFFER_INIT asks for one block.
   [s]: the input and what is in no block. *)
Definition parser_blocks_del (raw buffer : ptr) (tokens : arr htoken) (indents : arr Z) (keys : arr ScannerModel.skey)
    (states : arr pstate) (marks : arr mark) (tags : arr hpair) : hm unit :=
  h_free raw ;;; h_free buffer ;;; h_del tokens ;;; h_del indents ;;; h_del keys ;;; h_del states ;;; h_del marks ;;; h_del tags.
Definition parser_initialize (s : ScannerModel.sc) : hm (option hp) :=
  raw <~ h_malloc [] ;;
  if is_null raw then parser_blocks_del raw None null_arr null_arr null_arr null_arr null_arr null_arr ;;; hret None else
  buffer <~ h_malloc [] ;;
  if is_null buffer then parser_blocks_del raw buffer null_arr null_arr null_arr null_arr null_arr null_arr ;;; hret None else
  '(tokens, ok) <~ h_init ;;
  if negb ok then parser_blocks_del raw buffer tokens null_arr null_arr null_arr null_arr null_arr ;;; hret None else
  '(indents, ok) <~ h_init ;;
  if negb ok then parser_blocks_del raw buffer tokens indents null_arr null_arr null_arr null_arr ;;; hret None else
  '(keys, ok) <~ h_init ;;
  if negb ok then parser_blocks_del raw buffer tokens indents keys null_arr null_arr null_arr ;;; hret None else
  '(states, ok) <~ h_init ;;
  if negb ok then parser_blocks_del raw buffer tokens indents keys states null_arr null_arr ;;; hret None else
  '(marks, ok) <~ h_init ;;
  if negb ok then parser_blocks_del raw buffer tokens indents keys states marks null_arr ;;; hret None else
  '(tags, ok) <~ h_init ;;
  if negb ok then parser_blocks_del raw buffer tokens indents keys states marks tags ;;; hret None else
  hret (Some (mkHp (mkY s raw buffer tokens indents keys) None PS_StreamStart states marks tags)).
(* api.c:219-242 yaml_parser_delete *)
Definition parser_delete (p : hp) : hm unit :=
  let s := hp_scan p in
  h_free (y_raw s) ;;; h_free (y_buffer s) ;;;
  h_for_each (fun t => token_delete (ht_tok t)) (y_tokens s) ;;;
  h_del (y_tokens s) ;;; h_del (y_indents s) ;;; h_del (y_keys s) ;;;
  h_del (hp_states p) ;;; h_del (hp_marks p) ;;;
  h_empty_stack free_pair (hp_tags p) ;;; h_del (hp_tags p).
