(* Specification: the token grammar of the comment at the head of parser.c
   (lines 3-40), as an inductive relation between a sequence of tokens and the
   serialisation tree it denotes.  It refers to no model code.

   The grammar comes in three dialects:
   - [documented]: exactly the productions of the comment;
   - [common]: without two productions of the comment that the parser rejects:
     a block mapping entry that is a VALUE with no KEY (which makes the
     documented grammar ambiguous), and an entry of a flow sequence that is a
     KEY with no node;
   - [implemented]: what parser.c really accepts: as [common], except that in a
     flow sequence a KEY with no node is accepted, and takes with it one VALUE
     or FLOW-ENTRY if one follows directly. *)
From Verif Require Import Base ReaderModel Types TreeSpec.

Record dialect := mkDialect { value_only : bool; bare_key : bool; swallow : bool }.
Definition documented := mkDialect true true false.
Definition common := mkDialect false false false.
Definition implemented := mkDialect false false true.

(* The bindings of tag handles in force in a document. *)
Definition env := list tagdir.
Definition default_env : env :=
  [([33], [33]);                                      (* "!"  -> "!" *)
   ([33; 33], [116;97;103;58;121;97;109;108;46;111;114;103;44;50;48;48;50;58])].
                                                      (* "!!" -> "tag:yaml.org,2002:" *)
Definition binds (e : env) (h : list N) : bool := existsb (fun d => str_eqb (fst d) h) e.
(* the document's own %TAG directives, then the defaults they do not override *)
Definition env_of (dirs : list tagdir) : env :=
  dirs ++ filter (fun d => negb (binds dirs (fst d))) default_env.
(* an empty handle marks a verbatim tag *)
Definition resolves (e : env) (h s t : list N) : Prop :=
  match h with
  | [] => t = s
  | _ => exists prefix, In (h, prefix) e /\ t = prefix ++ s
  end.

Definition null : tree := Scalar None None [] true false Plain.
Definition implicit_of (tag : option (list N)) : bool :=
  match tag with None => true | Some t => str_eqb t [] end.
(* may the tag be left out when the scalar is written plain / non-plain?  The tag
   "!" counts as plain-implicit whatever the style *)
Definition plain_implicit_of (tag : option (list N)) (style : sstyle) : bool :=
  match tag with None => sstyle_eqb style Plain | Some t => str_eqb t [33] end.
Definition quoted_implicit_of (tag : option (list N)) (style : sstyle) : bool :=
  match tag with None => negb (sstyle_eqb style Plain) | Some _ => false end.

(* block_node, block_node_or_indentless_sequence, flow_node *)
Inductive kind := Block | BlockOrIndentless | Flow.

Section grammar.
  Variable d : dialect.
  Variable e : env.

  (* properties ::= TAG ANCHOR? | ANCHOR TAG? *)
  Inductive properties : list tok -> option (list N) -> option (list N) -> Prop :=
  | P_anchor a : properties [TAnchor a] (Some a) None
  | P_tag h s t : resolves e h s t -> properties [TTag h s] None (Some t)
  | P_anchor_tag a h s t : resolves e h s t -> properties [TAnchor a; TTag h s] (Some a) (Some t)
  | P_tag_anchor a h s t : resolves e h s t -> properties [TTag h s; TAnchor a] (Some a) (Some t).
  Inductive opt_properties : list tok -> option (list N) -> option (list N) -> Prop :=
  | OP_none : opt_properties [] None None
  | OP_some ts a t : properties ts a t -> opt_properties ts a t.

  Inductive node : kind -> list tok -> tree -> Prop :=
  | N_alias k name : node k [TAlias name] (Alias name)
  | N_empty k ts a t : properties ts a t -> node k ts (Scalar a t [] (implicit_of t) false Plain)
  | N_content k ts a t cs x : opt_properties ts a t -> content k a t cs x -> node k (ts ++ cs) x
  (* the content of a node with the given anchor and tag *)
  with content : kind -> option (list N) -> option (list N) -> list tok -> tree -> Prop :=
  | C_scalar k a t v st :
      content k a t [TScalar v st] (Scalar a t v (plain_implicit_of t st) (quoted_implicit_of t st) st)
  | C_flow_seq k a t ts xs : flow_sequence ts xs ->
      content k a t (TFlowSeqStart :: ts) (Sequence a t (implicit_of t) FlowColl xs)
  | C_flow_map k a t ts ps : flow_mapping ts ps ->
      content k a t (TFlowMapStart :: ts) (Mapping a t (implicit_of t) FlowColl ps)
  | C_block_seq k a t ts xs : k <> Flow -> block_sequence ts xs ->
      content k a t (TBlockSeqStart :: ts) (Sequence a t (implicit_of t) BlockColl xs)
  | C_block_map k a t ts ps : k <> Flow -> block_mapping ts ps ->
      content k a t (TBlockMapStart :: ts) (Mapping a t (implicit_of t) BlockColl ps)
  | C_indentless a t ts xs : indentless ts xs ->
      content BlockOrIndentless a t ts (Sequence a t (implicit_of t) BlockColl xs)
  (* node? : a missing node is an empty plain scalar *)
  with opt_node : kind -> list tok -> tree -> Prop :=
  | O_none k : opt_node k [] null
  | O_some k ts x : node k ts x -> opt_node k ts x
  (* (VALUE node?)? *)
  with opt_value : kind -> list tok -> tree -> Prop :=
  | V_none k : opt_value k [] null
  | V_some k ts x : opt_node k ts x -> opt_value k (TValue :: ts) x
  (* (BLOCK-ENTRY block_node?)* BLOCK-END *)
  with block_sequence : list tok -> list tree -> Prop :=
  | BS_end : block_sequence [TBlockEnd] []
  | BS_entry ts x rs xs : opt_node Block ts x -> block_sequence rs xs ->
      block_sequence (TBlockEntry :: ts ++ rs) (x :: xs)
  (* (BLOCK-ENTRY block_node?)+ *)
  with indentless : list tok -> list tree -> Prop :=
  | IS_last ts x : opt_node Block ts x -> indentless (TBlockEntry :: ts) [x]
  | IS_entry ts x rs xs : opt_node Block ts x -> indentless rs xs ->
      indentless (TBlockEntry :: ts ++ rs) (x :: xs)
  (* ((KEY node?)? (VALUE node?)?)* BLOCK-END *)
  with block_mapping : list tok -> list (tree * tree) -> Prop :=
  | BM_end : block_mapping [TBlockEnd] []
  | BM_pair ks k vs v rs ps :
      opt_node BlockOrIndentless ks k -> opt_value BlockOrIndentless vs v -> block_mapping rs ps ->
      block_mapping (TKey :: ks ++ vs ++ rs) ((k, v) :: ps)
  | BM_value vs v rs ps : value_only d = true ->
      opt_node BlockOrIndentless vs v -> block_mapping rs ps ->
      block_mapping (TValue :: vs ++ rs) ((null, v) :: ps)
  (* (flow_sequence_entry FLOW-ENTRY)* flow_sequence_entry? FLOW-SEQUENCE-END *)
  with flow_sequence : list tok -> list tree -> Prop :=
  | FS_end : flow_sequence [TFlowSeqEnd] []
  | FS_last ts x : flow_sequence_entry ts x -> flow_sequence (ts ++ [TFlowSeqEnd]) [x]
  | FS_entry ts x rs xs : flow_sequence_entry ts x -> flow_sequence rs xs ->
      flow_sequence (ts ++ TFlowEntry :: rs) (x :: xs)
  | FS_last_key : swallow d = true ->
      flow_sequence [TKey; TFlowSeqEnd] [Mapping None None true FlowColl [(null, null)]]
  (* flow_node | KEY flow_node? (VALUE flow_node?)? *)
  with flow_sequence_entry : list tok -> tree -> Prop :=
  | FSE_node ts x : node Flow ts x -> flow_sequence_entry ts x
  | FSE_pair ks k vs v : node Flow ks k -> opt_value Flow vs v ->
      flow_sequence_entry (TKey :: ks ++ vs) (Mapping None None true FlowColl [(k, v)])
  | FSE_empty_key vs v : bare_key d = true -> opt_value Flow vs v ->
      flow_sequence_entry (TKey :: vs) (Mapping None None true FlowColl [(null, v)])
  | FSE_swallow s vs v : swallow d = true -> s = TValue \/ s = TFlowEntry -> opt_value Flow vs v ->
      flow_sequence_entry (TKey :: s :: vs) (Mapping None None true FlowColl [(null, v)])
  (* (flow_mapping_entry FLOW-ENTRY)* flow_mapping_entry? FLOW-MAPPING-END *)
  with flow_mapping : list tok -> list (tree * tree) -> Prop :=
  | FM_end : flow_mapping [TFlowMapEnd] []
  | FM_last ts p : flow_mapping_entry ts p -> flow_mapping (ts ++ [TFlowMapEnd]) [p]
  | FM_entry ts p rs ps : flow_mapping_entry ts p -> flow_mapping rs ps ->
      flow_mapping (ts ++ TFlowEntry :: rs) (p :: ps)
  (* flow_node | KEY flow_node? (VALUE flow_node?)? *)
  with flow_mapping_entry : list tok -> tree * tree -> Prop :=
  | FME_node ts x : node Flow ts x -> flow_mapping_entry ts (x, null)
  | FME_pair ks k vs v : opt_node Flow ks k -> opt_value Flow vs v ->
      flow_mapping_entry (TKey :: ks ++ vs) (k, v).
End grammar.

(* The directives of a document: at most one %YAML, of version 1.1 or 1.2, and no
   two %TAG with the same handle. *)
Definition is_directive (t : tok) : bool :=
  match t with TVersion _ _ | TTagDirective _ _ => true | _ => false end.
Definition versions (ts : list tok) : list version :=
  flat_map (fun t => match t with TVersion a b => [(a, b)] | _ => [] end) ts.
Definition tag_directives (ts : list tok) : list tagdir :=
  flat_map (fun t => match t with TTagDirective h p => [(h, p)] | _ => [] end) ts.
Definition version_ok (v : version) : Prop := v = (1, 1) \/ v = (1, 2).
Definition directives (ts : list tok) (v : option version) (dirs : list tagdir) : Prop :=
  Forall (fun t => is_directive t = true) ts /\
  versions ts = match v with None => [] | Some v => [v] end /\
  (match v with None => True | Some v => version_ok v end) /\
  dirs = tag_directives ts /\ NoDup (map fst dirs).

Definition no_end (n : nat) : bool := match n with O => true | S _ => false end.

(* implicit_document ::= block_node DOCUMENT-END* *)
Inductive implicit_document (d : dialect) : list tok -> doc_tree -> Prop :=
| ImplicitDoc ts x n : node d (env_of []) Block ts x ->
    implicit_document d (ts ++ repeat TDocEnd n) (mkDocTree None [] true x (no_end n)).
(* explicit_document ::= DIRECTIVE* DOCUMENT-START block_node? DOCUMENT-END* *)
Inductive explicit_document (d : dialect) : list tok -> doc_tree -> Prop :=
| ExplicitDoc ds v dirs ts x n : directives ds v dirs -> opt_node d (env_of dirs) Block ts x ->
    explicit_document d (ds ++ TDocStart :: ts ++ repeat TDocEnd n) (mkDocTree v dirs false x (no_end n)).
Inductive explicit_documents (d : dialect) : list tok -> list doc_tree -> Prop :=
| Docs_none : explicit_documents d [] []
| Docs_some ts x rs xs : explicit_document d ts x -> explicit_documents d rs xs ->
    explicit_documents d (ts ++ rs) (x :: xs).
(* stream ::= STREAM-START implicit_document? explicit_document* STREAM-END *)
Inductive stream (d : dialect) : list tok -> stream_tree -> Prop :=
| Stream_explicit e ts docs : explicit_documents d ts docs ->
    stream d (TStreamStart e :: ts ++ [TStreamEnd]) (mkStreamTree e docs)
| Stream_implicit e is i ts docs : implicit_document d is i -> explicit_documents d ts docs ->
    stream d (TStreamStart e :: is ++ ts ++ [TStreamEnd]) (mkStreamTree e (i :: docs)).
