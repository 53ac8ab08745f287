(* Model of the token queue, simple keys, indentation and token fetchers of
   scanner.c:742-1913. *)
From Verif Require Import Base ReaderModel Utf8Spec CharSpec Types CursorModel ScanModel.

(* include/yaml.h:1001-1015 yaml_simple_key_t *)
Record skey := mkKey { k_possible : bool; k_required : bool; k_number : N; k_mark : mark }.
Definition key0 : skey := mkKey false false 0 mark0.

(* The scanner's part of yaml_parser_t, include/yaml.h:1180-1250.  The first
   element of [s_indents] and of [s_keys] is the top of the stack; the first
   element of [s_tokens] is the head of the queue. *)
Record sc := mkSc {
  s_cur : cur;                 (* buffer, unread, mark *)
  s_enc : encoding;            (* encoding *)
  s_started : bool;            (* stream_start_produced *)
  s_ended : bool;              (* stream_end_produced *)
  s_error : option serr;       (* error, problem, marks *)
  s_flow : N;                  (* flow_level *)
  s_tokens : list token;       (* tokens *)
  s_parsed : N;                (* tokens_parsed *)
  s_avail : bool;              (* token_available *)
  s_indents : list Z;          (* indents *)
  s_indent : Z;                (* indent *)
  s_allowed : bool;            (* simple_key_allowed *)
  s_keys : list skey;          (* simple_keys *)
  s_nest : Z }.                (* MAX_NESTING_LEVEL, parser.c:67 *)

Definition set_cur s c := mkSc c (s_enc s) (s_started s) (s_ended s) (s_error s) (s_flow s) (s_tokens s) (s_parsed s) (s_avail s) (s_indents s) (s_indent s) (s_allowed s) (s_keys s) (s_nest s).
Definition set_started s b := mkSc (s_cur s) (s_enc s) b (s_ended s) (s_error s) (s_flow s) (s_tokens s) (s_parsed s) (s_avail s) (s_indents s) (s_indent s) (s_allowed s) (s_keys s) (s_nest s).
Definition set_error s e := mkSc (s_cur s) (s_enc s) (s_started s) (s_ended s) (Some e) (s_flow s) (s_tokens s) (s_parsed s) (s_avail s) (s_indents s) (s_indent s) (s_allowed s) (s_keys s) (s_nest s).
Definition set_flow s f := mkSc (s_cur s) (s_enc s) (s_started s) (s_ended s) (s_error s) f (s_tokens s) (s_parsed s) (s_avail s) (s_indents s) (s_indent s) (s_allowed s) (s_keys s) (s_nest s).
Definition set_tokens s q := mkSc (s_cur s) (s_enc s) (s_started s) (s_ended s) (s_error s) (s_flow s) q (s_parsed s) (s_avail s) (s_indents s) (s_indent s) (s_allowed s) (s_keys s) (s_nest s).
Definition set_avail s b := mkSc (s_cur s) (s_enc s) (s_started s) (s_ended s) (s_error s) (s_flow s) (s_tokens s) (s_parsed s) b (s_indents s) (s_indent s) (s_allowed s) (s_keys s) (s_nest s).
Definition set_indents s i l := mkSc (s_cur s) (s_enc s) (s_started s) (s_ended s) (s_error s) (s_flow s) (s_tokens s) (s_parsed s) (s_avail s) l i (s_allowed s) (s_keys s) (s_nest s).
Definition set_allowed s b := mkSc (s_cur s) (s_enc s) (s_started s) (s_ended s) (s_error s) (s_flow s) (s_tokens s) (s_parsed s) (s_avail s) (s_indents s) (s_indent s) b (s_keys s) (s_nest s).
Definition set_keys s k := mkSc (s_cur s) (s_enc s) (s_started s) (s_ended s) (s_error s) (s_flow s) (s_tokens s) (s_parsed s) (s_avail s) (s_indents s) (s_indent s) (s_allowed s) k (s_nest s).

Inductive sres (A : Type) :=
| SOk (a : A) (s : sc)
| SErr (e : serr)            (* return 0 *)
| SBad                       (* undefined behaviour *)
| SFuel.
Arguments SOk {A} a s. Arguments SErr {A} e. Arguments SBad {A}. Arguments SFuel {A}.
Definition sm (A : Type) := sc -> sres A.
Definition sret {A} (a : A) : sm A := fun s => SOk a s.
Definition sbind {A B} (m : sm A) (k : A -> sm B) : sm B := fun s =>
  match m s with SOk a s' => k a s' | SErr e => SErr e | SBad => SBad | SFuel => SFuel end.
Notation "x <~ m ;; k" := (sbind m (fun x => k)) (at level 61, m at next level, right associativity).
Notation "m ~;; k" := (sbind m (fun _ => k)) (at level 61, right associativity).
Definition get : sm sc := fun s => SOk s s.
Definition modify (f : sc -> sc) : sm unit := fun s => SOk tt (f s).
Definition smark (s : sc) : mark := c_mark (s_cur s).
Definition serror {A} (ctx : option mark) (p : sproblem) : sm A := fun s => SErr (mkSerr p ctx (smark s)).
Definition lift {A} (m : cm A) : sm A := fun s =>
  match m (s_cur s) with
  | COk a c => SOk a (set_cur s c)
  | CErr e => SErr e
  | CBad => SBad
  | CFuel => SFuel
  end.
Definition in_flow (s : sc) : bool := negb (s_flow s =? 0).
Definition allow (b : bool) : sm unit := modify (fun s => set_allowed s b).

(* ENQUEUE and QUEUE_INSERT of parser->tokens, yaml_private.h:468-493 *)
Definition enqueue (t : token) : sm unit := modify (fun s => set_tokens s (s_tokens s ++ [t])).
Definition queue_insert (number : N) (t : token) : sm unit := fun s =>
  let i := N.to_nat (number - s_parsed s) in
  if (s_parsed s <=? number) && (i <=? length (s_tokens s))%nat
  then SOk tt (set_tokens s (firstn i (s_tokens s) ++ t :: skipn i (s_tokens s)))
  else SBad.

(* yaml_parser_stale_simple_keys, 1056-1090, from the bottom of the stack *)
Fixpoint stale (m : mark) (keys : list skey) : list skey + mark :=
  match keys with
  | [] => inl []
  | k :: ks =>
      match stale m ks with
      | inr e => inr e
      | inl ks' =>
          if k_possible k && ((m_line (k_mark k) <? m_line m) || (m_index (k_mark k) + 1024 <? m_index m))
          then if k_required k then inr (k_mark k)
               else inl (mkKey false (k_required k) (k_number k) (k_mark k) :: ks')
          else inl (k :: ks')
      end
  end.
Definition stale_simple_keys : sm unit := fun s =>
  match stale (smark s) (s_keys s) with
  | inr m => SErr (mkSerr SNoColon (Some m) (smark s))
  | inl ks => SOk tt (set_keys s ks)
  end.

(* yaml_parser_remove_simple_key, 1134-1155 *)
Definition remove_simple_key : sm unit := fun s =>
  match s_keys s with
  | [] => SBad
  | k :: ks =>
      if k_possible k && k_required k then SErr (mkSerr SNoColon (Some (k_mark k)) (smark s))
      else SOk tt (set_keys s (mkKey false (k_required k) (k_number k) (k_mark k) :: ks))
  end.

(* yaml_parser_save_simple_key, 1097-1128 *)
Definition save_simple_key : sm unit :=
  s <~ get ;;
  let required := negb (in_flow s) && (s_indent s =? Z.of_N (m_column (smark s)))%Z in
  if s_allowed s then
    let k := mkKey true required (s_parsed s + nlen (s_tokens s)) (smark s) in
    remove_simple_key ~;;
    modify (fun s => set_keys s (k :: tl (s_keys s)))
  else sret tt.

Definition INT_MAX : N := 2147483647.
(* yaml_parser_increase_flow_level, 1161-1181 *)
Definition increase_flow_level : sm unit :=
  s <~ get ;;
  if s_flow s =? INT_MAX then serror None SLimit else
  modify (fun s => set_flow (set_keys s (key0 :: s_keys s)) (s_flow s + 1)).
(* yaml_parser_decrease_flow_level, 1187-1196 *)
Definition decrease_flow_level : sm unit := fun s =>
  if s_flow s =? 0 then SOk tt s else
  match s_keys s with
  | [] => SBad
  | _ :: ks => SOk tt (set_flow (set_keys s ks) (s_flow s - 1))
  end.

(* yaml_parser_roll_indent, 1205-1249 *)
Definition roll_indent (column : N) (number : option N) (t : tok) (m : mark) : sm unit :=
  s <~ get ;;
  if in_flow s then sret tt else
  if (s_indent s <? Z.of_N column)%Z then
    if INT_MAX <? column then serror None SLimit else
    modify (fun s => set_indents s (Z.of_N column) (s_indent s :: s_indents s)) ~;;
    match number with
    | None => enqueue (mkToken t m m false)
    | Some n => queue_insert n (mkToken t m m false)
    end
  else sret tt.

(* yaml_parser_unroll_indent, 1258-1285: the loop pops [indents] *)
Fixpoint unroll (m : mark) (column indent : Z) (indents : list Z) (q : list token)
  : option (Z * list Z * list token) :=
  if (column <? indent)%Z then
    match indents with
    | [] => None
    | i :: is => unroll m column i is (q ++ [mkToken TBlockEnd m m false])
    end
  else Some (indent, indents, q).
Definition unroll_indent (column : Z) : sm unit := fun s =>
  if in_flow s then SOk tt s else
  match unroll (smark s) column (s_indent s) (s_indents s) (s_tokens s) with
  | None => SBad
  | Some (i, is, q) => SOk tt (set_tokens (set_indents s i is) q)
  end.

(* yaml_parser_fetch_stream_start, 1291-1323 *)
Definition fetch_stream_start : sm unit :=
  modify (fun s => set_started (set_allowed (set_keys (set_indents s (-1)%Z (s_indents s)) (key0 :: s_keys s)) true) true) ~;;
  s <~ get ;;
  enqueue (mkToken (TStreamStart (s_enc s)) (smark s) (smark s) false).

(* unroll to the left margin and forget the simple key: 1338-1346, 1372-1382, 1409-1418 *)
Definition reset_block : sm unit :=
  unroll_indent (-1)%Z ~;; remove_simple_key ~;; allow false.

(* yaml_parser_fetch_stream_end, 1329-1361 *)
Definition force_line : cm unit := fun c =>
  let m := c_mark c in
  COk tt (if m_column m =? 0 then c
          else mkCur (c_text c) (c_unread c) (c_plan c) (c_bad c) (mkMark (m_index m) (m_line m + 1) 0)).
Definition fetch_stream_end : sm unit :=
  lift force_line ~;;
  reset_block ~;;
  s <~ get ;;
  enqueue (mkToken TStreamEnd (smark s) (smark s) false).

(* yaml_parser_fetch_directive, 1367-1397 *)
Definition fetch_directive : sm unit :=
  reset_block ~;;
  t <~ lift scan_directive ;;
  enqueue t.

(* n characters consumed and a token made of them *)
Definition fetch_chars (n : nat) (t : tok) : sm unit :=
  s <~ get ;;
  lift (skip_n n) ~;;
  s' <~ get ;;
  enqueue (mkToken t (smark s) (smark s') false).

(* yaml_parser_fetch_document_indicator, 1403-1442 *)
Definition fetch_document_indicator (t : tok) : sm unit :=
  reset_block ~;; fetch_chars 3 t.
(* yaml_parser_fetch_flow_collection_start, 1448-1485 *)
Definition fetch_flow_collection_start (t : tok) : sm unit :=
  save_simple_key ~;; increase_flow_level ~;; allow true ~;; fetch_chars 1 t.
(* yaml_parser_fetch_flow_collection_end, 1491-1528 *)
Definition fetch_flow_collection_end (t : tok) : sm unit :=
  remove_simple_key ~;; decrease_flow_level ~;; allow false ~;; fetch_chars 1 t.
(* yaml_parser_fetch_flow_entry, 1534-1563 *)
Definition fetch_flow_entry : sm unit :=
  remove_simple_key ~;; allow true ~;; fetch_chars 1 TFlowEntry.
(* the check and roll_indent of 1577-1592, 1638-1653 and 1727-1742 *)
Definition block_start (p : sproblem) (t : tok) : sm unit :=
  s <~ get ;;
  if in_flow s then sret tt else
  if negb (s_allowed s) then serror None p else
  roll_indent (m_column (smark s)) None t (smark s).
(* yaml_parser_fetch_block_entry, 1569-1624 *)
Definition fetch_block_entry : sm unit :=
  block_start SBlockEntry TBlockSeqStart ~;;
  remove_simple_key ~;; allow true ~;; fetch_chars 1 TBlockEntry.
(* yaml_parser_fetch_key, 1630-1677 *)
Definition fetch_key : sm unit :=
  block_start SMapKey TBlockMapStart ~;;
  remove_simple_key ~;;
  s <~ get ;;
  allow (negb (in_flow s)) ~;; fetch_chars 1 TKey.
(* yaml_parser_fetch_value, 1683-1759 *)
Definition fetch_value : sm unit :=
  s <~ get ;;
  match s_keys s with
  | [] => fun _ => SBad
  | k :: ks =>
      (if k_possible k then
         queue_insert (k_number k) (mkToken TKey (k_mark k) (k_mark k) false) ~;;
         roll_indent (m_column (k_mark k)) (Some (k_number k)) TBlockMapStart (k_mark k) ~;;
         modify (fun s => set_keys s (mkKey false (k_required k) (k_number k) (k_mark k) :: ks)) ~;;
         allow false
       else
         block_start SMapValue TBlockMapStart ~;;
         allow (negb (in_flow s)))
  end ~;;
  fetch_chars 1 TValue.
(* yaml_parser_fetch_anchor, 1765-1789 *)
Definition fetch_anchor (anchor : bool) : sm unit :=
  save_simple_key ~;; allow false ~;; t <~ lift (scan_anchor anchor) ;; enqueue t.
(* yaml_parser_fetch_tag, 1795-1820 *)
Definition fetch_tag : sm unit :=
  save_simple_key ~;; allow false ~;;
  s <~ get ;; t <~ lift (scan_tag (in_flow s)) ;; enqueue t.
(* yaml_parser_fetch_block_scalar, 1826-1851 *)
Definition fetch_block_scalar (literal : bool) : sm unit :=
  remove_simple_key ~;; allow true ~;;
  s <~ get ;; t <~ lift (scan_block_scalar (s_indent s) literal) ;; enqueue t.
(* yaml_parser_fetch_flow_scalar, 1857-1882 *)
Definition fetch_flow_scalar (single : bool) : sm unit :=
  save_simple_key ~;; allow false ~;; t <~ lift (scan_flow_scalar single) ;; enqueue t.
(* yaml_parser_fetch_plain_scalar, 1888-1913 *)
Definition fetch_plain_scalar : sm unit :=
  save_simple_key ~;; allow false ~;;
  s <~ get ;; r <~ lift (scan_plain_scalar (in_flow s) (s_indent s)) ;;
  (if snd r then allow true else sret tt) ~;;
  enqueue (fst r).

(* 1020-1039: may this character start a plain scalar?  First character 'x';
   the second one is looked at after '-', '?' and ':' only. *)
Definition plain_first (x : N) : bool :=
  negb (is_blankz x || existsb (fun y => x =? y)
    [0x2D; 0x3F; 0x3A; 0x2C; 0x5B; 0x5D; 0x7B; 0x7D; 0x23; 0x26; 0x2A; 0x21; 0x7C; 0x3E; 0x27; 0x22; 0x25; 0x40; 0x60]).
Definition plain_start (flow : bool) : cm bool :=
  orc (check 0 plain_first)
  (orc (andc (check 0 (eqc 0x2D)) (check 1 (fun x => negb (is_blank x))))
       (andc (ret (negb flow))
         (andc (check 0 (fun x => (x =? 0x3F) || (x =? 0x3A))) (check 1 (fun x => negb (is_blankz x)))))).

(* which branch of yaml_parser_fetch_next_token (860-1049) is taken *)
Inductive branch :=
| BStreamEnd | BDirective | BDocStart | BDocEnd
| BFlowSeqStart | BFlowMapStart | BFlowSeqEnd | BFlowMapEnd | BFlowEntry
| BBlockEntry | BKey | BValue | BAlias | BAnchor | BTag
| BLiteral | BFolded | BSingle | BDouble | BPlain | BError.
(* 888-1048 *)
Definition choose (flow : bool) : cm branch :=
  col <- column ;;
  x <- peek 0 ;;
  if is_z x then ret BStreamEnd else
  if (col =? 0) && (x =? 0x25) then ret BDirective else
  b <- andc (ret (col =? 0)) (andc (triple 0x2D) (check 3 is_blankz)) ;;
  if b then ret BDocStart else
  b <- andc (ret (col =? 0)) (andc (triple 0x2E) (check 3 is_blankz)) ;;
  if b then ret BDocEnd else
  if x =? 0x5B then ret BFlowSeqStart else
  if x =? 0x7B then ret BFlowMapStart else
  if x =? 0x5D then ret BFlowSeqEnd else
  if x =? 0x7D then ret BFlowMapEnd else
  if x =? 0x2C then ret BFlowEntry else
  b <- andc (ret (x =? 0x2D)) (check 1 is_blankz) ;;
  if b then ret BBlockEntry else
  b <- andc (ret (x =? 0x3F)) (orc (ret flow) (check 1 is_blankz)) ;;
  if b then ret BKey else
  b <- andc (ret (x =? 0x3A)) (orc (ret flow) (check 1 is_blankz)) ;;
  if b then ret BValue else
  if x =? 0x2A then ret BAlias else
  if x =? 0x26 then ret BAnchor else
  if x =? 0x21 then ret BTag else
  if (x =? 0x7C) && negb flow then ret BLiteral else
  if (x =? 0x3E) && negb flow then ret BFolded else
  if x =? 0x27 then ret BSingle else
  if x =? 0x22 then ret BDouble else
  p <- plain_start flow ;;
  if p then ret BPlain else ret BError.

Definition fetch_branch (b : branch) : sm unit :=
  match b with
  | BStreamEnd => fetch_stream_end
  | BDirective => fetch_directive
  | BDocStart => fetch_document_indicator TDocStart
  | BDocEnd => fetch_document_indicator TDocEnd
  | BFlowSeqStart => fetch_flow_collection_start TFlowSeqStart
  | BFlowMapStart => fetch_flow_collection_start TFlowMapStart
  | BFlowSeqEnd => fetch_flow_collection_end TFlowSeqEnd
  | BFlowMapEnd => fetch_flow_collection_end TFlowMapEnd
  | BFlowEntry => fetch_flow_entry
  | BBlockEntry => fetch_block_entry
  | BKey => fetch_key
  | BValue => fetch_value
  | BAlias => fetch_anchor false
  | BAnchor => fetch_anchor true
  | BTag => fetch_tag
  | BLiteral => fetch_block_scalar true
  | BFolded => fetch_block_scalar false
  | BSingle => fetch_flow_scalar true
  | BDouble => fetch_flow_scalar false
  | BPlain => fetch_plain_scalar
  | BError => fun s => serror (Some (smark s)) SCannotStart s
  end.

(* yaml_parser_fetch_next_token, 860-1049 *)
Definition fetch_next_token : sm unit :=
  lift (cache 1) ~;;
  s <~ get ;;
  if negb (s_started s) then fetch_stream_start else
  a <~ lift (scan_to_next_token (in_flow s) (s_allowed s)) ;;
  allow a ~;;
  stale_simple_keys ~;;
  s <~ get ;;
  unroll_indent (Z.of_N (m_column (smark s))) ~;;
  lift (cache 4) ~;;
  b <~ lift (choose (in_flow s)) ;;
  fetch_branch b.

(* yaml_parser_fetch_more_tokens, 800-854 *)
Definition head_may_be_key (s : sc) : bool :=
  existsb (fun k => k_possible k && (k_number k =? s_parsed s)) (s_keys s).
Fixpoint fetch_more_n (n : nat) : sm unit := fun s =>
  match n with
  | O => SFuel
  | S n' =>
      (need <~ (match s_tokens s with
                | [] => sret true
                | _ => stale_simple_keys ~;; s <~ get ;; sret (head_may_be_key s)
                end) ;;
       if need then fetch_next_token ~;; fetch_more_n n'
       else modify (fun s => set_avail s true)) s
  end.
Definition fetch_more_tokens : sm unit := fun s =>
  fetch_more_n (length (c_text (s_cur s)) + 3) s.

(* The test of parser.c:680-713 on the nesting, in the state in which the token
   is at the head of the queue *)
Definition is_deep (s : sc) : bool :=
  negb (Z.of_nat (length (s_indents s)) <? s_nest s - Z.of_N (s_flow s))%Z.

(* yaml_parser_scan, 742-776.  PEEK_TOKEN and SKIP_TOKEN (parser.c:13-22) do the
   same in two steps. *)
Inductive scan_out :=
| ScanToken (t : token) (s : sc)     (* return 1 with a token *)
| ScanNothing (s : sc)               (* return 1 with an empty token *)
| ScanFail (s : sc)                  (* return 0 *)
| ScanBad
| ScanFuel.
Definition is_stream_end (t : tok) : bool := match t with TStreamEnd => true | _ => false end.
Definition scan (s : sc) : scan_out :=
  if s_ended s || match s_error s with Some _ => true | None => false end then ScanNothing s else
  match (if s_avail s then SOk tt s else fetch_more_tokens s) with
  | SErr e => ScanFail (set_error s e)
  | SBad => ScanBad
  | SFuel => ScanFuel
  | SOk _ s =>
      match s_tokens s with
      | [] => ScanBad
      | t :: q =>
          ScanToken (mkToken (t_tok t) (t_start t) (t_end t) (is_deep s))
            (mkSc (s_cur s) (s_enc s) (s_started s) (s_ended s || is_stream_end (t_tok t)) (s_error s) (s_flow s) q
               (s_parsed s + 1) false (s_indents s) (s_indent s) (s_allowed s) (s_keys s) (s_nest s))
      end
  end.

(* yaml_parser_initialize, api.c:178-219, with an input *)
Definition init_cur (text : list N) (bad : bool) (plan : list nat) : cur := mkCur text 0 plan bad mark0.
Definition init_scanner (e : encoding) (nest : Z) (text : list N) (bad : bool) (plan : list nat) : sc :=
  mkSc (init_cur text bad plan) e false false None 0 [] 0 false [] 0%Z false [] nest.
