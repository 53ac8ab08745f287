(* Model of the scanner, scanner.c:742-1913, at the level of allocated blocks:
   the token queue, the stacks of simple keys and of indentations, and the
   strings of the tokens (HeapLexModel.v), for any answers of the allocator.  The
   functions are those of ScannerModel.v in the order of the statements of the C
   code; HeapScanSim.v relates the two.  A scanner error is recorded as in
   ScannerModel.v; the limits of INT_MAX (1172, 1224) count as scanner errors
   there (SLimit).  What is left in the input after a failing call is not
   represented. *)
From Verif Require Import Base ReaderModel Utf8Spec CharSpec Types CursorModel ScanModel ParserModel DocModel
  HeapModel HeapLoaderModel HeapTokenModel HeapLexModel ScannerModel.
Delimit Scope hm_scope with hm_scope.

(* The part of yaml_parser_t, include/yaml.h:1090-1290, that the scanner uses.
   [y_sc] has the fields that are not in blocks; its own lists of tokens, indents
   and simple keys are not used.  The last element of a stack is its top. *)
Record ysc := mkY {
  y_sc : sc;
  y_raw : ptr; y_buffer : ptr;
  y_tokens : arr htoken; y_indents : arr Z; y_keys : arr skey }.
Definition with_sc y s := mkY s (y_raw y) (y_buffer y) (y_tokens y) (y_indents y) (y_keys y).
Definition with_tokens y q := mkY (y_sc y) (y_raw y) (y_buffer y) q (y_indents y) (y_keys y).
Definition with_indents y a := mkY (y_sc y) (y_raw y) (y_buffer y) (y_tokens y) a (y_keys y).
Definition with_keys y a := mkY (y_sc y) (y_raw y) (y_buffer y) (y_tokens y) (y_indents y) a.

Inductive yres (A : Type) :=
| YOk (a : A) (y : ysc) (h : heap)
| YErr (e : xerr) (y : ysc) (h : heap)     (* return 0 *)
| YUndef                                   (* undefined behaviour *)
| YFuel.
Arguments YOk {A}. Arguments YErr {A}. Arguments YUndef {A}. Arguments YFuel {A}.
Definition ym (A : Type) := ysc -> heap -> yres A.
Definition yret {A} (a : A) : ym A := fun y h => YOk a y h.
Definition ybind {A B} (m : ym A) (k : A -> ym B) : ym B := fun y h =>
  match m y h with YOk a y' h' => k a y' h' | YErr e y' h' => YErr e y' h' | YUndef => YUndef | YFuel => YFuel end.
Notation "x <% m ;; k" := (ybind m (fun x => k)) (at level 61, m at next level, right associativity).
Notation "m %; k" := (ybind m (fun _ => k)) (at level 61, right associativity).
Definition yget : ym ysc := fun y h => YOk y y h.
Definition yput (y : ysc) : ym unit := fun _ h => YOk tt y h.
Definition ymod (f : sc -> sc) : ym unit := fun y h => YOk tt (with_sc y (f (y_sc y))) h.
Definition yfail {A} (e : xerr) : ym A := fun y h => YErr e y h.
Definition yundef {A} : ym A := fun _ _ => YUndef.
Definition ymark (y : ysc) : mark := smark (y_sc y).
Definition yerror {A} (ctx : option mark) (p : sproblem) : ym A := fun y h => YErr (XScan (mkSerr p ctx (ymark y))) y h.
Definition yh {A} (m : hm A) : ym A := fun y h => match m h with HOk a h' => YOk a y h' | _ => YUndef end.
(* what concerns only the input *)
Definition yio {A} (m : cm A) : ym A := fun y h =>
  match m (s_cur (y_sc y)) with
  | COk a c => YOk a (with_sc y (set_cur (y_sc y) c)) h
  | CErr e => YErr (XScan e) y h
  | CBad => YUndef
  | CFuel => YFuel
  end.
(* a token scanner *)
Definition ylex {A} (m : xm A) : ym A := fun y h =>
  match m (s_cur (y_sc y)) null_frame h with
  | XOk a c _ h' => YOk a (with_sc y (set_cur (y_sc y) c)) h'
  | XErr e _ h' => YErr e y h'
  | XUndef => YUndef
  | XFuel => YFuel
  end.
Definition y_flow (y : ysc) : bool := in_flow (y_sc y).
Definition y_allow (b : bool) : ym unit := ymod (fun s => set_allowed s b).
(* parser->indent = i *)
Definition y_set_indent (i : Z) : ym unit := ymod (fun s => set_indents s i (s_indents s)).

(* The elements of an array lie within its block: a write past the end of the
   block is undefined *)
Definition fits {A} (a : arr A) : bool := (a_off a + length (a_els a) <=? a_cap a)%nat.
Definition within {A} (m : hm (arr A * bool)) : hm (arr A * bool) :=
  hbind m (fun r => if fits (fst r) then hret r else hundef).
(* PUSH, ENQUEUE, QUEUE_INSERT of the parser's arrays: on refusal parser->error is
   YAML_MEMORY_ERROR and the array is as it was *)
Definition y_enqueue (t : htoken) : ym bool :=
  y <% yget ;; r <% yh (within (h_push (y_tokens y) t)) ;; yput (with_tokens y (fst r)) %; yret (snd r).
Definition y_insert (number : N) (t : htoken) : ym bool :=
  y <% yget ;;
  let i := N.to_nat (number - s_parsed (y_sc y)) in
  if (s_parsed (y_sc y) <=? number) && (i <=? length (a_els (y_tokens y)))%nat
  then r <% yh (within (h_insert (y_tokens y) i t)) ;; yput (with_tokens y (fst r)) %; yret (snd r)
  else yundef.
Definition y_push_indent (i : Z) : ym bool :=
  y <% yget ;; r <% yh (within (h_push (y_indents y) i)) ;; yput (with_indents y (fst r)) %; yret (snd r).
Definition y_push_key (k : skey) : ym bool :=
  y <% yget ;; r <% yh (within (h_push (y_keys y) k)) ;; yput (with_keys y (fst r)) %; yret (snd r).
(* if (!...) return 0 *)
Definition y_try (m : ym bool) : ym unit := ok <% m ;; if ok : bool then yret tt else yfail XMemory.
(* a token without strings *)
Definition y_token (t : htok) (s e : mark) : ym unit := y_try (y_enqueue (mkHtoken t s e false)).

(* *(parser->simple_keys.top-1): the key and writing to it *)
Definition y_top : ym skey :=
  y <% yget ;;
  match rev (a_els (y_keys y)) with
  | [] => yundef
  | k :: _ => yh (h_touch (a_at (y_keys y))) %; yret k
  end.
Definition set_els {A} (a : arr A) (l : list A) : arr A := mkArr (a_at a) l (a_off a) (a_cap a).
Definition y_set_top (k : skey) : ym unit :=
  y <% yget ;;
  match rev (a_els (y_keys y)) with
  | [] => yundef
  | _ :: r => yh (h_touch (a_at (y_keys y))) %; yput (with_keys y (set_els (y_keys y) (rev (k :: r))))
  end.
(* a loop over parser->simple_keys *)
Definition y_keys_touch : ym unit :=
  y <% yget ;;
  match a_els (y_keys y) with [] => yret tt | _ => yh (h_touch (a_at (y_keys y))) end.
Definition unset (k : skey) : skey := mkKey false (k_required k) (k_number k) (k_mark k).

(* yaml_parser_stale_simple_keys, 1056-1090 *)
Definition y_stale : ym unit :=
  y_keys_touch %;
  y <% yget ;;
  match stale (ymark y) (rev (a_els (y_keys y))) with
  | inr m => yerror (Some m) SNoColon
  | inl ks => yput (with_keys y (set_els (y_keys y) (rev ks)))
  end.
(* yaml_parser_remove_simple_key, 1134-1155 *)
Definition y_remove_key : ym unit :=
  k <% y_top ;;
  if k_possible k && k_required k then yerror (Some (k_mark k)) SNoColon
  else y_set_top (unset k).
(* yaml_parser_save_simple_key, 1097-1128 *)
Definition y_save_key : ym unit :=
  y <% yget ;;
  let required := negb (y_flow y) && (s_indent (y_sc y) =? Z.of_N (m_column (ymark y)))%Z in
  if s_allowed (y_sc y) then
    let k := mkKey true required (s_parsed (y_sc y) + nlen (a_els (y_tokens y))) (ymark y) in
    y_remove_key %; y_set_top k
  else yret tt.
(* yaml_parser_increase_flow_level, 1161-1181 *)
Definition y_increase : ym unit :=
  y_try (y_push_key key0) %;
  y <% yget ;;
  if s_flow (y_sc y) =? INT_MAX then yerror None SLimit
  else ymod (fun s => set_flow s (s_flow s + 1)).
(* yaml_parser_decrease_flow_level, 1187-1196 *)
Definition y_decrease : ym unit :=
  y <% yget ;;
  if s_flow (y_sc y) =? 0 then yret tt else
  ymod (fun s => set_flow s (s_flow s - 1)) %;
  r <% yh (h_pop (y_keys y)) ;;
  y <% yget ;; yput (with_keys y (snd r)).
(* yaml_parser_roll_indent, 1205-1249 *)
Definition y_roll (column : N) (number : option N) (t : htok) (m : mark) : ym unit :=
  y <% yget ;;
  if y_flow y then yret tt else
  if (s_indent (y_sc y) <? Z.of_N column)%Z then
    y_try (y_push_indent (s_indent (y_sc y))) %;
    if INT_MAX <? column then yerror None SLimit else
    y_set_indent (Z.of_N column) %;
    match number with
    | None => y_token t m m
    | Some n => y_try (y_insert n (mkHtoken t m m false))
    end
  else yret tt.
(* yaml_parser_unroll_indent, 1258-1285 *)
Fixpoint y_unroll_n (n : nat) (column : Z) : ym unit :=
  y <% yget ;;
  if (column <? s_indent (y_sc y))%Z then
    match n with
    | O => fun _ _ => YFuel
    | S n' =>
        y_token HTBlockEnd (ymark y) (ymark y) %;
        y <% yget ;;
        r <% yh (h_pop (y_indents y)) ;;
        yput (with_indents y (snd r)) %;
        y_set_indent (fst r) %;
        y_unroll_n n' column
    end
  else yret tt.
Definition y_unroll (column : Z) : ym unit :=
  y <% yget ;;
  if y_flow y then yret tt else y_unroll_n (S (length (a_els (y_indents y)))) column.

(* yaml_parser_fetch_stream_start, 1291-1323 *)
Definition y_stream_start : ym unit :=
  y_set_indent (-1)%Z %;
  y_try (y_push_key key0) %;
  y_allow true %;
  ymod (fun s => set_started s true) %;
  y <% yget ;;
  y_token (HTStreamStart (s_enc (y_sc y))) (ymark y) (ymark y).
(* 1338-1346, 1372-1382, 1409-1418 *)
Definition y_reset : ym unit := y_unroll (-1)%Z %; y_remove_key %; y_allow false.
(* yaml_parser_fetch_stream_end, 1329-1361 *)
Definition y_stream_end : ym unit :=
  yio force_line %; y_reset %; y <% yget ;; y_token HTStreamEnd (ymark y) (ymark y).
(* a scanned token is appended to the queue; if that is refused it is deleted:
   1391-1396, 1784-1788, ... *)
Definition y_scanned (m : xm htoken) : ym unit :=
  t <% ylex m ;;
  ok <% y_enqueue t ;;
  if ok : bool then yret tt else yh (token_delete (ht_tok t)) %; yfail XMemory.
(* yaml_parser_fetch_directive, 1367-1397 *)
Definition y_directive : ym unit := y_reset %; y_scanned x_directive.
(* n characters consumed and a token made of them *)
Definition y_chars (n : nat) (t : htok) : ym unit :=
  y <% yget ;; yio (skip_n n) %; y' <% yget ;; y_token t (ymark y) (ymark y').
(* yaml_parser_fetch_document_indicator, 1403-1442 *)
Definition y_document_indicator (t : htok) : ym unit := y_reset %; y_chars 3 t.
(* yaml_parser_fetch_flow_collection_start, 1448-1485 *)
Definition y_flow_start (t : htok) : ym unit := y_save_key %; y_increase %; y_allow true %; y_chars 1 t.
(* yaml_parser_fetch_flow_collection_end, 1491-1528 *)
Definition y_flow_end (t : htok) : ym unit := y_remove_key %; y_decrease %; y_allow false %; y_chars 1 t.
(* yaml_parser_fetch_flow_entry, 1534-1563 *)
Definition y_flow_entry : ym unit := y_remove_key %; y_allow true %; y_chars 1 HTFlowEntry.
(* 1577-1592, 1638-1653 and 1727-1742 *)
Definition y_block_start (p : sproblem) (t : htok) : ym unit :=
  y <% yget ;;
  if y_flow y then yret tt else
  if negb (s_allowed (y_sc y)) then yerror None p else
  y_roll (m_column (ymark y)) None t (ymark y).
(* yaml_parser_fetch_block_entry, 1569-1624 *)
Definition y_block_entry : ym unit :=
  y_block_start SBlockEntry HTBlockSeqStart %; y_remove_key %; y_allow true %; y_chars 1 HTBlockEntry.
(* yaml_parser_fetch_key, 1630-1677 *)
Definition y_key : ym unit :=
  y_block_start SMapKey HTBlockMapStart %; y_remove_key %;
  y <% yget ;; y_allow (negb (y_flow y)) %; y_chars 1 HTKey.
(* yaml_parser_fetch_value, 1683-1759 *)
Definition y_value : ym unit :=
  y <% yget ;;
  k <% y_top ;;
  (if k_possible k then
     y_try (y_insert (k_number k) (mkHtoken HTKey (k_mark k) (k_mark k) false)) %;
     y_roll (m_column (k_mark k)) (Some (k_number k)) HTBlockMapStart (k_mark k) %;
     y_set_top (unset k) %;
     y_allow false
   else
     y_block_start SMapValue HTBlockMapStart %;
     y_allow (negb (y_flow y))) %;
  y_chars 1 HTValue.
(* yaml_parser_fetch_anchor, 1765-1789 *)
Definition y_anchor (anchor : bool) : ym unit := y_save_key %; y_allow false %; y_scanned (x_anchor anchor).
(* yaml_parser_fetch_tag, 1795-1820 *)
Definition y_tag : ym unit := y_save_key %; y_allow false %; y <% yget ;; y_scanned (x_tag (y_flow y)).
(* yaml_parser_fetch_block_scalar, 1826-1851 *)
Definition y_block_scalar (literal : bool) : ym unit :=
  y_remove_key %; y_allow true %; y <% yget ;; y_scanned (x_block_scalar (s_indent (y_sc y)) literal).
(* yaml_parser_fetch_flow_scalar, 1857-1882 *)
Definition y_flow_scalar (single : bool) : ym unit := y_save_key %; y_allow false %; y_scanned (x_flow_scalar single).
(* yaml_parser_fetch_plain_scalar, 1888-1913; simple_key_allowed is set at 3592 *)
Definition y_plain_scalar : ym unit :=
  y_save_key %; y_allow false %; y <% yget ;;
  r <% ylex (x_plain_scalar (y_flow y) (s_indent (y_sc y))) ;;
  (if snd r then y_allow true else yret tt) %;
  ok <% y_enqueue (fst r) ;;
  if ok : bool then yret tt else yh (token_delete (ht_tok (fst r))) %; yfail XMemory.

Definition y_branch (b : branch) : ym unit :=
  match b with
  | BStreamEnd => y_stream_end
  | BDirective => y_directive
  | BDocStart => y_document_indicator HTDocStart
  | BDocEnd => y_document_indicator HTDocEnd
  | BFlowSeqStart => y_flow_start HTFlowSeqStart
  | BFlowMapStart => y_flow_start HTFlowMapStart
  | BFlowSeqEnd => y_flow_end HTFlowSeqEnd
  | BFlowMapEnd => y_flow_end HTFlowMapEnd
  | BFlowEntry => y_flow_entry
  | BBlockEntry => y_block_entry
  | BKey => y_key
  | BValue => y_value
  | BAlias => y_anchor false
  | BAnchor => y_anchor true
  | BTag => y_tag
  | BLiteral => y_block_scalar true
  | BFolded => y_block_scalar false
  | BSingle => y_flow_scalar true
  | BDouble => y_flow_scalar false
  | BPlain => y_plain_scalar
  | BError => y <% yget ;; yerror (Some (ymark y)) SCannotStart
  end.
(* yaml_parser_fetch_next_token, 860-1049 *)
Definition y_next : ym unit :=
  yio (cache 1) %;
  y <% yget ;;
  if negb (s_started (y_sc y)) then y_stream_start else
  a <% yio (scan_to_next_token (y_flow y) (s_allowed (y_sc y))) ;;
  y_allow a %;
  y_stale %;
  y <% yget ;;
  y_unroll (Z.of_N (m_column (ymark y))) %;
  yio (cache 4) %;
  b <% yio (choose (y_flow y)) ;;
  y_branch b.
(* yaml_parser_fetch_more_tokens, 800-854 *)
Definition y_need : ym bool :=
  y <% yget ;;
  match a_els (y_tokens y) with
  | [] => yret true
  | _ =>
      y_stale %; y_keys_touch %; y <% yget ;;
      yret (existsb (fun k => k_possible k && (k_number k =? s_parsed (y_sc y))) (rev (a_els (y_keys y))))
  end.
Fixpoint y_more_n (n : nat) : ym unit :=
  match n with
  | O => fun _ _ => YFuel
  | S n' => need <% y_need ;; if need : bool then y_next %; y_more_n n' else ymod (fun s => set_avail s true)
  end.
Definition y_more : ym unit := y <% yget ;; y_more_n (length (c_text (s_cur (y_sc y))) + 3).

(* yaml_parser_scan, 742-776, on a parser on which no call has failed; None: no
   token (751-753) *)
Definition y_deep (y : ysc) : bool :=
  negb (Z.of_nat (length (a_els (y_indents y))) <? s_nest (y_sc y) - Z.of_N (s_flow (y_sc y)))%Z.
Definition y_scan : ym (option htoken) :=
  y <% yget ;;
  if s_ended (y_sc y) then yret None else
  (if s_avail (y_sc y) then yret tt else y_more) %;
  y <% yget ;;
  r <% yh (h_dequeue (y_tokens y)) ;;
  let t := fst r in
  yput (with_tokens y (snd r)) %;
  ymod (fun s => mkSc (s_cur s) (s_enc s) (s_started s) (s_ended s || is_hstream_end (ht_tok t)) (s_error s) (s_flow s)
                   (s_tokens s) (s_parsed s + 1) false (s_indents s) (s_indent s) (s_allowed s) (s_keys s) (s_nest s)) %;
  yret (Some (mkHtoken (ht_tok t) (ht_start t) (ht_end t) (y_deep y))).

(* PEEK_TOKEN, parser.c:48-50: the token at the head of the queue, after
   yaml_parser_fetch_more_tokens where none is ready.  If that fails the input is
   not looked at again. *)
Definition y_with_deep (y : ysc) (t : htoken) : htoken := mkHtoken (ht_tok t) (ht_start t) (ht_end t) (y_deep y).
Definition y_head (y : ysc) : hm (ysc * (htoken + xerr)) :=
  match a_els (y_tokens y) with
  | [] => hundef
  | t :: _ => hbind (h_touch (a_at (y_tokens y))) (fun _ => hret (y, inl (y_with_deep y t)))
  end.
Definition y_peek (y : ysc) : hm (ysc * (htoken + xerr)) :=
  if s_avail (y_sc y) then y_head y else fun h =>
  match y_more y h with
  | YOk _ y' h' => y_head y' h'
  | YErr e y' h' =>
      HOk (with_sc y' (match e with XScan e => set_error (y_sc y) e | _ => y_sc y end), inr e) h'
  | YUndef | YFuel => HUndef
  end.
(* SKIP_TOKEN, parser.c:56-61 *)
Definition y_skip (y : ysc) : hm ysc :=
  hbind (h_dequeue (y_tokens y)) (fun r =>
  let s := y_sc y in
  hret (with_sc (with_tokens y (snd r))
    (mkSc (s_cur s) (s_enc s) (s_started s) (is_hstream_end (ht_tok (fst r))) (s_error s) (s_flow s)
       (s_tokens s) (s_parsed s + 1) false (s_indents s) (s_indent s) (s_allowed s) (s_keys s) (s_nest s)))).
(* no scanner delivers more tokens than this, ScanRest.v; the bound of loops that
   consume tokens *)
Definition y_left (y : ysc) : nat := 4 * (N.to_nat (m_index (ymark y)) + length (c_text (s_cur (y_sc y)))) + 4.
Definition y_ended (y : ysc) : bool := s_ended (y_sc y).
