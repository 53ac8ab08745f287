(* Properties C08-C12 and C48: string handlers, UTF-8 check, containers,
   document building, character macros.  Statements only. *)
From Verif Require Import Base Utf8Spec ReaderModel ApiModel ApiSpec ApiProofs
  ContainerModel ContainerSpec ContainerProofs Types DocModel DocSpec DocProofs CharSpec CharModel CharProofs.

(* C08: for every sequence of requested sizes, the blocks delivered are the
   input cut in pieces no longer than requested; the next byte delivered is
   always the next byte of the input. *)
Theorem C08_string_input data sizes :
  let (blocks, s) := string_reads (sread_init data) sizes in
  concat blocks ++ skipn (N.to_nat (sr_cur s)) data = data /\ sr_cur s <= nlen data /\
  Forall2 (fun bs n => nlen bs <= n) blocks sizes.
Proof. exact (string_reads_whole data sizes). Qed.
Print Assumptions C08_string_input.

(* End of file (no bytes for a positive size) is reported only at the end. *)
Theorem C08_string_eof data sizes n : 0 < n ->
  let s := snd (string_reads (sread_init data) sizes) in
  fst (string_read s n) = [] <-> concat (fst (string_reads (sread_init data) sizes)) = data.
Proof. exact (string_read_eof_iff data sizes n). Qed.
Print Assumptions C08_string_eof.

(* It is a handler in the sense of the reader model (so C01-C05 apply). *)
Theorem C08_string_is_handler s n : sr_cur s <= nlen (sr_data s) ->
  handler_read (skipn (N.to_nat (sr_cur s)) (sr_data s)) [] n =
  Some (fst (string_read s n), skipn (N.to_nat (sr_cur (snd (string_read s n)))) (sr_data s), []).
Proof. exact (string_read_is_handler s n). Qed.
Print Assumptions C08_string_is_handler.

Example C08_nonvacuous : string_reads (sread_init [1; 2; 3; 4; 5]) [2; 2; 2; 2] = ([[1; 2]; [3; 4]; [5]; []], mkSread [1; 2; 3; 4; 5] 5).
Proof. vm_compute. reflexivity. Qed.

(* C09: for all blocks offered, the caller's buffer holds the first bytes of
   the output and is otherwise unchanged, the reported count is right, and a
   block that does not fit is refused.  (Sizes below 2^64.) *)
Theorem C09_string_output mem blocks : nlen mem < 18446744073709551616 ->
  string_writes (swrite_init mem) blocks =
  Some (mkSwrite (overlay mem (concat blocks)) (N.min (nlen mem) (nlen (concat blocks))), fits (nlen mem) 0 blocks).
Proof. exact (string_writes_all mem blocks). Qed.
Print Assumptions C09_string_output.

Example C09_nonvacuous : string_writes (swrite_init [90; 91; 92; 93]) [[1; 2]; [3]; [4; 5]; [6]] =
  Some (mkSwrite [1; 2; 3; 4] 4, [true; true; false; false]).
Proof. vm_compute. reflexivity. Qed.

(* C10: the check accepts exactly the concatenations of complete, shortest-form
   UTF-8 style sequences of values below 0x200000; it never reads outside. *)
Theorem C10_check_utf8 bs : Forall byte_ok bs ->
  exists b, utf8_accepted bs = Some b /\
    (b = true <-> exists cs, bs = utf8 cs /\ Forall (fun c => c < 0x200000) cs).
Proof. exact (utf8_accepted_spec bs). Qed.
Print Assumptions C10_check_utf8.

(* It is not a check for UTF-8: an encoded surrogate and a value above U+10FFFF
   are accepted. *)
Theorem C10_check_utf8_refuted : exists bs, utf8_accepted bs = Some true /\
  ~ exists cs, bs = utf8 cs /\ Forall scalar_value cs.
Proof. exact check_utf8_surrogate. Qed.
Print Assumptions C10_check_utf8_refuted.

Example C10_nonvacuous : utf8_accepted [0x61; 0xC3; 0xA9; 0xE2; 0x82; 0xAC; 0xF0; 0x9F; 0x98; 0x80] = Some true /\
  utf8_accepted [0xC0; 0x80] = Some false /\ utf8_accepted [0xE2; 0x82] = Some false /\ utf8_accepted [0xF4; 0x90; 0x80; 0x80] = Some true.
Proof. vm_compute. auto. Qed.

(* C11: a stack behaves as a list for every sequence of operations and every
   behaviour of the allocator; the only undefined operation is popping an empty
   stack. *)
Theorem C11_stack {A} sizeof (ops : list (stack_op A)) :
  (exists s os l, stack_run sizeof stack_init ops = Some (s, os) /\ stack_runs [] ops os l /\ stack_holds s l) \/
  (exists ops1 os ops2, ops = ops1 ++ SPop :: ops2 /\ stack_runs [] ops1 os []).
Proof. exact (stack_run_all sizeof ops). Qed.
Print Assumptions C11_stack.
(* ... and a push fails only if the allocator refuses or the size limit is near *)
Theorem C11_stack_no_error {A} sizeof (ops : list (stack_op A)) s os : Forall granted_s ops ->
  (16 + 2 * nlen ops) * sizeof < STACK_BYTES_LIMIT ->
  stack_run sizeof stack_init ops = Some (s, os) -> ~ In MemoryError os.
Proof. exact (stack_run_no_error sizeof ops s os). Qed.
Print Assumptions C11_stack_no_error.
Theorem C11_queue {A} size (ops : list (queue_op A)) : 1 <= size ->
  (exists q os l, queue_run (queue_init size) ops = Some (q, os) /\ queue_runs [] ops os l /\ queue_holds q l /\
     (Forall granted_q ops -> ~ In MemoryError os)) \/
  (exists ops1 op ops2 os l1, ops = ops1 ++ op :: ops2 /\ queue_runs [] ops1 os l1 /\ ~ queue_legal l1 op).
Proof. exact (queue_run_all size ops). Qed.
Print Assumptions C11_queue.
Theorem C11_string ops : Forall string_op_ok ops ->
  exists s os l, string_run string_init ops = Some (s, os) /\ string_runs [] ops os l /\
    firstn (N.to_nat (ys_ptr s)) (ys_mem s) = l /\ nth_error (ys_mem s) (N.to_nat (ys_ptr s)) = Some 0.
Proof. exact (string_run_all ops). Qed.
Print Assumptions C11_string.

Example C11_nonvacuous :
  match stack_run 4 stack_init (map (fun n => SPush n true) (seq 0 40) ++ [SPop; SPop]) with
  | Some (s, os) => stk_top s = 38 /\ nlen (stk_mem s) = 64 /\ nth_error os 40 = Some (Got 39%nat) | None => False end /\
  match queue_run (queue_init 2) [QEnqueue 1 true; QEnqueue 2 true; QInsert 1 3 true; QDequeue; QEnqueue 4 true; QEnqueue 5 true; QEnqueue 6 false] with
  | Some (q, os) => queue_holds q [3; 2; 4; 5] /\ os = [Done; Done; Done; Got 1; Done; Done; MemoryError] | None => False end /\
  match string_run string_init [StrPut [0xE2; 0x82; 0xAC] true; StrJoin (repeat 65 40) [true; true]; StrPut [66] false] with
  | Some (s, os) => os = [Done; Done; Done] /\ ys_ptr s = 44 | None => False end.
Proof. vm_compute. repeat split. Qed.

(* C12: every call of every history has the effect described by [call_ok], and
   the document stays closed; a history can only be cut short by a failed
   assertion, which (call_ok) happens exactly for ids that are not in use or
   name a node of the wrong kind. *)
Theorem C12_histories v tags si ei alloc d ops :
  document_initialize v tags si ei alloc = Some d ->
  Forall (fun o => op_bytes_ok (fst o)) ops ->
  d_nodes d = [] /\
  exists ops1 ops2, ops = ops1 ++ ops2 /\
    calls_ok d ops1 (fst (drun d ops)) (snd (drun d ops)) /\ closed (snd (drun d ops)) /\
    (ops2 = [] \/ exists rs, fst (drun d ops) = rs ++ [DAssert]).
Proof. exact (document_history v tags si ei alloc d ops). Qed.
Print Assumptions C12_histories.

Theorem C12_get_node d i n : get_node d i = Some n <-> exists k, i = Z.of_nat k /\ node_at d k = Some n.
Proof. exact (get_node_spec d i n). Qed.
Print Assumptions C12_get_node.
Theorem C12_get_node_range d i : (exists n, get_node d i = Some n) <-> (1 <= i <= Z.of_nat (length (d_nodes d)))%Z.
Proof. exact (get_node_some d i). Qed.
Print Assumptions C12_get_node_range.
Theorem C12_root d : get_root d = node_at d 1.
Proof. exact eq_refl. Qed.
Print Assumptions C12_root.

Example C12_nonvacuous :
  match document_initialize None [] true true true with
  | Some d => drun d [(AddMapping None AnyColl, true); (AddScalar None [0x6B] Plain, true); (AddSequence (Some [0x21; 0x61]) FlowColl, true);
      (AppendPair 1 2 3, true); (AppendItem 3 2, true); (AppendItem 3 3, true); (AddScalar None [0xFF] Plain, true); (AppendItem 2 1, true); (AppendItem 3 1, true)]
    = ([DRet 1; DRet 2; DRet 3; DRet 1; DRet 1; DRet 1; DRet 0; DAssert],
       mkDoc [mkNode default_mapping_tag (NMapping [(2, 3)]%nat AnyColl); mkNode default_scalar_tag (NScalar [0x6B] Plain);
              mkNode [0x21; 0x61] (NSequence [2; 3]%nat FlowColl)] None [] true true)
  | None => False end.
Proof. vm_compute. reflexivity. Qed.

(* C48: on the UTF-8 form of a character followed by anything, the byte-level
   tests classify that character, and WIDTH, MOVE and COPY advance over exactly
   that character. *)
Theorem C48_tests c rest : c < 0x200000 ->
  let bs := utf8_enc c ++ rest in
  IS_ALPHA_AT bs 0 = Some (is_alpha c) /\ IS_DIGIT_AT bs 0 = Some (is_digit c) /\ IS_HEX_AT bs 0 = Some (is_hex c) /\
  IS_ASCII_AT bs 0 = Some (is_ascii c) /\ IS_PRINTABLE_AT bs 0 = Some (is_printable c) /\ IS_Z_AT bs 0 = Some (is_z c) /\
  IS_BOM_AT bs 0 = Some (is_bom c) /\ IS_SPACE_AT bs 0 = Some (is_space c) /\ IS_TAB_AT bs 0 = Some (is_tab c) /\
  IS_BLANK_AT bs 0 = Some (is_blank c) /\ IS_BREAK_AT bs 0 = Some (is_break c) /\ IS_BREAKZ_AT bs 0 = Some (is_breakz c) /\
  IS_SPACEZ_AT bs 0 = Some (is_spacez c) /\ IS_BLANKZ_AT bs 0 = Some (is_blankz c) /\
  (forall o, o < 0x80 -> CHECK_AT bs o 0 = Some (c =? o)).
Proof. exact (all_tests_ok c rest). Qed.
Print Assumptions C48_tests.
(* the same at any character position of a text (the _AT forms used by the scanner) *)
Theorem C48_position pre bs k o :
  CHECK_AT (pre ++ bs) o (length pre + k) = CHECK_AT bs o k /\
  IS_BLANKZ_AT (pre ++ bs) (length pre + k) = IS_BLANKZ_AT bs k /\
  IS_BREAKZ_AT (pre ++ bs) (length pre + k) = IS_BREAKZ_AT bs k /\
  IS_HEX_AT (pre ++ bs) (length pre + k) = IS_HEX_AT bs k /\
  IS_PRINTABLE_AT (pre ++ bs) (length pre + k) = IS_PRINTABLE_AT bs k.
Proof. exact (at_position pre bs k o). Qed.
Print Assumptions C48_position.
Theorem C48_values c rest :
  (is_digit c = true -> AS_DIGIT_AT (utf8_enc c ++ rest) 0 = Some (as_digit c)) /\
  (is_hex c = true -> AS_HEX_AT (utf8_enc c ++ rest) 0 = Some (as_hex c)).
Proof. exact (digit_values c rest). Qed.
Print Assumptions C48_values.
Theorem C48_moves c rest : c < 0x200000 ->
  let bs := utf8_enc c ++ rest in
  WIDTH_AT bs 0 = Some (nlen (utf8_enc c)) /\ MOVE bs = Some rest /\ COPY bs = Some (utf8_enc c, rest).
Proof. exact (fun H => conj (width_ok c rest H) (conj (move_ok c rest H) (copy_ok c rest H))). Qed.
Print Assumptions C48_moves.
Theorem C48_crlf c d rest : c < 0x200000 -> d < 0x200000 ->
  IS_CRLF_AT (utf8_enc c ++ utf8_enc d ++ rest) 0 = Some ((c =? 0xD) && (d =? 0xA)).
Proof. exact (crlf_ok c d rest). Qed.
Print Assumptions C48_crlf.

Example C48_nonvacuous : IS_BREAK_AT (utf8 [0x2028; 0x61]) 0 = Some true /\ IS_PRINTABLE_AT (utf8 [0xFEFF; 0x61]) 0 = Some false /\
  COPY (utf8 [0x1F600; 0x61]) = Some ([0xF0; 0x9F; 0x98; 0x80], [0x61]).
Proof. vm_compute. auto. Qed.
