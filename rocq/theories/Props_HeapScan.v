(* Who owns which memory: programs that scan a text. *)
From Coq Require Import Permutation.
From Verif Require Import Base ReaderModel Types CursorModel ScanModel DocModel HeapModel HeapSpec HeapEvents HeapTokenModel HeapTokenSpec HeapLexModel ScannerModel ScannerSpec HeapScanModel HeapScanSpec HeapParserModel HeapScanProg HeapScanFinal.

(* C60: for any heap, any answers of the allocator, any text (valid or ill-formed
   at its end), any split of it by the read handler, any nesting limit, a program
   that initialises a parser, makes up to [n] calls of yaml_parser_scan, and
   deletes the tokens, before or after the parser, and the parser: it comes to an
   end; no call touches memory that is not allocated, writes behind the end of
   a block or frees a block twice; afterwards the blocks allocated are those there were
   before. *)
Theorem C60_no_leak : forall e nest T bad plan n first h, good h ->
  exists toks en h', scan_program (init_scanner e nest T bad plan) n first h = HOk (toks, en) h' /\ Permutation (live h') (live h).
Proof. intros e nest T bad plan n first h G. destruct (scan_history e nest T bad plan n first h G) as (toks & en & h' & E & P & _). exists toks, en, h'. auto. Qed.
Print Assumptions C60_no_leak.

(* "!e!t x": a tag and a scalar; "!<t> x": a verbatim tag *)
Definition tagged_x : list N := [0x21; 0x65; 0x21; 0x74; 0x20; 0x78].
Definition verbatim_x : list N := [0x21; 0x3C; 0x74; 0x3E; 0x20; 0x78].
Definition text_of (T : list N) : sc := init_scanner Utf8Enc 100 T false [].
(* the tokens, how it ended, and the number of blocks that are left *)
Definition run (T : list N) (n : nat) (first : bool) (answers : list bool) : option (list tok * ending * nat) :=
  match scan_program (text_of T) n first (empty_heap answers) with HOk (ts, e) h => Some (map t_tok ts, e, length (live h)) | _ => None end.
Definition refuse (n : nat) : list bool := repeat true n ++ [false].
Example C60_whole_text :
  run tagged_x 9 true [] = Some ([TStreamStart Utf8Enc; TTag [33; 101; 33] [116]; TScalar [120] Plain; TStreamEnd], AtEnd, 0%nat)
  /\ run tagged_x 9 false [] = run tagged_x 9 true [].
Proof. vm_compute. split; reflexivity. Qed.
(* Requests 0 to 7 are those of yaml_parser_initialize, 8 and 9 those for the
   tag, 10 to 13 those for the scalar, which is scanned before the tag is
   returned. *)
Example C60_refused :
  map (fun n => run tagged_x 9 true (refuse n)) [7; 8; 12]%nat
  = [Some ([], NoParser, 0%nat); Some ([TStreamStart Utf8Enc], CallFailed XMemory, 0%nat); Some ([TStreamStart Utf8Enc], CallFailed XMemory, 0%nat)].
Proof. vm_compute. reflexivity. Qed.
(* the blocks of the allocator are really used: 8 by the parser, 3 by the tokens
   of "!e!t x" *)
Example C60_in_use :
  match parser_initialize (text_of tagged_x) (empty_heap []) with
  | HOk (Some p) h => match take_tokens 9 (hp_scan p) h with Taken ts _ _ h' => Some (length (live h), length (live h')) | TakenUndef => None end
  | _ => None
  end = Some (8, 11)%nat.
Proof. vm_compute. reflexivity. Qed.

(* C60: the tokens that such a program is given are the first ones of those of the calls of ScannerModel.v,
   of which C13 to C19 speak; unless memory was refused they are all of them, and
   the last call ends in the same way. *)
Theorem C60_same_tokens : forall e nest T bad plan n first h, good h ->
  exists toks en h', scan_program (init_scanner e nest T bad plan) n first h = HOk (toks, en) h' /\
    (exists rest, fst (scan_all n (init_scanner e nest T bad plan)) = toks ++ rest) /\
    (by_memory en = false -> scan_all n (init_scanner e nest T bad plan) = (toks, snd (scan_all n (init_scanner e nest T bad plan))) /\
       en = ending_of (snd (scan_all n (init_scanner e nest T bad plan)))).
Proof.
  intros e nest T bad plan n first h G. destruct (scan_history e nest T bad plan n first h G) as (toks & en & h' & E & _ & P & R). exists toks, en, h'. split; [exact E|]. split; [exact P|].
  intros F. rewrite F in R. destruct R as [-> R]. split; [apply surjective_pairing|exact R].
Qed.
Print Assumptions C60_same_tokens.
Example C60_same_tokens_error :
  match run [0x21; 0x3C; 0x74] 9 true [] with Some (_, e, _) => e | None => NoParser end
  = ending_of (snd (scan_all 9 (text_of [0x21; 0x3C; 0x74])))
  /\ exists er, snd (scan_all 9 (text_of [0x21; 0x3C; 0x74])) = Failed er.
Proof. split; [vm_compute; reflexivity|eexists; vm_compute; reflexivity]. Qed.

(* C60: such a program ends for want of memory (yaml_parser_initialize fails, or
   a call fails with YAML_MEMORY_ERROR, or without an error, see below) only if the
   allocator refuses a request. *)
Theorem C60_memory_only : forall e nest T bad plan n first h, good h -> generous h ->
  exists toks en h', scan_program (init_scanner e nest T bad plan) n first h = HOk (toks, en) h' /\ by_memory en = false.
Proof.
  intros e nest T bad plan n first h G Y. destruct (scan_history e nest T bad plan n first h G) as (toks & en & h' & E & _ & _ & R). exists toks, en, h'. split; [exact E|].
  destruct (by_memory en); [contradiction|reflexivity].
Qed.
Print Assumptions C60_memory_only.
Example C60_generous : good (empty_heap []) /\ generous (empty_heap []) /\ good (empty_heap (refuse 3)) /\ ~ generous (empty_heap (refuse 3)).
Proof.
  assert (E : forall g, good (empty_heap g)) by (intros g; apply good_empty).
  split; [apply E|]. split; [intros []|]. split; [apply E|]. intros H. apply H. cbn. auto 10.
Qed.

(* C60, where the code falls short: "a call that fails sets parser->error".  Not so when
   the handle of a verbatim or of a default tag is refused (scanner.c:2403-2404,
   2455-2456): yaml_parser_scan returns 0 and parser->error is
   YAML_NO_ERROR. *)
Theorem C60_error_unset_refuted : exists T h toks h', good h /\
  scan_program (text_of T) 9 true h = HOk (toks, CallFailed XUnset) h'.
Proof.
  exists verbatim_x, (empty_heap (refuse 8)).
  destruct (scan_program (text_of verbatim_x) 9 true (empty_heap (refuse 8))) as [[toks en] h'| |] eqn:E; [|vm_compute in E; discriminate E|vm_compute in E; discriminate E].
  exists toks, h'. split; [apply good_empty|]. assert (K : en = CallFailed XUnset); [|rewrite K; reflexivity].
  vm_compute in E. injection E as _ <- _. reflexivity.
Qed.
Print Assumptions C60_error_unset_refuted.
