(* Who owns which memory: parsers, and programs that parse or load a text.

   The tokens that the parser is given are those of the scanner for
   the text: [fst (scan_all (4 * length T + 4) s)] are all of them (C17). *)
From Coq Require Import Permutation.
From Verif Require Import Base ReaderModel Types CursorModel ScanModel ScannerModel ScannerSpec ParserModel ParserSpec LoaderModel DocModel HeapModel HeapSpec HeapLoaderModel HeapLoad HeapParserModel HeapParserSpec ScanRest HeapClient HeapFinal.

(* C56: for any heap, any answers of the allocator, any text (valid or
   ill-formed at its end), any split of it by the read handler, and any sequence of
   calls of yaml_parser_parse and yaml_event_delete: yaml_parser_initialize either
   fails, because of a refusal, and leaves nothing behind, or succeeds; no call
   touches memory that is not allocated or frees a block twice; the blocks
   allocated are those there were before and those of the parser and of
   the events not yet deleted; the contents of the events returned are those of
   a history of calls on values (C20-C27), exactly those of the same number
   of calls if the allocator refuses nothing; and yaml_parser_delete, at any time,
   gives back exactly the blocks of the parser. *)
Theorem C56_parser_history : forall e nest T bad plan calls h, good h ->
  let s := init_scanner e nest T bad plan in let toks := fst (scan_all (4 * length T + 4) s) in
  match parser_initialize s h with
  | HOk None h' => Permutation (live h') (live h) /\ ~ generous h
  | HOk (Some p) h1 =>
      match parse_calls calls p [] h1 with
      | HOk (p', evs, seen) h2 =>
          Permutation (live h2) (hp_blocks p' ++ flat_map (fun x => ev_blocks (he_ev x)) evs ++ live h) /\
          (exists q, history toks seen q) /\
          (generous h -> seen = fst (parse_all (parses calls) (init_parser toks))) /\
          exists h3, parser_delete p' h2 = HOk tt h3 /\ Permutation (live h3) (flat_map (fun x => ev_blocks (he_ev x)) evs ++ live h)
      | HAssert | HUndef => False
      end
  | HAssert | HUndef => False
  end.
Proof. intros e nest T bad plan calls h G. apply (parser_history (init_scanner e nest T bad plan)); [unfold fresh; eauto 10|exact G]. Qed.
Print Assumptions C56_parser_history.

Definition text_of (T : list N) : sc := init_scanner Utf8Enc 100 T false [].
(* "%TAG !e! x" "--- &a !e!t b" *)
Definition tagged_doc : list N :=
  [0x25; 0x54; 0x41; 0x47; 0x20; 0x21; 0x65; 0x21; 0x20; 0x78; 0x0A; 0x2D; 0x2D; 0x2D; 0x20; 0x26; 0x61; 0x20; 0x21; 0x65; 0x21; 0x74; 0x20; 0x62]%N.
Definition refuse_nth (n : nat) : list bool := repeat true n ++ [false].
(* after initialisation (8 blocks), calls, and deletion of the parser: the events
   returned, and the blocks left before and after yaml_parser_delete *)
Definition story (T : list N) (calls : list pcall) (answers : list bool) : option (nat * nat * nat * nat) :=
  match parser_initialize (text_of T) (empty_heap answers) with
  | HOk (Some p) h1 =>
      match parse_calls calls p [] h1 with
      | HOk (p', evs, seen) h2 =>
          match parser_delete p' h2 with HOk _ h3 => Some (length seen, length (live h1), length (live h2), length (live h3)) | _ => None end
      | _ => None
      end
  | _ => None
  end.
(* seven calls; the events of the scalar (three strings) and of the document start
   (an array and two strings) are still held *)
Example C56_granted : story tagged_doc (repeat Parse 7) [] = Some (5, 8, 14, 6)%nat.
Proof. vm_compute. reflexivity. Qed.
Example C56_dropped : story tagged_doc ([Parse; Parse; Parse; Drop 1] ++ repeat Parse 3) [] = Some (5, 8, 11, 3)%nat.
Proof. vm_compute. reflexivity. Qed.
(* request number 20, made while the event of the scalar is built, is refused *)
Example C56_refused : story tagged_doc (repeat Parse 7) (refuse_nth 20) = Some (2, 8, 17, 3)%nat.
Proof. vm_compute. reflexivity. Qed.
Example C56_not_created : parser_initialize (text_of [0x61]) (empty_heap (refuse_nth 5)) = HOk None (mkHeap [] [[]; []; []; []; []]%N []).
Proof. vm_compute. reflexivity. Qed.
Example C56_good : good (empty_heap (refuse_nth 20)) /\ ~ generous (empty_heap (refuse_nth 20)) /\ generous (empty_heap []).
Proof. split; [split; [constructor|intros b []]|]. split; [intros g; apply g; cbn; tauto|intros []]. Qed.

(* C57: for any heap, any answers of the allocator and any text: loading up to [n]
   documents with yaml_parser_load touches no memory that is not allocated
   and frees no block twice.  The blocks allocated afterwards are those there
   were before, those of the parser, those of the documents, and
   [leaked]: none, unless the last call failed because of a refusal, and then
   at most one block or the blocks of one event (see C57_*_refuted).  The
   documents are the first ones of those loaded by the model on values
   (C28-C31), and exactly those if the allocator refuses nothing; deleting the
   documents and the parser gives back everything else. *)
Theorem C57_loader_history : forall e nest T bad plan fuel n h, good h -> (16 * length T + 16 <= fuel)%nat ->
  let s := init_scanner e nest T bad plan in let toks := fst (scan_all (4 * length T + 4) s) in
  match parser_initialize s h with
  | HOk None h' => Permutation (live h') (live h) /\ ~ generous h
  | HOk (Some p) h1 =>
      match load_calls fuel n p [] h1 with
      | HOk (p', docs, failed) h2 =>
          exists leaked,
          Permutation (live h2) (hp_blocks p' ++ flat_map doc_blocks docs ++ leaked ++ live h) /\
          ((length leaked <= 1)%nat \/ exists e, leaked = ev_blocks e) /\
          (leaked <> [] -> failed = true /\ ~ generous h) /\
          (exists rest, fst (loads_of fuel n (init_loader toks)) = map (document_at h2) docs ++ rest) /\
          (generous h -> (map (document_at h2) docs, failed) = loads_of fuel n (init_loader toks)) /\
          exists h3, (delete_docs docs ;;; parser_delete p') h2 = HOk tt h3 /\ Permutation (live h3) (leaked ++ live h)
      | HAssert | HUndef => False
      end
  | HAssert | HUndef => False
  end.
Proof.
  intros e nest T bad plan fuel n h G F. apply (loader_history (init_scanner e nest T bad plan)); [unfold fresh; eauto 10|exact G|].
  pose proof (upcoming_short _ (lively_init e nest T bad plan)) as L. change (left (init_scanner e nest T bad plan)) with (4 * length T + 4)%nat in L. lia.
Qed.
Print Assumptions C57_loader_history.

Definition load_story (T : list N) (n : nat) (answers : list bool) : option (nat * bool * nat * nat) :=
  match parser_initialize (text_of T) (empty_heap answers) with
  | HOk (Some p) h1 =>
      match load_calls 600 n p [] h1 with
      | HOk (p', docs, failed) h2 =>
          match (delete_docs docs ;;; parser_delete p') h2 with HOk _ h3 => Some (length docs, failed, length (live h2), length (live h3)) | _ => None end
      | _ => None
      end
  | _ => None
  end.
(* the document, and the empty document of the end of the stream *)
Example C57_granted : load_story tagged_doc 2 [] = Some (2, false, 15, 0)%nat.
Proof. vm_compute. reflexivity. Qed.
Example C57_refused : load_story tagged_doc 2 (refuse_nth 20) = Some (0, true, 14, 0)%nat.
Proof. vm_compute. reflexivity. Qed.

(* a program that loads, fails, and deletes the parser: blocks remain *)
Definition loses (T : list N) (answers : list bool) (n : nat) : Prop :=
  match parser_initialize (text_of T) (empty_heap answers) with
  | HOk (Some p) h1 =>
      match load_one 600 p h1 with
      | HOk (p', HLoadFailed) h2 => match parser_delete p' h2 with HOk _ h3 => length (live h3) = n | _ => False end
      | _ => False
      end
  | _ => False
  end.
(* yaml_parser_load: the array of aliases is refused after DOCUMENT-START was
   parsed; the tag directives of the event are lost (loader.c:113-114, 126-133) *)
Theorem C57_directives_leak_refuted : exists T answers, loses T answers 3.
Proof. exists tagged_doc, (refuse_nth 19). vm_compute. reflexivity. Qed.
Print Assumptions C57_directives_leak_refuted.
(* yaml_parser_load_sequence: the array of nodes is full and not extended, the
   new array of items is lost (loader.c:435-442, 455-458) *)
Theorem C57_items_leak_refuted : exists T answers, loses T answers 1.
Proof.
  exists (repeat 0x5B 17), (refuse_nth 53). (* seventeen brackets *)
  vm_compute. reflexivity.
Qed.
Print Assumptions C57_items_leak_refuted.
