(* Who owns which memory: emitters, and programs that use a parser and an emitter.

   The parser reads any text (its tokens are [fst (scan_all (4 * length T + 4) s)],
   C17); what analysing and emitting an event does is any list [ein] (see
   HeapEmitModel.v). *)
From Coq Require Import Permutation.
From Verif Require Import Base ReaderModel Types CursorModel ScanModel ScannerModel ScannerSpec ParserModel LoaderModel DocModel DumperModel HeapModel HeapSpec HeapLoaderModel HeapParserModel HeapParserSpec ScanRest HeapClient HeapFinal HeapEmitModel HeapEmitSpec HeapWorld HeapWorlds.

(* C58: for any heap, any answers of the allocator, any text, and any program
   that creates a parser and an emitter and then, in any order, loads documents
   (until one fails), builds documents, gives documents to yaml_emitter_dump,
   deletes documents, opens and closes the emitter and emits events: no call
   touches memory that is not allocated or frees a block twice; the program
   stops before its end only at an assertion of yaml_document_append_*; the
   blocks allocated at the end are those there were before and those of the
   parser, of the emitter and of the documents that the program still holds,
   and [leaked] (none, unless a load failed because of a refusal; see C57); each
   call did what the models on values say ([vrun]); and deleting what is held
   gives back everything else. *)
Theorem C58_document_programs : forall e nest T bad plan ein fuel calls h, good h -> (16 * length T + 16 <= fuel)%nat ->
  let s := init_scanner e nest T bad plan in let toks := fst (scan_all (4 * length T + 4) s) in
  match document_program fuel s ein calls h with
  | HOk None h' => Permutation (live h') (live h) /\ ~ generous h
  | HOk (Some w) h' =>
      exists leaked,
      Permutation (live h') (world_blocks w ++ leaked ++ live h) /\
      ((length leaked <= 1)%nat \/ exists e, leaked = ev_blocks e) /\
      (leaked <> [] -> w_failed w = true /\ ~ generous h) /\
      vrun (generous h) fuel calls (vworld0 toks) (world_at h' w) /\
      exists h'', world_delete w h' = HOk tt h'' /\ Permutation (live h'') (leaked ++ live h)
  | HAssert => asserts calls
  | HUndef => False
  end.
Proof.
  intros e nest T bad plan ein fuel calls h G F. apply (document_programs (init_scanner e nest T bad plan)); [unfold fresh; eauto 10|exact G|].
  pose proof (upcoming_short _ (lively_init e nest T bad plan)) as L. change (left (init_scanner e nest T bad plan)) with (4 * length T + 4)%nat in L. lia.
Qed.
Print Assumptions C58_document_programs.

(* "%TAG !e! x" "--- &a !e!t b" *)
Definition a_doc : list N :=
  [0x25; 0x54; 0x41; 0x47; 0x20; 0x21; 0x65; 0x21; 0x20; 0x78; 0x0A; 0x2D; 0x2D; 0x2D; 0x20; 0x26; 0x61; 0x20; 0x21; 0x65; 0x21; 0x74; 0x20; 0x62]%N.
Definition a_text : sc := init_scanner Utf8Enc 100 a_doc false [].
Definition refusing (n : nat) : list bool := repeat true n ++ [false].
Definition doc_story (calls : list wcall) (answers : list bool) : option (nat * nat * bool * nat * nat) :=
  match document_program 600 a_text [([ELook], true); ([EPushState; EDirective 0; EDefault [33] [33]], true); ([ELook; ETags], true)]%N calls (empty_heap answers) with
  | HOk (Some w) h1 =>
      match world_delete w h1 with
      | HOk _ h2 => Some (length (m_log (w_emitter w)), length (w_docs w), match m_error (w_emitter w) with None => false | _ => true end, length (live h1), length (live h2))
      | _ => None
      end
  | _ => None
  end.
(* [x, x]: a sequence that has the same item twice *)
Definition twice : wcall := WBuild None [] true true [AddSequence None AnyColl; AddScalar None [120]%N Plain; AppendItem 1 2; AppendItem 1 2].
(* both are dumped, 11 events; parser and emitter keep 14 blocks, and two tag
   directives of two strings each *)
Example C58_granted : doc_story [WLoad; twice; WDump 0; WDump 0; WClose] [] = Some (11, 0, false, 18, 0)%nat.
Proof. vm_compute. reflexivity. Qed.
(* request number 45 (the first has number 1), made while documents are dumped, is refused *)
Example C58_refused : doc_story [WLoad; twice; WDump 0; WDump 0; WClose] (refusing 44) = Some (9, 0, true, 16, 0)%nat.
Proof. vm_compute. reflexivity. Qed.
Example C58_good : good (empty_heap (refusing 44)) /\ (16 * length a_doc + 16 <= 600)%nat.
Proof. split; [split; [constructor|intros b []]|]. cbn. lia. Qed.
(* the assertion: an item of a sequence that is not one *)
Example C58_asserts : document_program 600 a_text [] [WBuild None [] true true [AddScalar None [120]%N Plain; AppendItem 1 1]] (empty_heap []) = HAssert.
Proof. vm_compute. reflexivity. Qed.

(* A call of yaml_emitter_dump may fail and leave no error: dumper.c:134-136 and
   dumper.c:270-273 set none when the allocator refuses. *)
Theorem C58_error_unset_refuted : exists answers,
  match emitter_initialize [] (empty_heap answers) with
  | HOk (Some m) h1 =>
      match (d <~ h_document_initialize None [] true true ;; match d with None => hret None | Some d => '(_, d) <~ h_drun d [AddScalar None [120]%N Plain] ;; hret (Some d) end) h1 with
      | HOk (Some d) h2 => match h_dump 9 m d h2 with HOk (m', KDone false) _ => m_error m' = None | _ => False end
      | _ => False
      end
  | _ => False
  end.
Proof. exists (refusing 9). vm_compute. reflexivity. Qed.
Print Assumptions C58_error_unset_refuted.

(* C59: the same for programs that parse events, make events, give them to
   yaml_emitter_emit and delete them, in any order.  Nothing is lost at all, and
   no assertion can fail. *)
Theorem C59_event_programs : forall e nest T bad plan ein calls h, good h ->
  let s := init_scanner e nest T bad plan in let toks := fst (scan_all (4 * length T + 4) s) in
  match event_program s ein calls h with
  | HOk None h' => Permutation (live h') (live h) /\ ~ generous h
  | HOk (Some w) h' =>
      Permutation (live h') (relay_blocks w ++ live h) /\
      rrun (generous h) calls (vrelay0 toks) (relay_at h' w) /\
      exists h'', relay_delete w h' = HOk tt h'' /\ Permutation (live h'') (live h)
  | HAssert | HUndef => False
  end.
Proof. intros e nest T bad plan ein calls h G. apply (event_programs (init_scanner e nest T bad plan)); [unfold fresh; eauto 10|exact G]. Qed.
Print Assumptions C59_event_programs.

Definition event_story (calls : list rcall) (answers : list bool) : option (nat * nat * bool * nat * nat) :=
  match event_program a_text [([ELook], true); ([EPushState; EDirective 0; EDefault [33] [33]], true); ([ELook; ETags], true)]%N calls (empty_heap answers) with
  | HOk (Some w) h1 =>
      match relay_delete w h1 with
      | HOk _ h2 => Some (length (m_log (r_emitter w)), length (r_events w), match m_error (r_emitter w) with None => false | _ => true end, length (live h1), length (live h2))
      | _ => None
      end
  | _ => None
  end.
Definition relaying : list rcall := [RParse; REmit 0; RParse; REmit 0; RParse; REmit 0; RMake (EAlias [97]%N); RParse; REmit 1; RParse; REmit 1].
Example C59_granted : event_story relaying [] = Some (5, 1, false, 19, 0)%nat.
Proof. vm_compute. reflexivity. Qed.
Example C59_refused : event_story relaying (refusing 34) = Some (4, 1, true, 17, 0)%nat.
Proof. vm_compute. reflexivity. Qed.
