(* Properties C28-C31: the loader (loader.c).  Statements only.
   [4 * length input < fuel]: the model's loop in yaml_parser_load_nodes is given
   enough steps for the input (the parser returns at most four events per token,
   C23); C31 shows that then the steps never run out. *)
From Verif Require Import Base ReaderModel Types TreeSpec DocModel DocSpec ParserModel ParserSpec LoaderModel LoaderSpec LoaderFinal.

(* --- &a [x, *a, {? *a : !t y}] --- z *)
Definition tk_ (t : tok) : token := mkToken t (mkMark 0 0 0) (mkMark 0 0 0) false.
Definition two_docs : list token := map tk_
  [TStreamStart Utf8Enc; TDocStart; TAnchor [97]; TFlowSeqStart; TScalar [120] Plain; TFlowEntry; TAlias [97]; TFlowEntry;
   TFlowMapStart; TKey; TAlias [97]; TValue; TTag [33] [116]; TScalar [121] Plain; TFlowMapEnd; TFlowSeqEnd;
   TDocStart; TScalar [122] Plain; TStreamEnd].
Definition the_doc (r : lout) : option document := match r with LDocument d _ => Some d | _ => None end.
Definition the_loader (r : lout) (l : loader) : loader :=
  match r with LDocument _ l | LNoDocument l | LFailed l => l | _ => l end.
Definition after_first : loader := Eval vm_compute in the_loader (load 100 (init_loader two_docs)) (init_loader two_docs).
Definition first_doc : document :=
  mkDoc [mkNode default_sequence_tag (NSequence [2;1;3]%nat FlowColl);
         mkNode default_scalar_tag (NScalar [120] Plain);
         mkNode default_mapping_tag (NMapping [(1,4)]%nat FlowColl);
         mkNode [33;116] (NScalar [121] Plain)] None [] false true.
Example two_docs_loaded : load_history 100 two_docs [first_doc] after_first.
Proof. apply (LH_call _ _ [] (init_loader two_docs)); [constructor|]. vm_compute. reflexivity. Qed.

(* C28: every document loaded is well formed. *)
Theorem C28_loaded_well_formed fuel input ds l :
  (4 * length input < fuel)%nat -> load_history fuel input ds l -> Forall doc_ok ds.
Proof. exact (loaded_ok fuel input ds l). Qed.
Print Assumptions C28_loaded_well_formed.
Example C28_nonvacuous : (4 * length two_docs < 100)%nat /\ load_history 100 two_docs [first_doc] after_first.
Proof. split; [cbn; lia|exact two_docs_loaded]. Qed.

(* C29: if the events of the next document (those before its DOCUMENT-END) contain
   an alias to an anchor not declared before it in the same document, or declare an
   anchor twice, the load fails with that error... *)
Theorem C29_errors_detected fuel input ds l start es q v tags i :
  (4 * length input < fuel)%nat -> load_history fuel input ds l ->
  reading l (start :: es) q -> e_ev start = EDocStart v tags i -> Forall inside_document es -> ~ well_scoped (map e_ev es) ->
  exists l' err, load fuel l = LFailed l' /\ p_error (ld_parser l') = Some err /\
    (pe_problem err = UndefinedAlias \/ pe_problem err = DuplicateAnchor).
Proof. exact (compose_detected fuel input ds l start es q v tags i). Qed.
Print Assumptions C29_errors_detected.
(* ... otherwise it succeeds, with the document the events denote (in which an alias
   is the node that carries its anchor, earlier in that document)... *)
Theorem C29_aliases_resolved fuel input ds l es q dt :
  (4 * length input < fuel)%nat -> load_history fuel input ds l ->
  reading l es q -> map e_ev es = doc_events dt -> well_scoped (events_of (dt_root dt)) ->
  exists d, load fuel l = LDocument d (mkLoader q true) /\ document_of dt d.
Proof. exact (compose_accepted fuel input ds l es q dt). Qed.
Print Assumptions C29_aliases_resolved.
(* ... and a load that fails does so because the parser failed, or with the error
   that belongs to the offending event. *)
Theorem C29_errors_justified fuel input ds l l' :
  (4 * length input < fuel)%nat -> load_history fuel input ds l -> load fuel l = LFailed l' ->
  (exists es q, yields (ld_parser l) es q /\ parse q = PFail (ld_parser l')) \/
  (exists start es e q err v tags i, reading l (start :: es ++ [e]) q /\ e_ev start = EDocStart v tags i /\
     well_scoped (map e_ev es) /\ composer_error (map e_ev es) (e_ev e) (pe_problem err) /\ p_error (ld_parser l') = Some err).
Proof.
  exact (fun B H E => match compose_reported fuel input ds l l' B H E with
    | or_introl (ex_intro _ _ (conj _ X)) => or_introl X | or_intror X => or_intror X end).
Qed.
Print Assumptions C29_errors_justified.
(* an anchor does not leak into the next document: --- &a x --- *a *)
Definition leak : list token := map tk_
  [TStreamStart Utf8Enc; TDocStart; TAnchor [97]; TScalar [120] Plain; TDocStart; TAlias [97]; TStreamEnd].
Definition after_leak : loader := Eval vm_compute in the_loader (load 100 (init_loader leak)) (init_loader leak).
Definition next_parser (p : parser) : parser := match parse p with PEvent _ q => q | _ => p end.
Definition leak1 : parser := Eval vm_compute in next_parser (ld_parser after_leak).
Definition leak2 : parser := Eval vm_compute in next_parser leak1.
Definition ev_ (e : ev) : event := mkEvent e (mkMark 0 0 0) (mkMark 0 0 0).
Example C29_nonvacuous : load_history 100 leak [mkDoc [mkNode default_scalar_tag (NScalar [120] Plain)] None [] false true] after_leak /\
  exists start es q, reading after_leak (start :: es) q /\ e_ev start = EDocStart None [] false /\ Forall inside_document es /\
    ~ well_scoped (map e_ev es).
Proof.
  split; [apply (LH_call _ _ [] (init_loader leak)); [constructor|vm_compute; reflexivity]|].
  exists (ev_ (EDocStart None [] false)), [ev_ (EAlias [97])], leak2. split.
  - left. split; [reflexivity|].
    apply (Y_call _ [ev_ (EDocStart None [] false)] leak1 (ev_ (EAlias [97])) leak2).
    + apply (Y_call _ [] (ld_parser after_leak) (ev_ (EDocStart None [] false)) leak1); [apply Y_none|]. vm_compute. reflexivity.
    + vm_compute. reflexivity.
  - split; [reflexivity|]. split; [constructor; [discriminate|constructor]|].
    intros W. apply (W [] (EAlias [97]) [] UndefinedAlias eq_refl). constructor. intros [].
Qed.
Example C29_duplicate :
  match load 100 (init_loader (map tk_ [TStreamStart Utf8Enc; TFlowSeqStart; TAnchor [97]; TScalar [120] Plain; TFlowEntry;
     TAnchor [97]; TScalar [121] Plain; TFlowSeqEnd; TStreamEnd])) with
  | LFailed l => option_map pe_problem (p_error (ld_parser l)) | _ => None end = Some DuplicateAnchor.
Proof. vm_compute. reflexivity. Qed.

(* C30: the documents loaded are, one for one and in order, those denoted by the
   trees of the parser's events. *)
Theorem C30_loads_denoted_graph fuel input ds l :
  (4 * length input < fuel)%nat -> load_history fuel input ds l ->
  ds = [] \/ exists es enc ts, history input es (ld_parser l) /\
    map e_ev es = EStreamStart enc :: flat_map doc_events ts /\ Forall2 document_of ts ds.
Proof. exact (load_denotes fuel input ds l). Qed.
Print Assumptions C30_loads_denoted_graph.
Example C30_nonvacuous : (4 * length two_docs < 100)%nat /\ load_history 100 two_docs [first_doc] after_first.
Proof. split; [cbn; lia|exact two_docs_loaded]. Qed.

(* C31: as long as no earlier load failed, a load hits no assertion, makes no
   access outside an array, and returns... *)
Theorem C31_no_assertion fuel input ds l :
  (4 * length input < fuel)%nat -> load_history fuel input ds l ->
  match load fuel l with LAssertFail | LUB | LOutOfFuel => False | _ => True end.
Proof. exact (load_safe fuel input ds l). Qed.
Print Assumptions C31_no_assertion.
(* ... and at the end of the stream every further load returns no document. *)
Theorem C31_at_end fuel input ds l l' :
  (4 * length input < fuel)%nat -> load_history fuel input ds l -> load fuel l = LNoDocument l' -> load fuel l' = LNoDocument l'.
Proof. exact (load_ended fuel input ds l l'). Qed.
Print Assumptions C31_at_end.
Definition lone_alias : list token := map tk_ [TStreamStart Utf8Enc; TAlias [97]; TStreamEnd].
Definition after_lone : loader := Eval vm_compute in the_loader (load 20 (init_loader lone_alias)) (init_loader lone_alias).
(* It is false without that proviso: a load after a failed load (here of "*a")
   fails an assertion. *)
Theorem C31_refuted : exists input l', forall fuel, (4 * length input < fuel)%nat ->
  load fuel (init_loader input) = LFailed l' /\ load fuel l' = LAssertFail.
Proof.
  exists lone_alias, after_lone. intros fuel L.
  do 12 (destruct fuel as [|fuel]; [cbn in L; lia|]). split; vm_compute; reflexivity.
Qed.
Print Assumptions C31_refuted.
Example C31_nonvacuous : load_history 100 two_docs [first_doc] after_first /\
  exists l', load 100 (the_loader (load 100 after_first) after_first) = LNoDocument l'.
Proof. split; [exact two_docs_loaded|]. eexists. vm_compute. reflexivity. Qed.
