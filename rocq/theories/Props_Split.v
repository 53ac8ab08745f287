(* Property C61: documents of a stream are independent.  Statements only.  The
   specification is in SplitSpec.v; [scan_all n] and [parse_all n] are n calls of
   yaml_parser_scan and of yaml_parser_parse. *)
From Verif Require Import Base ReaderModel Utf8Spec CharSpec Types DocModel ParserModel LoaderModel LoaderSpec CursorModel ScanModel ScannerModel ScannerSpec SplitSpec SplitRun SplitEvents SplitLoad.

(* C61: let the line "..." behind [A] be scanned as a DOCUMENT-END outside flow
   collections, and let any text [X] follow.  The tokens are those of [A] with its end
   marker, followed by those of [X] scanned alone, only further on in the text; also the
   outcome is that of [X] alone, an error being reported further on in the text.  How
   the input arrives (the plans) makes no difference. *)
Theorem C61_tokens e nest A X n1 n2 p1 p2 p3 l1 d r o :
  scan_all n1 (init_scanner e nest (A ++ doc_end_line) false p1) = (l1 ++ d :: r, o) ->
  t_tok d = TDocEnd -> m_index (t_start d) = N.of_nat (length A) -> flow_depth l1 = 0 ->
  let alone := scan_all (S n2) (init_scanner e nest X false p2) in
  let di := N.of_nat (length A) + 4 in let dl := m_line (t_start d) + 1 in
  scan_all (length l1 + 1 + n2) (init_scanner e nest (A ++ doc_end_line ++ X) false p3) =
  (l1 ++ d :: map (move_token di dl) (tl (fst alone)), move_outcome di dl (snd alone)).
Proof. exact (split_scan e nest A X n1 n2 p1 p2 p3 l1 d r o). Qed.
Print Assumptions C61_tokens.
Definition run (T : list N) : list token * outcome := scan_all 20 (init_scanner Utf8Enc 1000%Z T false []).
(* "k: [a,"  LF " b]" LF, and then "- |" LF "  x" LF "- '" which fails *)
Definition first_text : list N := [107;58;32;91;97;44;10;32;98;93;10].
Definition second_text : list N := [45;32;124;10;32;32;120;10;45;32;39].
Definition first_tokens : list token := fst (run (first_text ++ doc_end_line)).
Example C61_hypotheses : exists l1 d r, run (first_text ++ doc_end_line) = (l1 ++ d :: r, Ended) /\ length l1 = 11%nat /\
  t_tok d = TDocEnd /\ m_index (t_start d) = N.of_nat (length first_text) /\ flow_depth l1 = 0.
Proof. exists (firstn 11 first_tokens), (nth 11 first_tokens (mkToken TKey mark0 mark0 false)), (skipn 12 first_tokens). vm_compute. repeat split. Qed.
Example C61_outcome : exists l err, scan_all 30 (init_scanner Utf8Enc 1000%Z (first_text ++ doc_end_line ++ second_text) false []) = (l, Failed err) /\
  length l = 16%nat /\ se_problem err = SQuotedEnd /\ se_mark err = mkMark 26 5 3.
Proof. eexists. eexists. vm_compute. repeat split. Qed.

(* ... the same for events.  [dd] is the explicit DOCUMENT-END of that line, and [X]
   begins with a directive or "---" (or has no document at all): then nothing of [A], not
   its directives, anchors, indentation or open collections, has an effect on [X]. *)
Theorem C61_events e nest A X p1 p2 p3 m1 m2 es dd rs o :
  parse_all m1 (init_parser (all_tokens e nest (A ++ doc_end_line) p1)) = (es ++ dd :: rs, o) ->
  e_ev dd = EDocEnd false -> m_index (e_start dd) = N.of_nat (length A) ->
  let alone := parse_all (S m2) (init_parser (all_tokens e nest X p2)) in
  ~ begins_bare (fst alone) ->
  let di := N.of_nat (length A) + 4 in let dl := m_line (e_start dd) + 1 in
  parse_all (length es + 1 + m2) (init_parser (all_tokens e nest (A ++ doc_end_line ++ X) p3)) =
  (es ++ dd :: map (move_event di dl) (tl (fst alone)), move_result di dl (snd alone)).
Proof. exact (split_events e nest A X p1 p2 p3 m1 m2 es dd rs o). Qed.
Print Assumptions C61_events.
(* ... and for documents: those of [A], then those of [X]. *)
Theorem C61_documents e nest A X p1 p2 p3 m1 es dd rs o fuel ds ds' x :
  parse_all m1 (init_parser (all_tokens e nest (A ++ doc_end_line) p1)) = (es ++ dd :: rs, o) ->
  e_ev dd = EDocEnd false -> m_index (e_start dd) = N.of_nat (length A) ->
  loads_to fuel (all_tokens e nest (A ++ doc_end_line) p1) ds AtEnd ->
  ~ begins_bare (fst (parse_all 2 (init_parser (all_tokens e nest X p2)))) ->
  loads_to fuel (all_tokens e nest X p2) ds' x ->
  loads_to fuel (all_tokens e nest (A ++ doc_end_line ++ X) p3) (ds ++ ds') (move_ending (N.of_nat (length A) + 4) (m_line (e_start dd) + 1) x).
Proof. exact (split_documents e nest A X p1 p2 p3 m1 es dd rs o fuel ds ds' x). Qed.
Print Assumptions C61_documents.
(* "%TAG ! x" LF "--- &a !b" LF, then "--- !b" LF "--- *a" *)
Definition tagged_text : list N := [37;84;65;71;32;33;32;120;10;45;45;45;32;38;97;32;33;98;10].
Definition untagged_text : list N := [45;45;45;32;33;98;10;45;45;45;32;42;97].
Definition tokens (T : list N) : list token := all_tokens Utf8Enc 1000%Z T [].
Example C61_events_hypotheses : exists es dd rs, parse_all 20 (init_parser (tokens (tagged_text ++ doc_end_line))) = (es ++ dd :: rs, Parsed) /\
  length es = 3%nat /\ e_ev dd = EDocEnd false /\ m_index (e_start dd) = N.of_nat (length tagged_text) /\
  ~ begins_bare (fst (parse_all 2 (init_parser (tokens untagged_text)))).
Proof.
  exists (firstn 3 (fst (parse_all 20 (init_parser (tokens (tagged_text ++ doc_end_line)))))), (mkEvent (EDocEnd false) (mkMark 19 2 0) (mkMark 22 2 3)), [mkEvent EStreamEnd (mkMark 23 3 0) (mkMark 23 3 0)].
  split; [vm_compute; reflexivity|]. split; [vm_compute; reflexivity|]. split; [reflexivity|]. split; [vm_compute; reflexivity|]. intros (s & d & v & ds & r & E & V). vm_compute in E. injection E as _ <- _. discriminate V.
Qed.
(* the tag of the second document is not the one that %TAG made of "!b", and its anchor
   is unknown *)
Example C61_documents_hypotheses :
  loads_to 20 (tokens (tagged_text ++ doc_end_line)) [mkDoc [mkNode [120; 98] (NScalar [] Plain)] None [([33], [120])] false false] AtEnd /\
  loads_to 20 (tokens untagged_text) [mkDoc [mkNode [33; 98] (NScalar [] Plain)] None [] false true] (WithError (Some (mkPerr UndefinedAlias None (Some (mkMark 11 1 4))))).
Proof. split; (eexists; split; [eapply (LH_call _ _ []); [constructor|vm_compute; reflexivity]|vm_compute; auto]). Qed.
(* A bare document, one that begins without "---", is refused behind an end marker although
   it is accepted alone: parser.c looks for an explicit document start in every state but
   the first. *)
Theorem C61_bare_refuted : exists A X es dd rs,
  parse_all 20 (init_parser (tokens (A ++ doc_end_line))) = (es ++ dd :: rs, Parsed) /\
  e_ev dd = EDocEnd false /\ m_index (e_start dd) = N.of_nat (length A) /\
  snd (parse_all 20 (init_parser (tokens X))) = Parsed /\
  parse_all 20 (init_parser (tokens (A ++ doc_end_line ++ X))) = (es ++ [dd], ParserModel.Failed (Some (mkPerr NoDocStart None (Some (mkMark 6 2 0))))).
Proof.
  exists [97; 10], [98], (firstn 3 (fst (parse_all 20 (init_parser (tokens [97; 10; 0x2E; 0x2E; 0x2E; 0xA]))))), (mkEvent (EDocEnd false) (mkMark 2 1 0) (mkMark 5 1 3)), [mkEvent EStreamEnd (mkMark 6 2 0) (mkMark 6 2 0)].
  split; [vm_compute; reflexivity|]. split; [reflexivity|]. split; [vm_compute; reflexivity|]. split; vm_compute; reflexivity.
Qed.
Print Assumptions C61_bare_refuted.
