(* Property C74: the marks of events.  Statements only.  [events_in_order] is in
   EventMarksSpec.v, [is_end_position] in ScannerSpec.v: a position of the text, or the
   beginning of the line that the scanner adds behind a last line that is not ended. *)
From Verif Require Import Base Types ReaderModel CursorModel ScannerModel ScannerSpec ScannerFinal ParserModel EventMarksSpec EventMarks.

(* C74: whatever the text and however often yaml_parser_parse is called, every event begins
   and ends at a position of the text, ends not before it begins, and begins not before the
   events before it end; and the marks of an error are positions of the text. *)
Theorem C74_event_marks e nest T bad plan l s n : scans (init_scanner e nest T bad plan) l s ->
  let (es, o) := parse_all n (init_parser l) in
  events_in_order es /\
  Forall (fun x => is_end_position T (e_start x) /\ is_end_position T (e_end x)) es /\
  forall er m, o = ParserModel.Failed (Some er) -> pe_context er = Some m \/ pe_mark er = Some m -> is_end_position T m.
Proof. exact (event_marks e nest T bad plan l s n). Qed.
Print Assumptions C74_event_marks.
(* "a:" LF "- &x" LF "b:": a sequence at the indentation of its key, empty nodes *)
Definition marked : list N := [0x61; 0x3A; 10; 0x2D; 0x20; 0x26; 0x78; 10; 0x62; 0x3A].
Definition marked_tokens : list token := fst (scan_all 40 (init_scanner Utf8Enc 100 marked false [])).
Example C74_scanned : exists s, scans (init_scanner Utf8Enc 100 marked false []) marked_tokens s.
Proof.
  unfold marked_tokens. destruct (scan_all 40 (init_scanner Utf8Enc 100 marked false [])) as [l o] eqn:E. exact (scan_all_scans 40 _ _ _ E).
Qed.
Example C74_spans : map (fun x => (e_ev x, m_index (e_start x), m_index (e_end x))) (fst (parse_all 40 (init_parser marked_tokens))) =
  [(EStreamStart Utf8Enc, 0, 0); (EDocStart None [] true, 0, 0);
   (EMapStart None None true BlockColl, 0, 0);
   (EScalar None None [97] true false Plain, 0, 1);
   (ESeqStart None None true BlockColl, 3, 4);
   (EScalar (Some [120]) None [] true false Plain, 5, 7);
   (ESeqEnd, 8, 8); (EScalar None None [98] true false Plain, 8, 9);
   (EScalar None None [] true false Plain, 10, 10);
   (EMapEnd, 10, 10); (EDocEnd true, 10, 10); (EStreamEnd, 10, 10)].
Proof. vm_compute. reflexivity. Qed.
(* "- a" LF "b": the error names the beginning of the sequence and of what does not belong there *)
Example C74_error : snd (parse_all 40 (init_parser (fst (scan_all 40 (init_scanner Utf8Enc 100 [0x2D; 0x20; 0x61; 10; 0x62; 0x3A] false []))))) =
  ParserModel.Failed (Some (mkPerr NoBlockEntry (Some (mkMark 0 0 0)) (Some (mkMark 4 1 0)))).
Proof. vm_compute. reflexivity. Qed.
