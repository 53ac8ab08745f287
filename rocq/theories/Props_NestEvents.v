(* Property C71: the limit on nesting and the events returned.  Statements only.  The
   specification is in NestSpec.v.  The parser takes the tokens the scanner hands out; they
   carry the results of its tests on the limit (see Props_Nest.v). *)
From Verif Require Import Base ReaderModel Utf8Spec CharSpec Types CursorModel ScanModel ScannerModel ScannerSpec NestSpec.
From Verif Require Import ParserModel ParserSpec ParserFinal NestEvents.

(* C71: the collections open in the events returned so far are those open in the tokens
   taken, none of which was refused, and at most as many again: sequences at the
   indentation of their key and single pairs in flow sequences have no token *)
Theorem C71_event_nesting input es p : history input es p ->
  exists u r, input = u ++ r /\ accepted u /\ (nesting u <= event_depth (map e_ev es) <= 2 * nesting u)%Z.
Proof. exact (event_nesting input es p). Qed.
Print Assumptions C71_event_nesting.
(* So whatever the text is, collections in events never nest deeper than this. *)
Theorem C71_depth_bounded e nest text bad plan calls l o es p :
  scan_all calls (init_scanner e nest text bad plan) = (l, o) -> history l es p ->
  (event_depth (map e_ev es) <= 2 * Z.max 0 (nest + 1024))%Z.
Proof. exact (depth_bounded e nest text bad plan calls l o es p). Qed.
Print Assumptions C71_depth_bounded.
(* The error that the limit is reached is returned only for a text in which somewhere at
   least [nest] collections are open. *)
Theorem C71_limit_error e nest text bad plan calls l n es er :
  scan_all calls (init_scanner e nest text bad plan) = (l, ScannerSpec.Ended) ->
  parse_all n (init_parser l) = (es, Failed (Some er)) -> pe_problem er = MaxNesting -> reaches nest l.
Proof. exact (limit_deep e nest text bad plan calls l n es er). Qed.
Print Assumptions C71_limit_error.

(* "a:" LF "- b:" LF "  - c" *)
Definition indentless_text : list N := [0x61; 0x3A; 10; 0x2D; 0x20; 0x62; 0x3A; 10; 0x20; 0x20; 0x2D; 0x20; 0x63].
Definition text_tokens (nest : Z) (text : list N) : list token := fst (scan_all 60 (init_scanner Utf8Enc nest text false [])).
(* The documentation speaks of "the maximum number of allowed nested events".  In this text
   four nest; it is accepted with a limit of 3. *)
Theorem C71_documented_events_refuted : exists nest text,
  snd (parse_all 60 (init_parser (text_tokens nest text))) = Parsed /\
  exists es r, fst (parse_all 60 (init_parser (text_tokens nest text))) = es ++ r /\ (nest < event_depth (map e_ev es))%Z.
Proof.
  exists 3%Z, indentless_text. split; [vm_compute; reflexivity|].
  eexists (firstn 8 _), (skipn 8 _). split; [symmetry; apply firstn_skipn|]. vm_compute. reflexivity.
Qed.
Print Assumptions C71_documented_events_refuted.
(* with a limit of 2 the second mapping is refused *)
Example C71_limit : exists es er, parse_all 60 (init_parser (text_tokens 2 indentless_text)) = (es, Failed (Some er)) /\ pe_problem er = MaxNesting /\
  snd (scan_all 60 (init_scanner Utf8Enc 2 indentless_text false [])) = ScannerSpec.Ended /\ event_depth (map e_ev es) = 2%Z.
Proof. do 2 eexists. split; [vm_compute; reflexivity|]. split; [reflexivity|]. split; vm_compute; reflexivity. Qed.
Example C71_history : exists es p, history (text_tokens 3 indentless_text) es p /\ event_depth (map e_ev es) = 4%Z.
Proof. do 2 eexists. split; [exact (after_calls_history (text_tokens 3 indentless_text) 8 _ _ (H_start _))|]. vm_compute. reflexivity. Qed.
