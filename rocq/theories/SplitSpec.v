(* A text that follows another one in the same stream: where its characters, tokens and
   errors are. *)
From Verif Require Import Base ReaderModel Utf8Spec CharSpec Types DocModel ParserModel LoaderModel LoaderSpec CursorModel ScanModel ScannerModel ScannerSpec.

(* [di] characters and [dl] lines further on; the column stays *)
Definition move_mark (di dl : N) (m : mark) : mark := mkMark (m_index m + di) (m_line m + dl) (m_column m).
Definition move_token (di dl : N) (t : token) : token := mkToken (t_tok t) (move_mark di dl (t_start t)) (move_mark di dl (t_end t)) (t_deep t).
Definition move_error (di dl : N) (e : serr) : serr := mkSerr (se_problem e) (option_map (move_mark di dl) (se_context e)) (move_mark di dl (se_mark e)).
Definition move_outcome (di dl : N) (o : outcome) : outcome := match o with Failed e => Failed (move_error di dl e) | _ => o end.

(* the line that ends a document: "...", line feed *)
Definition doc_end_line : list N := [0x2E; 0x2E; 0x2E; 0xA].

(* The tokens of a text: 4 * length + 4 calls of yaml_parser_scan are enough for all of
   them (C14_ends).  What yaml_parser_parse makes of them. *)
Definition all_tokens (e : encoding) (nest : Z) (T : list N) (plan : list nat) : list token :=
  fst (scan_all (4 * length T + 4) (init_scanner e nest T false plan)).
Definition move_event (di dl : N) (v : event) : event := mkEvent (e_ev v) (move_mark di dl (e_start v)) (move_mark di dl (e_end v)).
Definition move_perr (di dl : N) (e : perr) : perr := mkPerr (pe_problem e) (option_map (move_mark di dl) (pe_context e)) (option_map (move_mark di dl) (pe_mark e)).
Definition move_result (di dl : N) (r : presult) : presult := match r with ParserModel.Failed e => ParserModel.Failed (option_map (move_perr di dl) e) | _ => r end.
(* the first document has no "---" line and no directives before it *)
Definition begins_bare (es : list event) : Prop := exists s d v ds r, es = s :: d :: r /\ e_ev d = EDocStart v ds true.

(* Calls of yaml_parser_load return the documents [ds]; the next call finds the end of the
   stream, or fails. *)
Inductive ending := AtEnd | WithError (e : option perr).
Definition loads_to (fuel : nat) (tokens : list token) (ds : list document) (x : ending) : Prop :=
  exists l, load_history fuel tokens ds l /\
    match load fuel l, x with
    | LNoDocument _, AtEnd => True
    | LFailed l', WithError e => p_error (ld_parser l') = e
    | _, _ => False
    end.
Definition move_ending (di dl : N) (x : ending) : ending := match x with AtEnd => AtEnd | WithError e => WithError (option_map (move_perr di dl) e) end.
