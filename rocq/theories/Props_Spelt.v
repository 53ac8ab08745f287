(* Property C75: tokens stand where their marks say.  Statements only.  [ends_at],
   [stands] and [in_place] are in SpeltSpec.v; [lexeme], [place] and [written] in LexemeSpec.v. *)
From Verif Require Import Base CharSpec Types ReaderModel CursorModel ScannerModel ScannerSpec ScannerFinal LexSpec LexemeSpec SpeltSpec Spelt.

(* C75: whatever the text and however often yaml_parser_scan is called, each token handed out
   that is spelled in the text is spelled at its start mark and ends at its end mark; a token
   that is not spelled is empty. *)
Theorem C75_in_place e nest T bad plan l s : scans (init_scanner e nest T bad plan) l s -> Forall (in_place T) l.
Proof. intros H. apply Forall_forall. exact (scans_pl T e nest bad plan l s H). Qed.
Print Assumptions C75_in_place.

(* C75: in particular, at the start mark of each indicator is its character, and its end mark
   is one character behind. *)
Theorem C75_indicators e nest T bad plan l s x c : scans (init_scanner e nest T bad plan) l s -> In x l -> written x = true ->
  In (t_tok x, c) [(TFlowSeqStart, 0x5B); (TFlowSeqEnd, 0x5D); (TFlowMapStart, 0x7B); (TFlowMapEnd, 0x7D); (TFlowEntry, 0x2C);
                   (TBlockEntry, 0x2D); (TKey, 0x3F); (TValue, 0x3A)] ->
  exists before after, T = before ++ c :: after /\
    t_start x = position T (length before) /\ t_end x = position T (S (length before)).
Proof. intros H I W K. apply (indicator_place T x c W (scans_pl T e nest bad plan l s H x I) K). Qed.
Print Assumptions C75_indicators.

(* C75: and at the start mark of each scalar in quotes is the quotation mark that opens it,
   and just before its end mark the one that closes it. *)
Theorem C75_quotes e nest T bad plan l s x v single : scans (init_scanner e nest T bad plan) l s -> In x l ->
  t_tok x = TScalar v (if single : bool then SingleQuoted else DoubleQuoted) ->
  exists before body after, T = before ++ quote single :: body ++ quote single :: after /\
    t_start x = position T (length before) /\ t_end x = position T (S (S (length before + length body))).
Proof. intros H I K. apply (quote_place T x v single (scans_pl T e nest bad plan l s H x I) K). Qed.
Print Assumptions C75_quotes.

(* C75: the first and the last character between the marks of a plain scalar are not white
   space. *)
Theorem C75_plain e nest T bad plan l s x v : scans (init_scanner e nest T bad plan) l s -> In x l -> t_tok x = TScalar v Plain ->
  exists before word y after, T = before ++ word ++ y :: after /\ is_blankz (head (word ++ [y])) = false /\ is_blankz y = false /\ t_start x = position T (length before) /\ t_end x = position T (S (length before + length word)).
Proof. intros H I K. apply (plain_place T x v (scans_pl T e nest bad plan l s H x I) K). Qed.
Print Assumptions C75_plain.

(* "k: [ 'a', b ]" LF "? - c" *)
Definition spelled_text : list N := [0x6B; 0x3A; 0x20; 0x5B; 0x20; 0x27; 0x61; 0x27; 0x2C; 0x20; 0x62; 0x20; 0x5D; 10; 0x3F; 0x20; 0x2D; 0x20; 0x63].
Definition spelled_tokens : list token := fst (scan_all 40 (init_scanner Utf8Enc 100 spelled_text false [])).
Example C75_scanned : exists s, scans (init_scanner Utf8Enc 100 spelled_text false []) spelled_tokens s.
Proof.
  unfold spelled_tokens. destruct (scan_all 40 (init_scanner Utf8Enc 100 spelled_text false [])) as [l o] eqn:E. exact (scan_all_scans 40 _ _ _ E).
Qed.
Example C75_spans : map (fun x => (t_tok x, m_index (t_start x), m_index (t_end x), written x)) spelled_tokens =
  [(TStreamStart Utf8Enc, 0, 0, false); (TBlockMapStart, 0, 0, false); (TKey, 0, 0, false); (TScalar [0x6B] Plain, 0, 1, true); (TValue, 1, 2, true);
   (TFlowSeqStart, 3, 4, true); (TScalar [0x61] SingleQuoted, 5, 8, true); (TFlowEntry, 8, 9, true); (TScalar [0x62] Plain, 10, 11, true); (TFlowSeqEnd, 12, 13, true);
   (TKey, 14, 15, true); (TBlockSeqStart, 16, 16, false); (TBlockEntry, 16, 17, true); (TScalar [0x63] Plain, 18, 19, true);
   (TBlockEnd, 19, 19, false); (TBlockEnd, 19, 19, false); (TStreamEnd, 19, 19, false)].
Proof. vm_compute. reflexivity. Qed.
(* "%YAML 1.1 #c" LF "--- a" LF " b  #c" LF "--- |" LF "  x" LF " " LF " #c": what is read on behind *)
Definition read_on_text : list N := [0x25; 0x59; 0x41; 0x4D; 0x4C; 0x20; 0x31; 0x2E; 0x31; 0x20; 0x23; 0x63; 10;
  0x2D; 0x2D; 0x2D; 0x20; 0x61; 10; 0x20; 0x62; 0x20; 0x20; 0x23; 0x63; 10; 0x2D; 0x2D; 0x2D; 0x20; 0x7C; 10; 0x20; 0x20; 0x78; 10; 0x20; 10; 0x20; 0x23; 0x63].
Example C75_read_on : map (fun x => (t_tok x, m_index (t_start x), m_index (t_end x))) (fst (scan_all 40 (init_scanner Utf8Enc 100 read_on_text false []))) =
  [(TStreamStart Utf8Enc, 0, 0); (TVersion 1 1, 0, 9); (TDocStart, 13, 16); (TScalar [0x61; 0x20; 0x62] Plain, 17, 21);
   (TDocStart, 26, 29); (TScalar [0x78; 10] Literal, 30, 38); (TStreamEnd, 41, 41)].
Proof. vm_compute. reflexivity. Qed.
