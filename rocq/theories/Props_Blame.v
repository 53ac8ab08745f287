(* Property C79: what the parser says when it fails, and where.  Statements only.  [fails] and
   [blame] are in BlameSpec.v. *)
From Verif Require Import Base Types ReaderModel CursorModel ScannerModel ScannerSpec ParserModel ParserFinal ExtentSpec BlameSpec Blame.

(* C79: whatever the tokens, if the parser fails after the events [es], these are made from the
   first tokens, and the error says what is wrong with the tokens behind them. *)
Theorem C79_blame n l es er : parse_all n (init_parser l) = (es, ParserModel.Failed er) -> exists err, er = Some err /\ fails [] l es err.
Proof. exact (blamed n [] (init_parser l) es er (init_wf l) eq_refl). Qed.
Print Assumptions C79_blame.

Definition blame_error (T : list N) := snd (parse_all 40 (init_parser (fst (scan_all 40 (init_scanner Utf8Enc 100 T false []))))).
(* "- [a, {b: [c] d}]": the mapping, not the sequences, and the "d" *)
Example C79_mapping : blame_error [0x2D; 0x20; 0x5B; 0x61; 0x2C; 0x20; 0x7B; 0x62; 0x3A; 0x20; 0x5B; 0x63; 0x5D; 0x20; 0x64; 0x7D; 0x5D] =
  ParserModel.Failed (Some (mkPerr NoFlowMapEntry (Some (mkMark 6 0 6)) (Some (mkMark 14 0 14)))).
Proof. vm_compute. reflexivity. Qed.
(* "- &x !y!z a": the node begins with its anchor, the tag is wrong *)
Example C79_handle : blame_error [0x2D; 0x20; 0x26; 0x78; 0x20; 0x21; 0x79; 0x21; 0x7A; 0x20; 0x61] =
  ParserModel.Failed (Some (mkPerr UndefinedTagHandle (Some (mkMark 2 0 2)) (Some (mkMark 5 0 5)))).
Proof. vm_compute. reflexivity. Qed.
(* the tokens of "[[a] b": the error could not have the start of the sequence that is closed *)
Definition at_index (n : N) (t : tok) : token := mkToken t (mkMark n 0 n) (mkMark (n + 1) 0 (n + 1)) false.
Definition open_tokens : list token := [at_index 0 TFlowSeqStart; at_index 1 TFlowSeqStart; at_index 2 (TScalar [97] Plain); at_index 3 TFlowSeqEnd].
Example C79_open : open_starts [] open_tokens = [mkMark 0 0 0].
Proof. reflexivity. Qed.
Example C79_not_closed m x : blame open_tokens [] [at_index 5 (TScalar [98] Plain)] (mkPerr NoFlowSeqEntry m x) -> m = Some (mkMark 0 0 0) /\ x = Some (mkMark 5 0 5).
Proof.
  intros H. inversion H as [| | |pr y r M k H1 [H2|H2] E1 E2| | | | |pr y r k ms H1 H2 H3 E1 E2]; subst; [discriminate..|]. cbn in H3. injection H3 as <- _. auto.
Qed.
