(* Property C78: where the composer says an error is.  Statements only.  [fault] is in
   FaultSpec.v, [reading] and [load_history] in LoaderSpec.v. *)
From Verif Require Import Base ReaderModel Types TreeSpec CursorModel ScannerModel ScannerSpec ScannerFinal ParserModel ParserSpec DocModel LoaderModel LoaderSpec FaultSpec Fault.

(* C78: if yaml_parser_load fails, then with the error of the parser, or because of the last
   event that was read, and then the error is just this: an undefined alias, with the start of
   the alias, or a duplicate anchor, with the starts of the first node and of this one. *)
Theorem C78_fault fuel l l' : load fuel l = LFailed l' ->
  (exists xs q, yields (ld_parser l) xs q /\ parse q = PFail (ld_parser l')) \/
  (exists start v tags i es e q err, reading l (start :: es ++ [e]) q /\ e_ev start = EDocStart v tags i /\
     fault es e err /\ ld_parser l' = set_error q err).
Proof. exact (load_fault fuel l l'). Qed.
Print Assumptions C78_fault.

(* C78: whatever the text and whichever of its documents, the marks of the error are positions
   of the text. *)
Theorem C78_positions e nest T bad plan input s fuel ds l l' er m :
  scans (init_scanner e nest T bad plan) input s -> load_history fuel input ds l -> load fuel l = LFailed l' ->
  p_error (ld_parser l') = Some er -> pe_context er = Some m \/ pe_mark er = Some m -> is_end_position T m.
Proof. exact (fault_marks e nest T bad plan input s fuel ds l l' er m). Qed.
Print Assumptions C78_positions.

Definition tokens_of (T : list N) : list token := fst (scan_all 40 (init_scanner Utf8Enc 100 T false [])).
Example C78_scanned T : exists s, scans (init_scanner Utf8Enc 100 T false []) (tokens_of T) s.
Proof.
  unfold tokens_of. destruct (scan_all 40 (init_scanner Utf8Enc 100 T false [])) as [l o] eqn:E. exact (scan_all_scans 40 _ _ _ E).
Qed.
Definition error_of (T : list N) : option perr := match load 100 (init_loader (tokens_of T)) with LFailed l => p_error (ld_parser l) | _ => None end.
(* "[&x a, &y b, &x c]" *)
Example C78_duplicate : error_of [0x5B; 0x26; 0x78; 0x20; 0x61; 0x2C; 0x20; 0x26; 0x79; 0x20; 0x62; 0x2C; 0x20; 0x26; 0x78; 0x20; 0x63; 0x5D] =
  Some (mkPerr DuplicateAnchor (Some (mkMark 1 0 1)) (Some (mkMark 13 0 13))).
Proof. vm_compute. reflexivity. Qed.
(* "[&x a, *y]" *)
Example C78_undefined : error_of [0x5B; 0x26; 0x78; 0x20; 0x61; 0x2C; 0x20; 0x2A; 0x79; 0x5D] = Some (mkPerr UndefinedAlias None (Some (mkMark 7 0 7))).
Proof. vm_compute. reflexivity. Qed.
