(* Property C73: what the scanner sees of the reader.  Statements only.  The specification is
   in SourceSpec.v: [reader_trace] is what is in the buffer of reader.c after each step of a
   script of CACHE, SKIP and line break steps, [cursor_trace] what the cursor of CursorModel.v
   says is in it. *)
From Verif Require Import Base ReaderModel ReaderSpec Utf8Spec Types CursorModel ScannerModel CutSpec SourceSpec Source.

(* C73: for every input, every encoding, every behaviour of the read handler and every script
   of steps, there is a text such that the buffer holds, after every step, exactly the bytes
   that the cursor over that text says it holds; and a step fails for the one when it fails
   for the other.  The text is what the bytes of the input stand for: all of it, unless the
   handler fails or the input cannot be decoded, and then a beginning of it. *)
Theorem C73_source e input plan ops : input_ok input -> Forall op_ok ops ->
  exists text bad cplan rest,
    reader_trace ops (init_reader e input plan) = cursor_trace ops (init_cur text bad cplan) /\
    Forall yaml_char text /\ after_mark e input = encode (used_encoding e input) text ++ rest /\
    (bad = false -> rest = []) /\
    (bad = true -> In None plan \/ exists err, read_all e input [] [] = ReadError err).
Proof. exact (same_source e input plan ops). Qed.
Print Assumptions C73_source.
(* a byte order mark, "e-acute", CR, LF, "a" in UTF-16BE, handed over in bits of three bytes *)
Definition sixteen : list N := [0xFE; 0xFF; 0; 0xE9; 0; 13; 0; 10; 0; 0x61].
Example C73_source_input : input_ok sixteen /\ Forall op_ok [Fetch 1; Skip; Fetch 2; SkipLine 2; Fetch 2; Skip].
Proof.
  split; [split; [repeat constructor|vm_compute; reflexivity]|]. repeat constructor; cbn; unfold req_ok; try lia; try discriminate.
Qed.
Example C73_source_trace : reader_trace [Fetch 1; Skip; Fetch 2; SkipLine 2; Fetch 2; Skip; Skip] (init_reader AnyEnc sixteen [Some 3; Some 3; Some 3; Some 3]) =
  [InBuffer 2 [0xC3; 0xA9; 13]; InBuffer 1 [13]; InBuffer 2 [13; 10]; InBuffer 0 []; InBuffer 2 [0x61; 0]; InBuffer 1 [0]; Misused].
Proof. vm_compute. reflexivity. Qed.
(* the first refill has brought one character more than asked for: the plan of the cursor *)
Example C73_source_cursor : cursor_trace [Fetch 1; Skip; Fetch 2; SkipLine 2; Fetch 2; Skip; Skip] (init_cur [0xE9; 13; 10; 0x61] false [1%nat]) =
  [InBuffer 2 [0xC3; 0xA9; 13]; InBuffer 1 [13]; InBuffer 2 [13; 10]; InBuffer 0 []; InBuffer 2 [0x61; 0]; InBuffer 1 [0]; Misused].
Proof. vm_compute. reflexivity. Qed.
(* the handler fails at its third call *)
Example C73_source_fails : reader_trace [Fetch 1; Skip; Fetch 2; Skip] (init_reader AnyEnc sixteen [Some 3; Some 3; None]) =
  [InBuffer 2 [0xC3; 0xA9; 13]; InBuffer 1 [13]; ReadFailed].
Proof. vm_compute. reflexivity. Qed.

(* ... CHECK_AT(buffer, c, k) looks at the k-th byte of the buffer; the scanner is modelled as
   looking at the k-th character of the text.  Where the model has an answer at all, that
   character begins at the k-th byte. *)
Theorem C73_peek k c x c' : (c_unread c <= S (length (c_text c)))%nat -> peek k c = COk x c' ->
  x = nth k (c_text c ++ [0]) 0 /\ exists rest, skipn k (in_buffer c) = utf8_enc x ++ rest.
Proof. exact (peek_bytes k c x c'). Qed.
Print Assumptions C73_peek.
Example C73_peek_last : exists c', peek 2 (mkCur [0x61; 0x62; 0xE9] 4 [] false mark0) = COk 0xE9 c' /\
  in_buffer c' = [0x61; 0x62; 0xC3; 0xA9; 0].
Proof. eexists. vm_compute. split; reflexivity. Qed.
