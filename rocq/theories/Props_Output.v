(* Properties C44, C07 and C50: what the emitter writes, and what arrives at the
   write handler.  Statements only. *)
From Verif Require Import Base Utf8Spec ReaderModel ReaderSpec CharSpec Types TreeSpec WriterModel WriterSpec PenModel EmitModel EmitIOModel EmitSpec EmitWrite.

(* - "é<U+1F600><TAB>": x *)
Definition odd_text : list N := [0xE9; 0x1F600; 9].
Definition odd_stream : list ev :=
  [EStreamStart AnyEnc; EDocStart None [] true; ESeqStart None None true BlockColl; EScalar None None odd_text true true AnyScalar; ESeqEnd; EDocEnd true; EStreamEnd].
Definition odd_cfg (e : encoding) : cfg := fold_left apply_setting [SetEncoding e; SetUnicode 1] init_cfg.
Example odd_well_formed : well_formed odd_stream.
Proof. exists (mkStreamTree AnyEnc [mkDocTree None [] true (Sequence None None true BlockColl [Scalar None None odd_text true true AnyScalar]) true]). reflexivity. Qed.
Example odd_is_text : Forall text_event odd_stream.
Proof.
  assert (T : text odd_text) by (repeat constructor; unfold scalar_value; lia).
  unfold odd_stream. repeat (apply Forall_cons || apply Forall_nil); try exact I.
  - split; exact I.
  - split; [exact I|split; [exact I|exact T]].
Qed.

(* C44: whatever events it is given, whether or not it reports an error, the emitter
   writes only characters that YAML allows, below U+10000, and only ASCII unless
   unicode output was requested; at most there is a byte order mark in front, in UTF-16. *)
Theorem C44_repertoire g es : Forall text_event es ->
  match emit_all (init_emitter g) es with
  | EOk m | EErr _ m => exists bom body, chars_of (p_ops (m_pen m)) = bom ++ body /\
      (bom = [] \/ (bom = [0xFEFF] /\ g_encoding (m_cfg m) <> Utf8Enc)) /\
      Forall (fun c => yaml_char c /\ c <> 0xFEFF /\ c <= 0xFFFF /\ (g_unicode g = false -> c < 0x80)) body
  | EBad => False
  end.
Proof. exact (emitter_repertoire g es). Qed.
Print Assumptions C44_repertoire.
(* C44: the reader accepts the bytes of every complete stream, and finds the same
   encoding and the same characters. *)
Theorem C44_read_back plan g es m w plan2 reqs : Forall text_event es -> well_formed es -> emit_io plan g es = IOk m w ->
  nlen (accepted w) < MAX_FILE_SIZE -> plan_ok plan2 -> Forall req_ok reqs ->
  exists body, chars_of (p_ops (m_pen m)) = (if encoding_eqb (g_encoding (m_cfg m)) Utf8Enc then [] else [0xFEFF]) ++ body /\
    read_all AnyEnc (accepted w) plan2 reqs = Text (map utf8_enc body) (g_encoding (m_cfg m)).
Proof. exact (read_back plan g es m w plan2 reqs). Qed.
Print Assumptions C44_read_back.
Definition odd_body : list N := (* - "é\U0001F600\t" *)
  [45; 32; 34; 0xE9; 92; 85; 48; 48; 48; 49; 70; 54; 48; 48; 92; 116; 34; 10].
Example C44_meets : exists m w, emit_io [] (odd_cfg Utf16LE) odd_stream = IOk m w /\ accepted w = utf16 false (0xFEFF :: odd_body).
Proof. eexists _, _. split; vm_compute; reflexivity. Qed.
Example C44_ascii : exists m w, emit_io [] init_cfg odd_stream = IOk m w /\
  accepted w = [45; 32; 34; 92; 120; 69; 57; 92; 85; 48; 48; 48; 49; 70; 54; 48; 48; 92; 116; 34; 10].
Proof. eexists _, _. split; vm_compute; reflexivity. Qed.

(* C06/C07 for the emitter as a whole: when a complete stream has been emitted and
   every call has succeeded, the handler has been given exactly the encoding of the
   characters written, whatever the encoding is. *)
Theorem C07_complete_output plan g es m w : Forall text_event es -> well_formed es -> emit_io plan g es = IOk m w ->
  let e := g_encoding (m_cfg m) in
  e <> AnyEnc /\ accepted w = encode e (chars_of (p_ops (m_pen m))) /\
  exists body, chars_of (p_ops (m_pen m)) = (if encoding_eqb e Utf8Enc then [] else [0xFEFF]) ++ body /\
    Forall (fun c => yaml_char c /\ c <> 0xFEFF /\ c <= 0xFFFF /\ (g_unicode g = false -> c < 0x80)) body.
Proof. exact (complete_output plan g es m w). Qed.
Print Assumptions C07_complete_output.
Example C07_complete_meets : exists m w, emit_io [true] (odd_cfg Utf16BE) odd_stream = IOk m w /\ accepted w = utf16 true (0xFEFF :: odd_body).
Proof. eexists _, _. split; vm_compute; reflexivity. Qed.

(* C50: for every sequence of events and every pattern of refusals of the handler,
   the calls report success, or an emitter error, only if nothing was refused;
   otherwise a writer error is reported.  No store is out of bounds (IBad). *)
Theorem C50_emitter_reports plan g es : Forall text_event es ->
  match emit_io plan g es with
  | IOk m w => emit_all (init_emitter g) es = EOk m /\ all_accepted w
  | IEmitter x m w => emit_all (init_emitter g) es = EErr x m /\ all_accepted w
  | IWriter w => ~ all_accepted w
  | IBad => False
  end.
Proof. exact (write_failure_reported plan g es). Qed.
Print Assumptions C50_emitter_reports.
Example C50_emitter_meets : exists w, emit_io [false] (odd_cfg Utf8Enc) odd_stream = IWriter w.
Proof. eexists. vm_compute. reflexivity. Qed.
