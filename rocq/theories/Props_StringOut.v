(* Property C80: emitting into a buffer of the caller.  Statements only.  [served] and
   [unlimited] are in StringOutSpec.v, [overlay] in ApiSpec.v. *)
From Verif Require Import Base Utf8Spec ReaderModel ReaderSpec CharSpec Types TreeSpec WriterModel WriterSpec PenModel EmitModel EmitIOModel EmitSpec EmitWrite ApiModel ApiSpec StringOutSpec StringOut Props_Output.

(* C80: whatever the events, the settings and the size of the buffer, the buffer holds the
   beginning of the whole output (what a handler gets that accepts everything), as far as it
   fits, and is otherwise unchanged; *size_written is the number of these bytes; and a call has
   failed with a writer error just if the output does not fit. *)
Theorem C80_string_output plan g es mem st : Forall text_event es -> nlen mem < 18446744073709551616 -> served mem (emit_io plan g es) st ->
  exists out, unlimited g es out /\ sw_mem st = overlay mem out /\ sw_written st = N.min (nlen mem) (nlen out) /\
    match emit_io plan g es with IWriter _ => nlen mem < nlen out | _ => nlen out <= nlen mem end.
Proof. exact (string_output plan g es mem st). Qed.
Print Assumptions C80_string_output.

(* C80: and there is such a run for every buffer. *)
Theorem C80_served g es mem : Forall text_event es -> nlen mem < 18446744073709551616 -> exists plan st, served mem (emit_io plan g es) st.
Proof. exact (string_served g es mem). Qed.
Print Assumptions C80_served.

(* C80: when a complete stream has been emitted without an error, the bytes before
   *size_written are the characters written, in the encoding of the stream. *)
Theorem C80_complete plan g es mem st m w : Forall text_event es -> well_formed es -> nlen mem < 18446744073709551616 ->
  served mem (emit_io plan g es) st -> emit_io plan g es = IOk m w ->
  firstn (N.to_nat (sw_written st)) (sw_mem st) = encode (g_encoding (m_cfg m)) (chars_of (p_ops (m_pen m))).
Proof. exact (string_complete plan g es mem st m w). Qed.
Print Assumptions C80_complete.

(* the stream of Props_Output.v is 21 bytes long: in 22 bytes, and in 4 *)
Example C80_fits : served (repeat 0 22) (emit_io [true] init_cfg odd_stream)
  (mkSwrite [45; 32; 34; 92; 120; 69; 57; 92; 85; 48; 48; 48; 49; 70; 54; 48; 48; 92; 116; 34; 10; 0] 21).
Proof. eexists. split; [vm_compute; reflexivity|]. vm_compute. reflexivity. Qed.
Example C80_full : served [1; 2; 3; 4] (emit_io [false] init_cfg odd_stream) (mkSwrite [45; 32; 34; 92] 4) /\ exists w, emit_io [false] init_cfg odd_stream = IWriter w.
Proof. split; [eexists; split; [vm_compute; reflexivity|]; vm_compute; reflexivity|]. eexists. vm_compute. reflexivity. Qed.
(* the handler would not answer like this *)
Example C80_not_served st : ~ served (repeat 0 22) (emit_io [false] init_cfg odd_stream) st.
Proof. intros (w & H & K). vm_compute in H. injection H as <-. vm_compute in K. discriminate. Qed.
