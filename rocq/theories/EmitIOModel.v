(* Model of yaml_emitter_emit with its write handler: emitter.c and writer.c together.

   Every function of emitter.c returns 0 at once when a PUT, a WRITE_BREAK or
   yaml_emitter_flush returns 0 (macros 16-62, and 697, 735), and what it writes does
   not depend on the writer's state.  So the run of the emitter with a handler is the
   run of the operations it puts in the log, up to the first one that fails. *)
From Verif Require Import Base Utf8Spec ReaderModel CharSpec Types WriterModel WriterSpec PenModel EmitModel.

Inductive iores :=
| IOk (m : emitter) (w : writer)                (* every call returned 1 *)
| IEmitter (x : eproblem) (m : emitter) (w : writer) (* YAML_EMITTER_ERROR *)
| IWriter (w : writer)                          (* YAML_WRITER_ERROR *)
| IBad.
Definition emit_io (plan : list bool) (g : cfg) (es : list ev) : iores :=
  match emit_all (init_emitter g) es with
  | EOk m =>
      match wrun (init_writer (g_encoding (m_cfg m)) plan) (map op_bytes (p_ops (m_pen m))) with
      | WOk w => IOk m w | WFail w => IWriter w | _ => IBad end
  | EErr x m =>
      match wrun (init_writer (g_encoding (m_cfg m)) plan) (map op_bytes (p_ops (m_pen m))) with
      | WOk w => IEmitter x m w | WFail w => IWriter w | _ => IBad end
  | EBad => IBad
  end.
