(* Specification side for output into a buffer of the caller (C80). *)
From Verif Require Import Base ReaderModel Types WriterModel WriterSpec PenModel EmitModel EmitIOModel ApiModel.

(* The writer after the calls of yaml_emitter_emit, whatever they returned. *)
Definition writer_of (r : iores) : option writer :=
  match r with IOk _ w | IEmitter _ _ w | IWriter w => Some w | IBad => None end.
(* The write handler has answered as yaml_string_write_handler does when it is given the buffer
   [mem]; [st] is the buffer and *size_written afterwards. *)
Definition served (mem : list N) (r : iores) (st : swrite) : Prop :=
  exists w, writer_of r = Some w /\ string_writes (swrite_init mem) (map w_bytes (w_calls w)) = Some (st, map w_answer (w_calls w)).
(* [out] is what a write handler gets that accepts everything. *)
Definition unlimited (g : cfg) (es : list ev) (out : list N) : Prop :=
  exists w, accepted w = out /\ ((exists m, emit_io [] g es = IOk m w) \/ (exists x m, emit_io [] g es = IEmitter x m w)).
