(* Model of the output side: writer.c (yaml_emitter_flush) and the buffer
   macros FLUSH/PUT/PUT_BREAK/WRITE/WRITE_BREAK of emitter.c:8-62.
   Line and column counters are in the emitter model. *)
From Verif Require Import Base Utf8Spec ReaderModel.

(* yaml_private.h:57-67 *)
Definition OUTPUT_BUFFER_SIZE : N := 16384.
Definition OUTPUT_RAW_BUFFER_SIZE : N := OUTPUT_BUFFER_SIZE * 2 + 2.

(* One call of the write handler: the bytes passed and its answer. *)
Record wcall := mkWcall { w_bytes : list N; w_answer : bool }.

(* The part of yaml_emitter_t used by the writer, plus the handler.
   buffer.start..buffer.pointer is [w_buf]; raw_buffer.start..raw_buffer.last
   is [w_raw]. *)
Record writer := mkWriter {
  w_enc : encoding;          (* emitter->encoding *)
  w_buf : list N;
  w_raw : list N;
  w_plan : list bool;        (* future answers of the handler; true when exhausted *)
  w_calls : list wcall       (* log of calls, oldest first *)
}.

(* Outcome: return 1, return 0 with a writer error, undefined behaviour. *)
Inductive wout :=
  | WOk (w : writer)
  | WFail (w : writer)
  | WUB.

Definition handler_write (w : writer) (bs : list N) : bool * writer :=
  let ans := hd true (w_plan w) in
  (ans, mkWriter (w_enc w) (w_buf w) (w_raw w) (tl (w_plan w)) (w_calls w ++ [mkWcall bs ans])).

(* writer.c:93-96: value of the character, without checks *)
Fixpoint wr_trail (n : nat) (value : N) (bs : list N) : option N :=
  match n with
  | O => Some value
  | S n' => match bs with
            | [] => None
            | octet :: bs' => wr_trail n' (N.shiftl value 6 + N.land octet 0x3F) bs'
            end
  end.

(* writer.c:102-122: the bytes stored for a value; the char stores truncate to
   8 bits.  Line 119 masks with 0xFF where 0x03 is needed. *)
Definition wr_unit (be : bool) (hi lo : N) : list N :=
  let hi := N.land hi 0xFF in let lo := N.land lo 0xFF in
  if be then [hi; lo] else [lo; hi].
Definition wr_utf16 (be : bool) (value : N) : list N :=
  if value <? 0x10000 then wr_unit be (N.shiftr value 8) (N.land value 0xFF)
  else
    let value := value - 0x10000 in
    wr_unit be (0xD8 + N.shiftr value 18) (N.land (N.shiftr value 10) 0xFF)
    ++ wr_unit be (0xDC + N.land (N.shiftr value 8) 0xFF) (N.land value 0xFF).

(* writer.c:69-123: recode the buffer into the raw buffer.  None: read outside
   the buffer, write outside the raw buffer, or an endless loop (width 0). *)
Fixpoint recode (fuel : nat) (be : bool) (buf raw : list N) : option (list N) :=
  match buf with
  | [] => Some raw
  | octet :: rest =>
      match fuel with
      | O => None
      | S f =>
          let width := utf8_width octet in
          if width =? 0 then None else
          match wr_trail (N.to_nat (width - 1)) (utf8_lead_value octet) rest with
          | None => None
          | Some value =>
              let raw' := raw ++ wr_utf16 be value in
              if OUTPUT_RAW_BUFFER_SIZE <? nlen raw' then None
              else recode f be (skipn (N.to_nat width) buf) raw'
          end
      end
  end.

(* writer.c:31-140 yaml_emitter_flush.
   UTF-8, failed write: buffer.pointer has been reset, so the bytes are gone.
   UTF-16, failed write: buffer.pointer is back at the end of the data and the
   raw buffer keeps its contents. *)
Definition flush (w : writer) : wout :=
  match w_buf w with
  | [] => WOk w
  | buf =>
      match w_enc w with
      | Utf8Enc =>
          let (ans, w') := handler_write w buf in
          let w'' := mkWriter (w_enc w) [] (w_raw w) (w_plan w') (w_calls w') in
          if ans then WOk w'' else WFail w''
      | AnyEnc => WUB                                  (* assert(emitter->encoding) *)
      | e =>
          match recode (length buf) (encoding_eqb e Utf16BE) buf (w_raw w) with
          | None => WUB
          | Some raw =>
              let (ans, w') := handler_write w raw in
              if ans then WOk (mkWriter (w_enc w) [] [] (w_plan w') (w_calls w'))
              else WFail (mkWriter (w_enc w) (w_buf w) raw (w_plan w') (w_calls w'))
          end
      end
  end.

(* FLUSH, emitter.c:8-10 *)
Definition flush_if_needed (w : writer) : wout :=
  if nlen (w_buf w) + 5 <? OUTPUT_BUFFER_SIZE then WOk w else flush w.

(* storing bytes at buffer.pointer; out of bounds is undefined *)
Definition store (w : writer) (bs : list N) : wout :=
  if OUTPUT_BUFFER_SIZE <? nlen (w_buf w) + nlen bs then WUB
  else WOk (mkWriter (w_enc w) (w_buf w ++ bs) (w_raw w) (w_plan w) (w_calls w)).

Definition wbind (o : wout) (k : writer -> wout) : wout :=
  match o with WOk w => k w | r => r end.

(* PUT / PUT_BREAK / WRITE, emitter.c:16-47: FLUSH, then store the bytes of one
   character, or the one or two bytes of a line break. *)
Definition put (w : writer) (bs : list N) : wout :=
  wbind (flush_if_needed w) (fun w => store w bs).

(* WRITE_BREAK of '\n', emitter.c:53-62: FLUSH and then PUT_BREAK whose result
   is ignored. *)
Definition write_break (w : writer) (bs : list N) : wout :=
  wbind (flush_if_needed w) (fun w =>
    match put w bs with WFail w' => WOk w' | r => r end).

(* What the emitter does to the writer. *)
Inductive wop :=
  | WPut (bs : list N)         (* PUT, PUT_BREAK, WRITE, WRITE_BREAK of LS/PS/... *)
  | WBreak (bs : list N)       (* WRITE_BREAK of '\n' *)
  | WFlush.                    (* yaml_emitter_flush *)
Definition wstep (w : writer) (op : wop) : wout :=
  match op with
  | WPut bs => put w bs
  | WBreak bs => write_break w bs
  | WFlush => flush w
  end.

(* The emitter stops at the first failure. *)
Fixpoint wrun (w : writer) (ops : list wop) : wout :=
  match ops with
  | [] => WOk w
  | op :: ops' => wbind (wstep w op) (fun w => wrun w ops')
  end.

(* api.c:346-378 yaml_emitter_initialize, yaml_emitter_set_encoding *)
Definition init_writer (e : encoding) (plan : list bool) : writer := mkWriter e [] [] plan [].
