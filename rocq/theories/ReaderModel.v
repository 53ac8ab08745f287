(* Model of /repo/src/reader.c (the whole file) together with an arbitrary read
   handler.  Byte level, with explicit buffer capacities. *)
From Verif Require Import Base.

(* include/yaml.h yaml_encoding_t *)
Inductive encoding := AnyEnc | Utf8Enc | Utf16LE | Utf16BE.
Definition encoding_eqb (a b : encoding) : bool :=
  match a, b with
  | AnyEnc, AnyEnc | Utf8Enc, Utf8Enc | Utf16LE, Utf16LE | Utf16BE, Utf16BE => true
  | _, _ => false end.

(* src/yaml_private.h:44-52: INPUT_RAW_BUFFER_SIZE 16384, INPUT_BUFFER_SIZE *3 *)
Definition INPUT_RAW_BUFFER_SIZE : N := 16384.
Definition INPUT_BUFFER_SIZE : N := INPUT_RAW_BUFFER_SIZE * 3.
(* src/yaml_private.h:77 MAX_FILE_SIZE on a 64-bit size_t: (2^64-1)/2 *)
Definition MAX_FILE_SIZE : N := 9223372036854775807.

(* The problem strings of reader.c, one constructor each. *)
Inductive rproblem :=
  | InputError                (* reader.c:123 *)
  | InvalidLeadingOctet       (* 240 *)
  | IncompleteUtf8            (* 248 *)
  | InvalidTrailingOctet      (* 272 *)
  | InvalidLength             (* 287 *)
  | InvalidUnicode            (* 294 *)
  | IncompleteUtf16           (* 336 *)
  | UnexpectedLowSurrogate    (* 352 *)
  | IncompletePair            (* 366 *)
  | ExpectedLowSurrogate      (* 382 *)
  | ControlCharacter          (* 417 *)
  | InputTooLong.             (* 464 *)

(* parser->problem, problem_offset, problem_value (reader.c:25-35);
   problem_value is -1 when there is none, here None. *)
Record rerr := mkRerr { re_problem : rproblem; re_offset : N; re_value : option N }.

(* Result of looking at the head of the raw buffer (reader.c:192-418):
   a character with its width, "incomplete", or an error with the offset
   relative to parser->offset. *)
Inductive dres :=
  | DChar (value width : N)
  | DIncomplete
  | DErr (p : rproblem) (delta : N) (v : option N).

(* reader.c:231-234 and 257-260 *)
Definition utf8_width (octet : N) : N :=
  if N.land octet 0x80 =? 0x00 then 1 else
  if N.land octet 0xE0 =? 0xC0 then 2 else
  if N.land octet 0xF0 =? 0xE0 then 3 else
  if N.land octet 0xF8 =? 0xF0 then 4 else 0.
Definition utf8_lead_value (octet : N) : N :=
  if N.land octet 0x80 =? 0x00 then N.land octet 0x7F else
  if N.land octet 0xE0 =? 0xC0 then N.land octet 0x1F else
  if N.land octet 0xF0 =? 0xE0 then N.land octet 0x0F else
  if N.land octet 0xF8 =? 0xF0 then N.land octet 0x07 else 0.

(* reader.c:264-278, the loop over trailing octets; [n] octets remain, [k] is
   the index of the next one.  The caller guarantees that they exist
   (width <= raw_unread); a missing octet is reported as [None], a bad one with
   its index as [inl]. *)
Fixpoint utf8_trail (n : nat) (k value : N) (bs : list N) : option ((N * N) + N) :=
  match n with
  | O => Some (inr value)
  | S n' =>
      match bs with
      | [] => None
      | octet :: bs' =>
          if negb (N.land octet 0xC0 =? 0x80)
          then Some (inl (k, octet))
          else utf8_trail n' (k + 1) (N.shiftl value 6 + N.land octet 0x3F) bs'
      end
  end.

(* reader.c:206-297.  [None] is an out-of-bounds read of the raw buffer. *)
Definition decode_utf8 (eof : bool) (raw : list N) : option dres :=
  match raw with
  | [] => None
  | octet :: rest =>
      let width := utf8_width octet in
      if width =? 0 then Some (DErr InvalidLeadingOctet 0 (Some octet))
      else if nlen raw <? width then
        (if eof then Some (DErr IncompleteUtf8 0 None) else Some DIncomplete)
      else
        match utf8_trail (N.to_nat (width - 1)) 1 (utf8_lead_value octet) rest with
        | None => None
        | Some (inl (k, bad)) => Some (DErr InvalidTrailingOctet k (Some bad))
        | Some (inr value) =>
            if negb ((width =? 1)
                     || ((width =? 2) && (0x80 <=? value))
                     || ((width =? 3) && (0x800 <=? value))
                     || ((width =? 4) && (0x10000 <=? value)))
            then Some (DErr InvalidLength 0 None)
            else if ((0xD800 <=? value) && (value <=? 0xDFFF)) || (0x10FFFF <? value)
            then Some (DErr InvalidUnicode 0 (Some value))
            else Some (DChar value width)
        end
  end.

(* reader.c:299-394; [be] selects the byte order (low/high, 302-303). *)
Definition unit_value (be : bool) (b0 b1 : N) : N :=
  if be then b1 + N.shiftl b0 8 else b0 + N.shiftl b1 8.
Definition decode_utf16 (be eof : bool) (raw : list N) : option dres :=
  match raw with
  | b0 :: b1 :: rest =>
      let value := unit_value be b0 b1 in
      if N.land value 0xFC00 =? 0xDC00 then Some (DErr UnexpectedLowSurrogate 0 (Some value))
      else if N.land value 0xFC00 =? 0xD800 then
        match rest with
        | b2 :: b3 :: _ =>
            let value2 := unit_value be b2 b3 in
            if negb (N.land value2 0xFC00 =? 0xDC00)
            then Some (DErr ExpectedLowSurrogate 2 (Some value2))
            else Some (DChar (0x10000 + N.shiftl (N.land value 0x3FF) 10 + N.land value2 0x3FF) 4)
        | _ => if eof then Some (DErr IncompletePair 0 None) else Some DIncomplete
        end
      else Some (DChar value 2)
  | _ => if eof then Some (DErr IncompleteUtf16 0 None) else Some DIncomplete
  end.

(* reader.c:411-415 *)
Definition char_allowed (value : N) : bool :=
  (value =? 0x09) || (value =? 0x0A) || (value =? 0x0D)
  || ((0x20 <=? value) && (value <=? 0x7E))
  || (value =? 0x85) || ((0xA0 <=? value) && (value <=? 0xD7FF))
  || ((0xE000 <=? value) && (value <=? 0xFFFD))
  || ((0x10000 <=? value) && (value <=? 0x10FFFF)).

(* reader.c:192-418: switch on the encoding, then the range check.
   AnyEnc is the "Impossible" default (assert(1) does nothing; width stays 0 and
   value 0 is a control character, so the code would report an error). *)
Definition decode_one (e : encoding) (eof : bool) (raw : list N) : option dres :=
  let r := match e with
           | Utf8Enc => decode_utf8 eof raw
           | Utf16LE => decode_utf16 false eof raw
           | Utf16BE => decode_utf16 true eof raw
           | AnyEnc => Some (DChar 0 0)
           end in
  match r with
  | Some (DChar value width) =>
      if char_allowed value then r else Some (DErr ControlCharacter 0 (Some value))
  | _ => r
  end.

(* reader.c:427-448 *)
Definition put_utf8 (value : N) : list N :=
  if value <=? 0x7F then [value]
  else if value <=? 0x7FF then [0xC0 + N.shiftr value 6; 0x80 + N.land value 0x3F]
  else if value <=? 0xFFFF then
    [0xE0 + N.shiftr value 12; 0x80 + N.land (N.shiftr value 6) 0x3F; 0x80 + N.land value 0x3F]
  else
    [0xF0 + N.shiftr value 18; 0x80 + N.land (N.shiftr value 12) 0x3F;
     0x80 + N.land (N.shiftr value 6) 0x3F; 0x80 + N.land value 0x3F].

(* One call of the read handler: bytes requested, bytes delivered. *)
Record hcall := mkCall { asked : N; given : N }.

(* The part of yaml_parser_t used by the reader, plus the handler's state.
   A C buffer with pointers start <= pointer <= last <= end is represented by
   the number of bytes before [pointer] and the list of bytes pointer..last. *)
Record reader := mkReader {
  rd_eof : bool;                 (* parser->eof *)
  rd_enc : encoding;             (* parser->encoding *)
  rd_raw_pre : N;                (* raw_buffer.pointer - raw_buffer.start *)
  rd_raw : list N;               (* raw_buffer.pointer .. raw_buffer.last *)
  rd_buf_pre : N;                (* buffer.pointer - buffer.start *)
  rd_buf : list N;               (* buffer.pointer .. buffer.last (UTF-8 bytes) *)
  rd_unread : N;                 (* parser->unread *)
  rd_offset : N;                 (* parser->offset *)
  (* handler *)
  rd_rest : list N;              (* bytes of the stream not yet delivered *)
  rd_plan : list (option N);     (* how the handler will answer: Some k = deliver at most max(1,k)
                                    bytes, None = fail; when exhausted: deliver as much as asked *)
  rd_calls : list hcall          (* log of handler calls, newest first *)
}.

(* Outcome of a reader function: return 1, return 0 with the error, undefined
   behaviour (out-of-bounds access), or the model's loop bound was too small. *)
Inductive rout :=
  | ROk (st : reader)
  | RFail (st : reader) (e : rerr)
  | RUB
  | RFuel.

(* The user's read handler (contract in include/yaml.h, yaml_read_handler_t):
   delivers between 0 and [n] bytes, 0 only at end of stream. *)
Definition handler_read (rest : list N) (plan : list (option N)) (n : N)
  : option (list N * list N * list (option N)) :=
  match plan with
  | [] => Some (firstn (N.to_nat n) rest, skipn (N.to_nat n) rest, [])
  | None :: _ => None
  | Some k :: plan' =>
      let m := N.min n (N.max 1 k) in
      Some (firstn (N.to_nat m) rest, skipn (N.to_nat m) rest, plan')
  end.

(* reader.c:25-35 yaml_parser_set_reader_error: returns 0 *)
Definition rfail (st : reader) (p : rproblem) (off : N) (v : option N) : rout :=
  RFail st (mkRerr p off v).

(* reader.c:94-132 yaml_parser_update_raw_buffer *)
Definition update_raw_buffer (st : reader) : rout :=
  if (rd_raw_pre st =? 0) && (nlen (rd_raw st) =? INPUT_RAW_BUFFER_SIZE) then ROk st
  else if rd_eof st then ROk st
  else
    let n := INPUT_RAW_BUFFER_SIZE - nlen (rd_raw st) in
    match handler_read (rd_rest st) (rd_plan st) n with
    | None =>
        rfail (mkReader (rd_eof st) (rd_enc st) 0 (rd_raw st) (rd_buf_pre st) (rd_buf st)
                 (rd_unread st) (rd_offset st) (rd_rest st) (tl (rd_plan st))
                 (mkCall n 0 :: rd_calls st))
              InputError (rd_offset st) None
    | Some (got, rest', plan') =>
        if INPUT_RAW_BUFFER_SIZE <? nlen (rd_raw st) + nlen got then RUB else
        ROk (mkReader (nlen got =? 0) (rd_enc st) 0 (rd_raw st ++ got)
               (rd_buf_pre st) (rd_buf st) (rd_unread st) (rd_offset st)
               rest' plan' (mkCall n (nlen got) :: rd_calls st))
    end.

Definition set_enc_skip (st : reader) (e : encoding) (k : N) : reader :=
  mkReader (rd_eof st) e (rd_raw_pre st + k) (skipn (N.to_nat k) (rd_raw st))
           (rd_buf_pre st) (rd_buf st) (rd_unread st) (rd_offset st + k)
           (rd_rest st) (rd_plan st) (rd_calls st).

(* reader.c:55-60, the loop of yaml_parser_determine_encoding *)
Fixpoint fill3 (fuel : nat) (st : reader) : rout :=
  if negb (rd_eof st) && (nlen (rd_raw st) <? 3) then
    match fuel with
    | O => RFuel
    | S f => match update_raw_buffer st with
             | ROk st' => fill3 f st'
             | r => r
             end
    end
  else ROk st.

(* memcmp of a prefix, reader.c:64-81 *)
Definition starts_with (p raw : list N) : bool :=
  (nlen p <=? nlen raw)
  && forallb (fun '(a, b) => a =? b) (combine p raw).

(* reader.c:51-87 yaml_parser_determine_encoding.  The loop runs at most four
   times (each round delivers a byte or sets eof), hence the bound 4. *)
Definition determine_encoding (st : reader) : rout :=
  match fill3 4 st with
  | ROk st =>
      if starts_with [0xFF; 0xFE] (rd_raw st) then ROk (set_enc_skip st Utf16LE 2)
      else if starts_with [0xFE; 0xFF] (rd_raw st) then ROk (set_enc_skip st Utf16BE 2)
      else if starts_with [0xEF; 0xBB; 0xBF] (rd_raw st) then ROk (set_enc_skip st Utf8Enc 3)
      else ROk (set_enc_skip st Utf8Enc 0)
  | r => r
  end.

(* reader.c:427-450: put the character into the buffer, checking the capacity *)
Definition put_buffer (st : reader) (bs : list N) (width : N) : option reader :=
  if INPUT_BUFFER_SIZE <? rd_buf_pre st + nlen (rd_buf st) + nlen bs then None
  else Some (mkReader (rd_eof st) (rd_enc st) (rd_raw_pre st + width)
               (skipn (N.to_nat width) (rd_raw st))
               (rd_buf_pre st) (rd_buf st ++ bs) (rd_unread st + 1) (rd_offset st + width)
               (rd_rest st) (rd_plan st) (rd_calls st)).

(* reader.c:192-451: decode the raw buffer.  Each round consumes at least one
   raw byte; the bound is the number of raw bytes. *)
Fixpoint decode_raw (fuel : nat) (st : reader) : rout :=
  match rd_raw st with
  | [] => ROk st
  | _ =>
      match fuel with
      | O => RFuel
      | S f =>
          match decode_one (rd_enc st) (rd_eof st) (rd_raw st) with
          | None => RUB
          | Some DIncomplete => ROk st
          | Some (DErr p d v) => rfail st p (rd_offset st + d) v
          | Some (DChar value width) =>
              match put_buffer st (put_utf8 value) width with
              | None => RUB
              | Some st' => decode_raw f st'
              end
          end
      end
  end.

(* reader.c:181-468: fill the buffer until it has [len] characters *)
Fixpoint fill_buffer (fuel : nat) (first : bool) (len : N) (st : reader) : rout :=
  if rd_unread st <? len then
    match fuel with
    | O => RFuel
    | S f =>
        let r := if negb first || (nlen (rd_raw st) =? 0)
                 then update_raw_buffer st else ROk st in
        match r with
        | ROk st1 =>
            match decode_raw (length (rd_raw st1)) st1 with
            | ROk st2 =>
                if rd_eof st2 then
                  match put_buffer st2 [0] 0 with
                  | None => RUB
                  | Some st3 => ROk st3
                  end
                else fill_buffer f false len st2
            | r => r
            end
        | r => r
        end
    end
  else if MAX_FILE_SIZE <=? rd_offset st then rfail st InputTooLong (rd_offset st) None
  else ROk st.

(* reader.c:165-177: move the unread characters to the start of the buffer *)
Definition compact (st : reader) : reader :=
  mkReader (rd_eof st) (rd_enc st) (rd_raw_pre st) (rd_raw st) 0 (rd_buf st)
           (rd_unread st) (rd_offset st) (rd_rest st) (rd_plan st) (rd_calls st).

(* Bound for the outer loop: every round but the last takes at least one byte
   from the handler, or starts with raw bytes present. *)
Definition fill_fuel (st : reader) : nat := S (S (length (rd_rest st))).

(* reader.c:141-469 yaml_parser_update_buffer *)
Definition update_buffer (len : N) (st : reader) : rout :=
  if rd_eof st && (nlen (rd_raw st) =? 0) then ROk st
  else if len <=? rd_unread st then ROk st
  else
    let r := if encoding_eqb (rd_enc st) AnyEnc then determine_encoding st else ROk st in
    match r with
    | ROk st1 => fill_buffer (fill_fuel st1) true len (compact st1)
    | r => r
    end.

(* What the scanner does with a fetched character (SKIP, scanner.c:500-504):
   advance the pointer by the width of the character, unread--.  Reading
   outside the filled part of the buffer is undefined behaviour. *)
Definition skip_char (st : reader) : option (list N * reader) :=
  match rd_buf st with
  | [] => None
  | b :: _ =>
      let w := utf8_width b in
      if (rd_unread st =? 0) || (nlen (rd_buf st) <? w) then None
      else Some (firstn (N.to_nat w) (rd_buf st),
                 mkReader (rd_eof st) (rd_enc st) (rd_raw_pre st) (rd_raw st)
                   (rd_buf_pre st + w) (skipn (N.to_nat w) (rd_buf st))
                   (rd_unread st - 1) (rd_offset st)
                   (rd_rest st) (rd_plan st) (rd_calls st))
  end.

(* yaml_parser_initialize (api.c:178-219) + set_input + set_encoding *)
Definition init_reader (e : encoding) (input : list N) (plan : list (option N)) : reader :=
  mkReader false e 0 [] 0 [] 0 0 input plan [].
