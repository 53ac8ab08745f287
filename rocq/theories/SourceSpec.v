(* Specification side for the buffer that the scanner looks into (C73): what a client of
   the reader sees of reader.c, and what it sees of the cursor that the scanner is modelled
   with. *)
From Verif Require Import Base Utf8Spec ReaderModel ReaderSpec Types CursorModel.

(* What scanner.c does with the buffer: CACHE(n), SKIP, and the step of SKIP_LINE and
   READ_LINE over the k characters of a line break. *)
Inductive op := Fetch (n : N) | Skip | SkipLine (k : nat).
Definition op_ok (o : op) : Prop := match o with Fetch n => req_ok n | Skip => True | SkipLine k => k <> O end.

(* What is in the buffer after a step: parser->unread and the bytes from
   parser->buffer.pointer up to parser->buffer.last. *)
Inductive seen :=
| InBuffer (unread : nat) (bytes : list N)
| ReadFailed                      (* yaml_parser_update_buffer has returned 0 *)
| Misused                         (* a step over a character not in the buffer, or over the NUL *)
| Impossible.                     (* undefined behaviour or a loop without end in the reader *)

Definition skip_in (st : reader) : option reader :=
  match skip_char st with Some (c, st') => if is_nul c then None else Some st' | None => None end.
Fixpoint skips_in (k : nat) (st : reader) : option reader :=
  match k with O => Some st | S k' => match skip_in st with Some st' => skips_in k' st' | None => None end end.

Fixpoint reader_trace (ops : list op) (st : reader) : list seen :=
  match ops with
  | [] => []
  | o :: r =>
      let go st' := InBuffer (N.to_nat (rd_unread st')) (rd_buf st') :: reader_trace r st' in
      match o with
      | Fetch n => match update_buffer n st with ROk st' => go st' | RFail _ _ => [ReadFailed] | _ => [Impossible] end
      | Skip => match skip_in st with Some st' => go st' | None => [Misused] end
      | SkipLine k => match skips_in k st with Some st' => go st' | None => [Misused] end
      end
  end.

(* the characters in the buffer are the next ones of the text and then the NUL *)
Definition in_buffer (c : cur) : list N := flat_map utf8_enc (firstn (c_unread c) (c_text c ++ [0])).
Definition step_of (o : op) : cm unit :=
  match o with Fetch n => cache (N.to_nat n) | Skip => skip | SkipLine k => drop_line k end.
Fixpoint cursor_trace (ops : list op) (c : cur) : list seen :=
  match ops with
  | [] => []
  | o :: r =>
      match step_of o c with
      | COk _ c' => InBuffer (c_unread c') (in_buffer c') :: cursor_trace r c'
      | CErr _ => [ReadFailed]
      | CBad => [Misused]
      | CFuel => [Impossible]
      end
  end.
