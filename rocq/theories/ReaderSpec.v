(* Specification side for the reader: clients of the reader and what they see.
   Only the API of ReaderModel (init_reader, update_buffer, skip_char) is used. *)
From Verif Require Import Base Utf8Spec ReaderModel.

(* A client fetches and consumes characters one by one, asking before each for
   an arbitrary look-ahead, until it meets the terminating NUL. The k-th
   request is the k-th element of [reqs] (1 when the list is exhausted). *)
Inductive drained :=
  | Text (chars : list (list N)) (e : encoding)   (* UTF-8 bytes of each character, detected encoding *)
  | ReadError (e : rerr)
  | Undefined                                     (* undefined behaviour *)
  | Unfinished.                                   (* the client's own loop bound was reached *)

Definition is_nul (bs : list N) : bool := match bs with [0] => true | _ => false end.

Fixpoint drain (fuel : nat) (reqs : list N) (st : reader) (acc : list (list N)) : drained :=
  match fuel with
  | O => Unfinished
  | S f =>
      match update_buffer (hd 1 reqs) st with
      | RUB | RFuel => Undefined
      | RFail _ e => ReadError e
      | ROk st1 =>
          match skip_char st1 with
          | None => Undefined
          | Some (c, st2) =>
              if is_nul c then Text (rev acc) (rd_enc st1)
              else drain f (tl reqs) st2 (c :: acc)
          end
      end
  end.

(* Read everything: [input] delivered according to [plan], look-aheads [reqs]. *)
Definition read_all (e : encoding) (input : list N) (plan : list (option N)) (reqs : list N) : drained :=
  drain (S (length input)) reqs (init_reader e input plan) [].

(* look-ahead sizes the reader supports; the library itself asks for at most 8 *)
Definition req_ok (n : N) : Prop := 1 <= n <= 6000.
(* a handler that never fails *)
Definition plan_ok (plan : list (option N)) : Prop := Forall (fun x => x <> None) plan.
(* an input of bytes, shorter than MAX_FILE_SIZE *)
Definition input_ok (input : list N) : Prop := Forall byte_ok input /\ nlen input < MAX_FILE_SIZE.

(* Every state a client can bring the reader to by successful fetches and by
   consuming characters other than the terminating NUL. *)
Inductive reachable (e : encoding) (input : list N) (plan : list (option N)) : reader -> Prop :=
  | reach_init : reachable e input plan (init_reader e input plan)
  | reach_fetch st n st' : reachable e input plan st -> req_ok n ->
      update_buffer n st = ROk st' -> reachable e input plan st'
  | reach_skip st c st' : reachable e input plan st ->
      0 < rd_unread st -> skip_char st = Some (c, st') -> is_nul c = false ->
      reachable e input plan st'.

(* The encoding and number of bytes to drop that a byte order mark dictates. *)
Definition bom (bs : list N) : encoding * N :=
  match bs with
  | 0xFF :: 0xFE :: _ => (Utf16LE, 2)
  | 0xFE :: 0xFF :: _ => (Utf16BE, 2)
  | 0xEF :: 0xBB :: 0xBF :: _ => (Utf8Enc, 3)
  | _ => (Utf8Enc, 0)
  end.

(* [bs] is the text [cs] in encoding [e] *)
Definition is_text (e : encoding) (bs cs : list N) : Prop :=
  match e with
  | Utf8Enc => is_utf8_text bs cs
  | Utf16LE => is_utf16_text false bs cs
  | Utf16BE => is_utf16_text true bs cs
  | AnyEnc => False
  end.

(* What a client may rely on after asking for [n] characters:
   - both buffers are within their allocated size;
   - the buffer holds whole, legal characters, [rd_unread] of them, and either
     at least [n] or everything that is left followed by the NUL terminator;
   - the read handler was only asked for 1 .. raw buffer size bytes, and was not
     called again after it reported the end of the stream by delivering 0 bytes. *)
Record fetched (n : N) (st : reader) : Prop := mkFetched {
  ft_raw_cap : rd_raw_pre st + nlen (rd_raw st) <= INPUT_RAW_BUFFER_SIZE;
  ft_buf_cap : rd_buf_pre st + nlen (rd_buf st) <= INPUT_BUFFER_SIZE;
  ft_chars : exists cs, Forall yaml_char cs /\
    ((rd_buf st = utf8 cs /\ rd_unread st = nlen cs /\ n <= nlen cs) \/
     (rd_buf st = utf8 cs ++ [0] /\ rd_unread st = nlen cs + 1 /\
      rd_eof st = true /\ rd_raw st = [] /\ rd_rest st = []));
  ft_calls : Forall (fun c => 1 <= asked c <= INPUT_RAW_BUFFER_SIZE /\ given c <= asked c) (rd_calls st);
  ft_eof : Forall (fun c => 0 < given c) (tl (rd_calls st))
}.

(* the text [cs] in encoding [e] *)
Definition encode (e : encoding) (cs : list N) : list N :=
  match e with
  | Utf8Enc => utf8 cs
  | Utf16LE => utf16 false cs
  | Utf16BE => utf16 true cs
  | AnyEnc => []
  end.
