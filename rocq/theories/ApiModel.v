(* Models of the string handlers and of the UTF-8 check of api.c. *)
From Verif Require Import Base Utf8Spec ReaderModel.

(* ---- string read handler, api.c:248-268 ----
   The caller's memory is [sr_data], parser->input.string.current - start is
   [sr_cur]; end - start is the length.  The destination buffer has room for
   [size] bytes (precondition of yaml_read_handler_t). *)
Record sread := mkSread { sr_data : list N; sr_cur : N }.
Definition sread_init (data : list N) : sread := mkSread data 0.
Definition string_read (s : sread) (size : N) : list N * sread :=
  if sr_cur s =? nlen (sr_data s) then ([], s)
  else
    let size := if nlen (sr_data s) - sr_cur s <? size then nlen (sr_data s) - sr_cur s else size in
    (firstn (N.to_nat size) (skipn (N.to_nat (sr_cur s)) (sr_data s)),
     mkSread (sr_data s) (sr_cur s + size)).
Fixpoint string_reads (s : sread) (sizes : list N) : list (list N) * sread :=
  match sizes with
  | [] => ([], s)
  | n :: sizes' => let (bs, s1) := string_read s n in
                   let (rest, s2) := string_reads s1 sizes' in (bs :: rest, s2)
  end.

(* ---- string write handler, api.c:419-439 ----
   [sw_mem]: the caller's buffer, its length is output.string.size.
   Result None: memcpy outside the caller's buffer. *)
Record swrite := mkSwrite { sw_mem : list N; sw_written : N }.
Definition mem_store (m : list N) (at_ : N) (bs : list N) : option (list N) :=
  if at_ + nlen bs <=? nlen m then
    Some (firstn (N.to_nat at_) m ++ bs ++ skipn (N.to_nat (at_ + nlen bs)) m)
  else None.
(* size - *size_written is computed in size_t: when size_written > size it
   wraps around to a huge number *)
Definition size_sub (a b : N) : N := if b <=? a then a - b else 18446744073709551616 + a - b.
Definition string_write (s : swrite) (bs : list N) : option (swrite * bool) :=
  let size := nlen (sw_mem s) in
  let room := size_sub size (sw_written s) in
  if room <? nlen bs then
    match mem_store (sw_mem s) (sw_written s) (firstn (N.to_nat room) bs) with
    | None => None
    | Some m => Some (mkSwrite m size, false)
    end
  else
    match mem_store (sw_mem s) (sw_written s) bs with
    | None => None
    | Some m => Some (mkSwrite m (sw_written s + nlen bs), true)
    end.
Fixpoint string_writes (s : swrite) (blocks : list (list N)) : option (swrite * list bool) :=
  match blocks with
  | [] => Some (s, [])
  | bs :: blocks' =>
      match string_write s bs with
      | None => None
      | Some (s1, ok) => match string_writes s1 blocks' with
                         | None => None
                         | Some (s2, oks) => Some (s2, ok :: oks)
                         end
      end
  end.
Definition swrite_init (mem : list N) : swrite := mkSwrite mem 0.

(* ---- yaml_check_utf8, api.c:625-662.  None: read outside the string. ---- *)
Fixpoint check_utf8 (fuel : nat) (bs : list N) : option bool :=
  match bs with
  | [] => Some true
  | octet :: rest =>
      match fuel with
      | O => None
      | S f =>
          let width := utf8_width octet in
          if width =? 0 then Some false
          else if nlen bs <? width then Some false
          else
            match utf8_trail (N.to_nat (width - 1)) 1 (utf8_lead_value octet) rest with
            | None => None
            | Some (inl _) => Some false
            | Some (inr value) =>
                if negb ((width =? 1)
                         || ((width =? 2) && (0x80 <=? value))
                         || ((width =? 3) && (0x800 <=? value))
                         || ((width =? 4) && (0x10000 <=? value)))
                then Some false
                else check_utf8 f (skipn (N.to_nat width) bs)
            end
      end
  end.
Definition utf8_accepted (bs : list N) : option bool := check_utf8 (length bs) bs.
