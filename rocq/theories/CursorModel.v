(* The scanner's view of its input: the macros CACHE, CHECK, SKIP, SKIP_LINE,
   READ and READ_LINE of scanner.c:486-568 over parser->buffer.

   The reader (reader.c, see ReaderModel and C01-C05) delivers the decoded
   characters of the input followed by one NUL, or fails at some point.  Here
   the input still to come is a list of code points; [c_unread] is
   parser->unread, the number of characters in the buffer.  How far the reader
   reads ahead of what is asked for is not determined by the scanner: it is
   given by an arbitrary list [c_plan].  Reading a character that is not in the
   buffer, or passing the final NUL, is undefined behaviour ([CBad]).

   A macro CHECK_AT(buffer,c,k) looks at the k-th BYTE; the model looks at the
   k-th character and treats the access as undefined behaviour unless all
   earlier characters are one byte wide, when the two are the same.

   Malloc failures (STRING_INIT, STRING_EXTEND, JOIN, PUSH, ENQUEUE) are not
   modelled in the scanner; see ContainerModel for the containers themselves. *)
From Verif Require Import Base ReaderModel Utf8Spec CharSpec Types.

(* parser->problem, one constructor per message of scanner.c; the context
   strings are dropped (simplification), the context marks are kept *)
Inductive sproblem :=
| SReader                    (* yaml_parser_update_buffer has failed *)
| SLimit                     (* an int would overflow: YAML_MEMORY_ERROR *)
| SNoColon                   (* could not find expected ':' *)
| SCannotStart               (* found character that cannot start any token *)
| SBlockEntry | SMapKey | SMapValue        (* ... not allowed in this context *)
| SUnknownDirective | SDirectiveEnd | SNoDirectiveName | SDirectiveNameChar
| SNoDot | SLongNumber | SNoNumber
| STagDirectiveSpace | STagDirectiveEnd
| SAnchorChar
| STagClose | STagEnd | SNoBang | SNoSecondBang | SNoUri
| SUriOctet | SUriLead | SUriTrail
| SZeroIndent | SBlockHeaderEnd | SBlockTab
| SQuotedIndicator | SQuotedEnd | SEscape | SHex | SEscapeCode
| SPlainColon | SPlainTab.
(* parser->problem, context_mark (if set) and problem_mark *)
Record serr := mkSerr { se_problem : sproblem; se_context : option mark; se_mark : mark }.

Record cur := mkCur {
  c_text : list N;        (* characters not yet consumed, without the NUL *)
  c_unread : nat;         (* parser->unread *)
  c_plan : list nat;      (* how much further the reader will read at each call *)
  c_bad : bool;           (* the text ends in a reader error instead of in EOF *)
  c_mark : mark }.        (* parser->mark *)

Inductive cres (A : Type) :=
| COk (a : A) (c : cur)
| CErr (e : serr)
| CBad                    (* undefined behaviour *)
| CFuel.                  (* a loop did not stop within its fuel *)
Arguments COk {A} a c. Arguments CErr {A} e. Arguments CBad {A}. Arguments CFuel {A}.
Definition cm (A : Type) := cur -> cres A.

Definition ret {A} (a : A) : cm A := fun c => COk a c.
Definition bind {A B} (m : cm A) (k : A -> cm B) : cm B := fun c =>
  match m c with COk a c' => k a c' | CErr e => CErr e | CBad => CBad | CFuel => CFuel end.
Notation "x <- m ;; k" := (bind m (fun x => k)) (at level 61, m at next level, right associativity).
Notation "m ;;; k" := (bind m (fun _ => k)) (at level 61, right associativity).
Definition ub {A} : cm A := fun _ => CBad.
Definition get_mark : cm mark := fun c => COk (c_mark c) c.
Definition column : cm N := fun c => COk (m_column (c_mark c)) c.

(* yaml_parser_set_scanner_error, scanner.c:781-794 *)
Definition err {A} (ctx : option mark) (p : sproblem) : cm A := fun c => CErr (mkSerr p ctx (c_mark c)).

(* A while(1) loop: [inl] goes on, [inr] leaves.  The fuel is one more than the
   number of characters left, so that a loop that consumes a character each
   time never runs out of it. *)
Fixpoint loop_n {A B} (n : nat) (body : A -> cm (A + B)) (a : A) : cm B := fun c =>
  match n with
  | O => CFuel
  | S n' => match body a c with
            | COk (inl a') c' => loop_n n' body a' c'
            | COk (inr b) c' => COk b c'
            | CErr e => CErr e
            | CBad => CBad
            | CFuel => CFuel
            end
  end.
Definition loop {A B} (body : A -> cm (A + B)) (a : A) : cm B := fun c =>
  loop_n (S (length (c_text c))) body a c.

(* CACHE, scanner.c:486-489, with yaml_parser_update_buffer, reader.c:141-469 *)
Definition cache (n : nat) : cm unit := fun c =>
  if (n <=? c_unread c)%nat then COk tt c else
  let want := (n + hd O (c_plan c))%nat in
  if c_bad c && (length (c_text c) <? want)%nat
  then CErr (mkSerr SReader None (c_mark c))
  else COk tt (mkCur (c_text c) (Nat.min want (S (length (c_text c)))) (tl (c_plan c)) (c_bad c) (c_mark c)).

(* parser->buffer.pointer[k] *)
Definition peek (k : nat) : cm N := fun c =>
  if (k <? c_unread c)%nat && forallb is_ascii (firstn k (c_text c))
  then COk (nth k (c_text c) 0) c else CBad.
Definition check (k : nat) (p : N -> bool) : cm bool := x <- peek k ;; ret (p x).
(* && and || *)
Definition andc (a b : cm bool) : cm bool := x <- a ;; if x then b else ret false.
Definition orc (a b : cm bool) : cm bool := x <- a ;; if x then ret true else b.

Definition next_column (k : N) (m : mark) : mark := mkMark (m_index m + k) (m_line m) (m_column m + k).
Definition next_line (k : N) (m : mark) : mark := mkMark (m_index m + k) (m_line m + 1) 0.

(* SKIP, scanner.c:495-499 *)
Definition skip : cm unit := fun c =>
  match c_text c, c_unread c with
  | _ :: r, S u => COk tt (mkCur r u (c_plan c) (c_bad c) (next_column 1 (c_mark c)))
  | _, _ => CBad
  end.
(* the pointer, unread, index, column and line updates of SKIP_LINE and READ_LINE *)
Definition drop_line (k : nat) : cm unit := fun c =>
  if (k <=? c_unread c)%nat && (k <=? length (c_text c))%nat
  then COk tt (mkCur (skipn k (c_text c)) (c_unread c - k) (c_plan c) (c_bad c) (next_line (N.of_nat k) (c_mark c)))
  else CBad.
Definition eqc (x : N) (y : N) : bool := y =? x.
Definition is_crlf : cm bool := andc (check 0 (eqc 0xD)) (check 1 (eqc 0xA)).
(* SKIP_LINE, scanner.c:501-514 *)
Definition skip_line : cm unit :=
  crlf <- is_crlf ;;
  if crlf then drop_line 2 else
  b <- check 0 is_break ;; if b then drop_line 1 else ret tt.
(* READ, scanner.c:520-527: COPY appends the bytes of one character *)
Definition read (s : list N) : cm (list N) :=
  x <- peek 0 ;; skip ;;; ret (s ++ utf8_enc x).
(* READ_LINE, scanner.c:533-568 *)
Definition read_line (s : list N) : cm (list N) :=
  crlf <- is_crlf ;;
  if crlf then drop_line 2 ;;; ret (s ++ [0xA]) else
  x <- peek 0 ;;
  if (x =? 0xD) || (x =? 0xA) then drop_line 1 ;;; ret (s ++ [0xA])
  else if x =? 0x85 then drop_line 1 ;;; ret (s ++ [0xA])
  else if (x =? 0x2028) || (x =? 0x2029) then drop_line 1 ;;; ret (s ++ utf8_enc x)
  else ret s.

(* The bytes put into a string after one STRING_EXTEND (yaml_private.h:122-128),
   which makes room for five. *)
Definition room : nat := 5.
Definition put (s bs : list N) : cm (list N) := if (length bs <=? room)%nat then ret (s ++ bs) else ub.

(* a char* as the receiver sees it: up to the first NUL *)
Fixpoint cstr (s : list N) : list N :=
  match s with [] => [] | x :: r => if x =? 0 then [] else x :: cstr r end.

(* while (IS_X(buffer)) { SKIP; CACHE(1) } *)
Definition skip_while (p : N -> bool) : cm unit :=
  loop (fun _ => b <- check 0 p ;; if b then skip ;;; cache 1 ;;; ret (inl tt) else ret (inr tt)) tt.
(* while (IS_X(buffer)) { READ; CACHE(1) } *)
Definition read_while (p : N -> bool) (s : list N) : cm (list N) :=
  loop (fun s => b <- check 0 p ;; if b then s' <- read s ;; cache 1 ;;; ret (inl s') else ret (inr s)) s.
