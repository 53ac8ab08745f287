(* Model of the token scanners of scanner.c:1915-3598.  Each takes the fields of
   yaml_parser_t it reads (flow_level, indent, simple_key_allowed) as arguments. *)
From Verif Require Import Base ReaderModel Utf8Spec CharSpec Types CursorModel.

(* yaml_parser_scan_to_next_token, 1919-1983; returns simple_key_allowed *)
Definition scan_to_next_token (flow : bool) (allowed : bool) : cm bool :=
  loop (fun allowed =>
    cache 1 ;;;
    col <- column ;;
    bom <- andc (ret (col =? 0)) (check 0 is_bom) ;;
    (if bom then skip else ret tt) ;;;
    cache 1 ;;;
    skip_while (fun x => is_space x || ((flow || negb allowed) && is_tab x)) ;;;
    hash <- check 0 (eqc 0x23) ;;
    (if hash then skip_while (fun x => negb (is_breakz x)) else ret tt) ;;;
    b <- check 0 is_break ;;
    if b then cache 2 ;;; skip_line ;;; ret (inl (if flow then allowed else true))
    else ret (inr allowed)) allowed.

(* the tail of a directive line or of a block scalar header, 2058-2088 and
   2819-2846: blanks, a comment, the end of the line *)
Definition scan_line_end (start : mark) (p : sproblem) : cm unit :=
  cache 1 ;;;
  skip_while is_blank ;;;
  hash <- check 0 (eqc 0x23) ;;
  (if hash then skip_while (fun x => negb (is_breakz x)) else ret tt) ;;;
  e <- check 0 is_breakz ;;
  if negb e then err (Some start) p else
  b <- check 0 is_break ;;
  if b then cache 2 ;;; skip_line else ret tt.

(* yaml_parser_scan_directive_name, 2111-2152 *)
Definition scan_directive_name (start : mark) : cm (list N) :=
  cache 1 ;;;
  name <- read_while is_alpha [] ;;
  match name with
  | [] => err (Some start) SNoDirectiveName
  | _ => z <- check 0 is_blankz ;;
         if negb z then err (Some start) SDirectiveNameChar else ret name
  end.

(* yaml_parser_scan_version_directive_number, 2209-2246; MAX_NUMBER_LENGTH 2195 *)
Definition MAX_NUMBER_LENGTH : nat := 9.
Definition scan_version_number (start : mark) : cm N :=
  cache 1 ;;;
  r <- loop (fun st : N * nat =>
    let '(value, len) := st in
    x <- peek 0 ;;
    if is_digit x then
      if (MAX_NUMBER_LENGTH <? S len)%nat then err (Some start) SLongNumber
      else skip ;;; cache 1 ;;; ret (inl (value * 10 + as_digit x, S len))
    else ret (inr st)) (0, O) ;;
  match snd r with O => err (Some start) SNoNumber | _ => ret (fst r) end.

(* yaml_parser_scan_version_directive_value, 2162-2193 *)
Definition scan_version_value (start : mark) : cm (N * N) :=
  cache 1 ;;;
  skip_while is_blank ;;;
  major <- scan_version_number start ;;
  dot <- check 0 (eqc 0x2E) ;;
  if negb dot then err (Some start) SNoDot else
  skip ;;;
  minor <- scan_version_number start ;;
  ret (major, minor).

(* yaml_parser_scan_tag_handle, 2503-2564.  string.start[1] == '\0' after the
   first '!' has been read means that nothing else has been read. *)
Definition scan_tag_handle (directive : bool) (start : mark) : cm (list N) :=
  cache 1 ;;;
  bang <- check 0 (eqc 0x21) ;;
  if negb bang then err (Some start) SNoBang else
  s <- read [] ;;
  cache 1 ;;;
  s <- read_while is_alpha s ;;
  bang <- check 0 (eqc 0x21) ;;
  if bang then read s
  else if directive && negb (str_eqb s [0x21]) then err (Some start) SNoSecondBang
  else ret s.

(* yaml_parser_scan_uri_escapes, 2671-2734.  [free] is the room left after the
   STRING_EXTEND of the caller (2626). *)
Definition uri_width (octet : N) : nat :=
  if N.land octet 0x80 =? 0 then 1%nat
  else if N.land octet 0xE0 =? 0xC0 then 2%nat
  else if N.land octet 0xF0 =? 0xE0 then 3%nat
  else if N.land octet 0xF8 =? 0xF0 then 4%nat else O.
Definition scan_uri_escapes (start : mark) (s : list N) : cm (list N) :=
  loop (fun st : nat * nat * list N =>
    let '(width, free, s) := st in
    cache 3 ;;;
    ok <- andc (check 0 (eqc 0x25)) (andc (check 1 is_hex) (check 2 is_hex)) ;;
    if negb ok then err (Some start) SUriOctet else
    a <- peek 1 ;; b <- peek 2 ;;
    let octet := as_hex a * 16 + as_hex b in
    w <- (if (width =? 0)%nat
          then if (uri_width octet =? 0)%nat then err (Some start) SUriLead else ret (uri_width octet)
          else if negb (N.land octet 0xC0 =? 0x80) then err (Some start) SUriTrail else ret width) ;;
    match free with
    | O => ub
    | S rest' =>
        skip ;;; skip ;;; skip ;;;
        match w with
        | S (S w') => ret (inl (S w', rest', s ++ [octet]))
        | _ => ret (inr (s ++ [octet]))
        end
    end) (O, room, s).

(* yaml_parser_scan_tag_uri, 2570-2665 *)
Definition uri_class (uri_char : bool) (x : N) : bool :=
  is_alpha x || existsb (fun y => x =? y)
    [0x3B; 0x2F; 0x3F; 0x3A; 0x40; 0x26; 0x3D; 0x2B; 0x24; 0x2E; 0x25; 0x21; 0x7E; 0x2A; 0x27; 0x28; 0x29]
  || (uri_char && existsb (fun y => x =? y) [0x2C; 0x5B; 0x5D]).
Definition scan_tag_uri (uri_char : bool) (head : list N) (start : mark) : cm (list N) :=
  cache 1 ;;;
  r <- loop (fun st : list N * bool =>
    let '(s, some) := st in
    b <- check 0 (uri_class uri_char) ;;
    if b then
      pct <- check 0 (eqc 0x25) ;;
      s' <- (if pct then scan_uri_escapes start s else read s) ;;
      cache 1 ;;; ret (inl (s', true))
    else ret (inr st)) (tl head, match head with [] => false | _ => true end) ;;
  if snd r then ret (cstr (fst r)) else err (Some start) SNoUri.

(* yaml_parser_scan_tag_directive_value, 2256-2318 *)
Definition scan_tag_directive_value (start : mark) : cm (list N * list N) :=
  cache 1 ;;;
  skip_while is_blank ;;;
  handle <- scan_tag_handle true start ;;
  cache 1 ;;;
  b <- check 0 is_blank ;;
  if negb b then err (Some start) STagDirectiveSpace else
  skip_while is_blank ;;;
  prefix <- scan_tag_uri true [] start ;;
  cache 1 ;;;
  z <- check 0 is_blankz ;;
  if negb z then err (Some start) STagDirectiveEnd else ret (handle, prefix).

(* yaml_parser_scan_directive, 1995-2099 *)
Definition yaml_name : list N := [0x59; 0x41; 0x4D; 0x4C].
Definition tag_name : list N := [0x54; 0x41; 0x47].
Definition scan_directive : cm token :=
  start <- get_mark ;;
  skip ;;;
  name <- scan_directive_name start ;;
  tok <- (if str_eqb name yaml_name then
            v <- scan_version_value start ;;
            e <- get_mark ;; ret (mkToken (TVersion (fst v) (snd v)) start e false)
          else if str_eqb name tag_name then
            v <- scan_tag_directive_value start ;;
            e <- get_mark ;; ret (mkToken (TTagDirective (fst v) (snd v)) start e false)
          else err (Some start) SUnknownDirective) ;;
  scan_line_end start SDirectiveEnd ;;;
  ret tok.

(* yaml_parser_scan_anchor, 2320-2380 *)
Definition anchor_end (x : N) : bool :=
  is_blankz x || existsb (fun y => x =? y) [0x3F; 0x3A; 0x2C; 0x5D; 0x7D; 0x25; 0x40; 0x60].
Definition scan_anchor (anchor : bool) : cm token :=
  start <- get_mark ;;
  skip ;;;
  cache 1 ;;;
  s <- read_while is_alpha [] ;;
  e <- get_mark ;;
  match s with
  | [] => err (Some start) SAnchorChar
  | _ => z <- check 0 anchor_end ;;
         if negb z then err (Some start) SAnchorChar
         else ret (mkToken (if anchor then TAnchor s else TAlias s) start e false)
  end.

(* yaml_parser_scan_tag, 2386-2497 *)
Definition is_handle (s : list N) : bool :=
  match s with
  | 0x21 :: _ :: _ => last s 0 =? 0x21
  | _ => false
  end.
Definition scan_tag (flow : bool) : cm token :=
  start <- get_mark ;;
  cache 2 ;;;
  verbatim <- check 1 (eqc 0x3C) ;;
  tag <- (if verbatim then
            skip ;;; skip ;;;
            suffix <- scan_tag_uri true [] start ;;
            close <- check 0 (eqc 0x3E) ;;
            if negb close then err (Some start) STagClose else
            skip ;;; ret (TTag [] suffix)
          else
            handle <- scan_tag_handle false start ;;
            if is_handle handle then
              suffix <- scan_tag_uri false [] start ;;
              ret (TTag handle suffix)
            else
              suffix <- scan_tag_uri false handle start ;;
              match suffix with
              | [] => ret (TTag [] [0x21])
              | _ => ret (TTag [0x21] suffix)
              end) ;;
  cache 1 ;;;
  z <- check 0 is_blankz ;;
  comma <- (if z then ret true else andc (ret flow) (check 0 (eqc 0x2C))) ;;
  if negb comma then err (Some start) STagEnd else
  e <- get_mark ;;
  ret (mkToken tag start e false).

(* yaml_parser_scan_block_scalar_breaks, 2962-3018; [pindent] is
   parser->indent.  Returns *indent, *breaks and *end_mark.  The casts of
   mark.column to int are taken as exact (lines of less than 2^31 characters). *)
Definition scan_block_scalar_breaks (pindent indent : Z) (breaks : list N) (start : mark)
  : cm (Z * list N * mark) :=
  e <- get_mark ;;
  r <- loop (fun st : Z * list N * mark =>
    let '(max_indent, breaks, e) := st in
    cache 1 ;;;
    loop (fun _ : unit =>
      col <- column ;;
      b <- andc (ret ((indent =? 0)%Z || (Z.of_N col <? indent)%Z)) (check 0 is_space) ;;
      if b then skip ;;; cache 1 ;;; ret (inl tt) else ret (inr tt)) tt ;;;
    col <- column ;;
    let max_indent := Z.max max_indent (Z.of_N col) in
    tab <- andc (ret ((indent =? 0)%Z || (Z.of_N col <? indent)%Z)) (check 0 is_tab) ;;
    if tab then err (Some start) SBlockTab else
    b <- check 0 is_break ;;
    if negb b then ret (inr (max_indent, breaks, e)) else
    cache 2 ;;;
    breaks <- read_line breaks ;;
    e <- get_mark ;;
    ret (inl (max_indent, breaks, e))) (0%Z, breaks, e) ;;
  let '(max_indent, breaks, e) := r in
  let indent := if (indent =? 0)%Z then Z.max (Z.max max_indent (pindent + 1)) 1 else indent in
  ret (indent, breaks, e).

(* the header of a block scalar, 2769-2817: chomping (Some true: '+', Some
   false: '-') and indentation indicator *)
Definition scan_block_header (start : mark) : cm (option bool * Z) :=
  cache 1 ;;;
  x <- peek 0 ;;
  if (x =? 0x2B) || (x =? 0x2D) then
    skip ;;; cache 1 ;;;
    y <- peek 0 ;;
    if is_digit y then
      if y =? 0x30 then err (Some start) SZeroIndent
      else skip ;;; ret (Some (x =? 0x2B), Z.of_N (as_digit y))
    else ret (Some (x =? 0x2B), 0%Z)
  else if is_digit x then
    if x =? 0x30 then err (Some start) SZeroIndent else
    skip ;;; cache 1 ;;;
    y <- peek 0 ;;
    if (y =? 0x2B) || (y =? 0x2D)
    then skip ;;; ret (Some (y =? 0x2B), Z.of_N (as_digit x))
    else ret (None, Z.of_N (as_digit x))
  else ret (None, 0%Z).

Definition starts_lf (s : list N) : bool := match s with 0xA :: _ => true | _ => false end.
Definition nonempty {A} (s : list A) : bool := match s with [] => false | _ => true end.

(* yaml_parser_scan_block_scalar, 2740-2955; [pindent] is parser->indent *)
Definition scan_block_scalar (pindent : Z) (literal : bool) : cm token :=
  start <- get_mark ;;
  skip ;;;
  h <- scan_block_header start ;;
  let '(chomping, increment) := h in
  scan_line_end start SBlockHeaderEnd ;;;
  let indent := if (increment =? 0)%Z then 0%Z
                else if (0 <=? pindent)%Z then (pindent + increment)%Z else increment in
  r <- scan_block_scalar_breaks pindent indent [] start ;;
  let '(indent, trailing, e) := r in
  cache 1 ;;;
  (* string, leading_break, trailing_breaks, leading_blank, end_mark; the
     indentation does not change any more, being non-zero *)
  r <- loop (fun st : list N * list N * list N * bool * mark =>
    let '(s, leading, trailing, leading_blank, e) := st in
    col <- column ;;
    more <- andc (ret (Z.of_N col =? indent)%Z) (check 0 (fun x => negb (is_z x))) ;;
    if negb more then ret (inr st) else
    trailing_blank <- check 0 is_blank ;;
    s <- (if negb literal && starts_lf leading && negb leading_blank && negb trailing_blank
          then if nonempty trailing then ret s else put s [0x20]
          else ret (s ++ leading)) ;;
    let s := s ++ trailing in
    leading_blank <- check 0 is_blank ;;
    s <- read_while (fun x => negb (is_breakz x)) s ;;
    cache 2 ;;;
    leading <- read_line [] ;;
    r <- scan_block_scalar_breaks pindent indent [] start ;;
    let '(_, trailing, e) := r in
    ret (inl (s, leading, trailing, leading_blank, e))) ([], [], trailing, false, e) ;;
  let '(s, leading, trailing, _, e) := r in
  let s := match chomping with Some false => s | _ => s ++ leading end in
  let s := match chomping with Some true => s ++ trailing | _ => s end in
  ret (mkToken (TScalar s (if literal then Literal else Folded)) start e false).

(* "---" or "..." followed by a blank, a break or the end, 901-919, 3060-3067, 3428-3435 *)
Definition triple (c : N) : cm bool :=
  andc (check 0 (eqc c)) (andc (check 1 (eqc c)) (check 2 (eqc c))).
Definition document_indicator : cm bool :=
  col <- column ;;
  andc (ret (col =? 0)) (andc (orc (triple 0x2D) (triple 0x2E)) (check 3 is_blankz)).

(* the escape characters of double-quoted scalars, 3128-3213: the bytes they
   stand for, or the length of the code that follows *)
Definition escape (x : N) : option (list N + nat) :=
  if x =? 0x30 then Some (inl [0])
  else if x =? 0x61 then Some (inl [7])
  else if x =? 0x62 then Some (inl [8])
  else if (x =? 0x74) || (x =? 9) then Some (inl [9])
  else if x =? 0x6E then Some (inl [0xA])
  else if x =? 0x76 then Some (inl [0xB])
  else if x =? 0x66 then Some (inl [0xC])
  else if x =? 0x72 then Some (inl [0xD])
  else if x =? 0x65 then Some (inl [0x1B])
  else if x =? 0x20 then Some (inl [0x20])
  else if x =? 0x22 then Some (inl [0x22])
  else if x =? 0x2F then Some (inl [0x2F])
  else if x =? 0x5C then Some (inl [0x5C])
  else if x =? 0x4E then Some (inl [0xC2; 0x85])
  else if x =? 0x5F then Some (inl [0xC2; 0xA0])
  else if x =? 0x4C then Some (inl [0xE2; 0x80; 0xA8])
  else if x =? 0x50 then Some (inl [0xE2; 0x80; 0xA9])
  else if x =? 0x78 then Some (inr 2%nat)
  else if x =? 0x75 then Some (inr 4%nat)
  else if x =? 0x55 then Some (inr 8%nat)
  else None.

(* 3226-3233: the hexadecimal digits at offsets k, k+1, ..., k+n-1 *)
Fixpoint scan_hex (n k : nat) (start : mark) (value : N) : cm N :=
  match n with
  | O => ret value
  | S n' => x <- peek k ;;
            if is_hex x then scan_hex n' (S k) start (value * 16 + as_hex x)
            else err (Some start) SHex
  end.
(* 3242-3260: the UTF-8 form of a code *)
Definition code_bytes (value : N) : list N :=
  if value <=? 0x7F then [value]
  else if value <=? 0x7FF then [0xC0 + N.shiftr value 6; 0x80 + N.land value 0x3F]
  else if value <=? 0xFFFF
  then [0xE0 + N.shiftr value 12; 0x80 + N.land (N.shiftr value 6) 0x3F; 0x80 + N.land value 0x3F]
  else [0xF0 + N.shiftr value 18; 0x80 + N.land (N.shiftr value 12) 0x3F;
        0x80 + N.land (N.shiftr value 6) 0x3F; 0x80 + N.land value 0x3F].
Fixpoint skip_n (n : nat) : cm unit := match n with O => ret tt | S n' => skip ;;; skip_n n' end.

(* one escape sequence other than an escaped line break, 3117-3268 *)
Definition scan_escape (start : mark) (s : list N) : cm (list N) :=
  x <- peek 1 ;;
  match escape x with
  | None => err (Some start) SEscape
  | Some (inl bs) => s <- put s bs ;; skip ;;; skip ;;; ret s
  | Some (inr n) =>
      skip ;;; skip ;;;
      cache n ;;;
      value <- scan_hex n 0 start 0 ;;
      if ((0xD800 <=? value) && (value <=? 0xDFFF)) || (0x10FFFF <? value)
      then err (Some start) SEscapeCode
      else s <- put s (code_bytes value) ;; skip_n n ;;; ret s
  end.

(* the non-blank characters of a quoted scalar, 3085-3278; returns the string
   and leading_blanks *)
Definition scan_quoted_word (single : bool) (start : mark) (s : list N) : cm (list N * bool) :=
  let quote := if single then 0x27 else 0x22 in
  loop (fun s =>
    z <- check 0 is_blankz ;;
    if z then ret (inr (s, false)) else
    pair <- andc (ret single) (andc (check 0 (eqc 0x27)) (check 1 (eqc 0x27))) ;;
    if pair then s <- put s [0x27] ;; skip ;;; skip ;;; cache 2 ;;; ret (inl s) else
    q <- check 0 (eqc quote) ;;
    if q then ret (inr (s, false)) else
    eb <- andc (ret (negb single)) (andc (check 0 (eqc 0x5C)) (check 1 is_break)) ;;
    if eb then cache 3 ;;; skip ;;; skip_line ;;; ret (inr (s, true)) else
    es <- andc (ret (negb single)) (check 0 (eqc 0x5C)) ;;
    if es then s <- scan_escape start s ;; cache 2 ;;; ret (inl s) else
    s <- read s ;; cache 2 ;;; ret (inl s)) s.

(* the blank characters inside a quoted scalar, 3296-3334.  State and result:
   leading_blanks, whitespaces, leading_break, trailing_breaks. *)
Definition blanks := (bool * list N * list N * list N)%type.
Definition scan_quoted_blanks (b0 : blanks) : cm blanks :=
  loop (fun st : blanks =>
    let '(lb, ws, leading, trailing) := st in
    x <- peek 0 ;;
    if is_blank x then
      if lb then skip ;;; cache 1 ;;; ret (inl st)
      else ws <- read ws ;; cache 1 ;;; ret (inl (lb, ws, leading, trailing))
    else if is_break x then
      cache 2 ;;;
      if lb then trailing <- read_line trailing ;; cache 1 ;;; ret (inl (lb, ws, leading, trailing))
      else leading <- read_line leading ;; cache 1 ;;; ret (inl (true, [], leading, trailing))
    else ret (inr st)) b0.

(* 3338-3364 and 3508-3530: what a run of line breaks contributes *)
Definition fold_breaks (s leading trailing : list N) : cm (list N) :=
  if starts_lf leading
  then if nonempty trailing then ret (s ++ trailing) else put s [0x20]
  else ret (s ++ leading ++ trailing).

(* yaml_parser_scan_flow_scalar, 3024-3391.  leading_break, trailing_breaks and
   whitespaces are empty at the top of the outer loop (see 3336-3367). *)
Definition scan_flow_scalar (single : bool) : cm token :=
  start <- get_mark ;;
  let quote := if single then 0x27 else 0x22 in
  skip ;;;
  s <- loop (fun s =>
    cache 4 ;;;
    ind <- document_indicator ;;
    if ind then err (Some start) SQuotedIndicator else
    z <- check 0 is_z ;;
    if z then err (Some start) SQuotedEnd else
    cache 2 ;;;
    w <- scan_quoted_word single start s ;;
    let '(s, lb) := w in
    cache 1 ;;;
    q <- check 0 (eqc quote) ;;
    if q then ret (inr s) else
    cache 1 ;;;
    b <- scan_quoted_blanks (lb, [], [], []) ;;
    let '(lb, ws, leading, trailing) := b in
    s <- (if lb then fold_breaks s leading trailing else ret (s ++ ws)) ;;
    ret (inl s)) [] ;;
  skip ;;;
  e <- get_mark ;;
  ret (mkToken (TScalar s (if single then SingleQuoted else DoubleQuoted)) start e false).

(* the state of a plain scalar: string, leading_blanks, whitespaces,
   leading_break, trailing_breaks, end_mark *)
Definition plain_state := (list N * blanks * mark)%type.
Definition flow_end (x : N) : bool := existsb (fun y => x =? y) [0x2C; 0x5B; 0x5D; 0x7B; 0x7D].

(* the non-blank characters of a plain scalar, 3444-3547 *)
Definition scan_plain_word (flow : bool) (start : mark) (st : plain_state) : cm plain_state :=
  loop (fun st : plain_state =>
    let '(s, (lb, ws, leading, trailing), e) := st in
    z <- check 0 is_blankz ;;
    if z then ret (inr st) else
    colon <- andc (ret flow) (andc (check 0 (eqc 0x3A)) (check 1 (fun x => flow_end x || (x =? 0x3F)))) ;;
    if colon then err (Some start) SPlainColon else
    stop <- orc (andc (check 0 (eqc 0x3A)) (check 1 is_blankz)) (andc (ret flow) (check 0 flow_end)) ;;
    if stop then ret (inr st) else
    s <- (if lb then fold_breaks s leading trailing else ret (s ++ ws)) ;;
    s <- read s ;;
    e <- get_mark ;;
    cache 2 ;;;
    ret (inl (s, (false, (if lb then ws else []), [], []), e))) st.

(* the blanks of a plain scalar, 3560-3604 *)
Definition scan_plain_blanks (indent : Z) (start : mark) (b0 : blanks) : cm blanks :=
  loop (fun st : blanks =>
    let '(lb, ws, leading, trailing) := st in
    x <- peek 0 ;;
    if is_blank x then
      col <- column ;;
      if lb && (Z.of_N col <? indent)%Z && is_tab x then err (Some start) SPlainTab else
      if lb then skip ;;; cache 1 ;;; ret (inl st)
      else ws <- read ws ;; cache 1 ;;; ret (inl (lb, ws, leading, trailing))
    else if is_break x then
      cache 2 ;;;
      if lb then trailing <- read_line trailing ;; cache 1 ;;; ret (inl (lb, ws, leading, trailing))
      else leading <- read_line leading ;; cache 1 ;;; ret (inl (true, [], leading, trailing))
    else ret (inr st)) b0.

(* yaml_parser_scan_plain_scalar, 3397-3598; [pindent] is parser->indent.
   Returns the token and whether simple_key_allowed is set. *)
Definition scan_plain_scalar (flow : bool) (pindent : Z) : cm (token * bool) :=
  start <- get_mark ;;
  let indent := (pindent + 1)%Z in
  st <- loop (fun st : plain_state =>
    cache 4 ;;;
    ind <- document_indicator ;;
    if ind then ret (inr st) else
    hash <- check 0 (eqc 0x23) ;;
    if hash then ret (inr st) else
    st <- scan_plain_word flow start st ;;
    more <- check 0 (fun x => is_blank x || is_break x) ;;
    if negb more then ret (inr st) else
    cache 1 ;;;
    let '(s, b, e) := st in
    b <- scan_plain_blanks indent start b ;;
    col <- column ;;
    if negb flow && (Z.of_N col <? indent)%Z then ret (inr (s, b, e))
    else ret (inl (s, b, e))) ([], (false, [], [], []), start) ;;
  let '(s, (lb, _, _, _), e) := st in
  ret (mkToken (TScalar s Plain) start e false, lb).
