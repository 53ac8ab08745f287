(* Model of the token scanners of scanner.c:1985-3605 at the level of allocated
   blocks: every yaml_string_t, its growth and its deletion, for any answers of
   the allocator.  The input is read as in CursorModel.v; the functions follow
   the C code statement by statement (ScanModel.v has the same functions without
   memory, and HeapLex.v relates the two).

   A local variable of type yaml_string_t (or yaml_char_t * pointing to a string
   that the function has to free) is a slot V0 .. V3 of the frame of the call;
   "goto error" keeps the frame, and [scope] then frees the slots that the error
   label of the function deletes.  Leaving a function normally forgets the frame:
   what is still in it is lost. *)
From Verif Require Import Base ReaderModel Utf8Spec CharSpec Types CursorModel ScanModel HeapModel HeapTokenModel.

(* yaml_string_t, yaml_private.h:104-113.  [t_bytes] is what lies between start
   and pointer, [t_size] is end - start; the bytes from pointer to end are NUL
   (STRING_INIT, yaml_string_extend and CLEAR make them so).  A plain
   yaml_char_t * is such a string too: its pointer is not used any more. *)
Record hstr := mkStr { t_at : ptr; t_bytes : list N; t_size : nat }.
Definition null_str : hstr := mkStr None [] 0.        (* NULL_STRING *)
Inductive slot := V0 | V1 | V2 | V3.
Record frame := mkFrame { f_0 : hstr; f_1 : hstr; f_2 : hstr; f_3 : hstr }.
Definition null_frame : frame := mkFrame null_str null_str null_str null_str.
Definition get (v : slot) (f : frame) : hstr :=
  match v with V0 => f_0 f | V1 => f_1 f | V2 => f_2 f | V3 => f_3 f end.
Definition set (v : slot) (f : frame) (s : hstr) : frame :=
  match v with
  | V0 => mkFrame s (f_1 f) (f_2 f) (f_3 f) | V1 => mkFrame (f_0 f) s (f_2 f) (f_3 f)
  | V2 => mkFrame (f_0 f) (f_1 f) s (f_3 f) | V3 => mkFrame (f_0 f) (f_1 f) (f_2 f) s
  end.

(* Why a function returns 0: a scanner error has been set; YAML_MEMORY_ERROR has
   been set; parser->error has not been set at all. *)
Inductive xerr := XScan (e : serr) | XMemory | XUnset.
Inductive xres (A : Type) :=
| XOk (a : A) (c : cur) (f : frame) (h : heap)
| XErr (e : xerr) (f : frame) (h : heap)
| XUndef                     (* undefined behaviour *)
| XFuel.
Arguments XOk {A}. Arguments XErr {A}. Arguments XUndef {A}. Arguments XFuel {A}.
Definition xm (A : Type) := cur -> frame -> heap -> xres A.
Definition xret {A} (a : A) : xm A := fun c f h => XOk a c f h.
Definition xbind {A B} (m : xm A) (k : A -> xm B) : xm B := fun c f h =>
  match m c f h with
  | XOk a c' f' h' => k a c' f' h'
  | XErr e f' h' => XErr e f' h'
  | XUndef => XUndef
  | XFuel => XFuel
  end.
Notation "x <! m ;; k" := (xbind m (fun x => k)) (at level 61, m at next level, right associativity).
Notation "m ;! k" := (xbind m (fun _ => k)) (at level 61, right associativity).
Definition xfail {A} (e : xerr) : xm A := fun _ f h => XErr e f h.
Definition xundef {A} : xm A := fun _ _ _ => XUndef.
(* what concerns only the input: CACHE, CHECK, SKIP, ... *)
Definition io {A} (m : cm A) : xm A := fun c f h =>
  match m c with
  | COk a c' => XOk a c' f h
  | CErr e => XErr (XScan e) f h
  | CBad => XUndef
  | CFuel => XFuel
  end.
Definition x_err {A} (ctx : option mark) (p : sproblem) : xm A := io (err ctx p).
(* what concerns only memory *)
Definition xh {A} (m : hm A) : xm A := fun c f h =>
  match m h with HOk a h' => XOk a c f h' | _ => XUndef end.
Definition x_get (v : slot) : xm hstr := fun c f h => XOk (get v f) c f h.
Definition x_set (v : slot) (s : hstr) : xm unit := fun c f h => XOk tt c (set v f s) h.
(* a while(1) loop, with the fuel of CursorModel.loop *)
Fixpoint xloop_n {A B} (n : nat) (body : A -> xm (A + B)) (a : A) : xm B := fun c f h =>
  match n with
  | O => XFuel
  | S n' => match body a c f h with
            | XOk (inl a') c' f' h' => xloop_n n' body a' c' f' h'
            | XOk (inr b) c' f' h' => XOk b c' f' h'
            | XErr e f' h' => XErr e f' h'
            | XUndef => XUndef
            | XFuel => XFuel
            end
  end.
Definition xloop {A B} (body : A -> xm (A + B)) (a : A) : xm B := fun c => xloop_n (S (length (c_text c))) body a c.

(* "error: STRING_DEL(...); ... return 0": the slots of [del] are freed *)
Fixpoint free_slots (del : list slot) (f : frame) : hm unit :=
  match del with [] => hret tt | v :: r => hbind (h_free (t_at (get v f))) (fun _ => free_slots r f) end.
(* a function with its own frame *)
Definition scope {A} (del : list slot) (m : xm A) : xm A := fun c f h =>
  match m c null_frame h with
  | XOk a c' _ h' => XOk a c' f h'
  | XErr e g h' => match free_slots del g h' with HOk _ h'' => XErr e f h'' | _ => XUndef end
  | XUndef => XUndef
  | XFuel => XFuel
  end.
(* f(..., &variable) for a function that delivers a string *)
Definition call (v : slot) (m : xm hstr) : xm unit := s <! m ;; x_set v s.
Definition call2 (v w : slot) (m : xm (hstr * hstr)) : xm unit := r <! m ;; x_set v (fst r) ;! x_set w (snd r).

(* ---- strings, yaml_private.h:104-160 and api.c:73-115 ---- *)
(* STRING_INIT, yaml_private.h:115-121; INITIAL_STRING_SIZE 16, line 92 *)
Definition x_init (v : slot) : xm unit :=
  p <! xh (h_malloc []) ;;
  match p with None => xfail XMemory | Some b => x_set v (mkStr (Some b) [] 16) end.
(* STRING_DEL, yaml_private.h:129-132, and yaml_free of a variable *)
Definition x_del (v : slot) : xm unit :=
  s <! x_get v ;; xh (h_free (t_at s)) ;! x_set v null_str.
(* yaml_string_extend, api.c:73-88: realloc to twice the size, which is taken
   always to move the block; the caller sets YAML_MEMORY_ERROR *)
Definition x_grow (v : slot) : xm unit :=
  s <! x_get v ;;
  xh (h_touch (t_at s)) ;!
  p <! xh (h_malloc []) ;;
  match p with
  | None => xfail XMemory
  | Some b => xh (h_free (t_at s)) ;! x_set v (mkStr (Some b) (t_bytes s) (2 * t_size s))
  end.
(* STRING_EXTEND, yaml_private.h:134-139: pointer + 5 < end, or grow once *)
Definition x_extend (v : slot) : xm unit :=
  s <! x_get v ;;
  if (length (t_bytes s) + 5 <? t_size s)%nat then xret tt else x_grow v.
(* "while (end - pointer <= n) yaml_string_extend" (api.c:97-107) with n > 0;
   counted from start in scanner.c:2581-2586, where pointer = start *)
Fixpoint x_fit_n (fuel : nat) (v : slot) (n : nat) : xm unit :=
  s <! x_get v ;;
  if (t_size s - length (t_bytes s) <=? n)%nat
  then match fuel with O => fun _ _ _ => XFuel | S fuel' => x_grow v ;! x_fit_n fuel' v n end
  else xret tt.
Definition x_fit (v : slot) (n : nat) : xm unit := x_fit_n (S n) v n.
(* "*(string.pointer++) = b" for each byte, and memcpy to pointer *)
Definition x_put (v : slot) (bs : list N) : xm unit :=
  s <! x_get v ;;
  xh (h_touch (t_at s)) ;!
  if (length (t_bytes s) + length bs <=? t_size s)%nat
  then x_set v (mkStr (t_at s) (t_bytes s ++ bs) (t_size s))
  else xundef.
(* CLEAR, yaml_private.h:141-143 *)
Definition x_clear (v : slot) : xm unit :=
  s <! x_get v ;; xh (h_touch (t_at s)) ;! x_set v (mkStr (t_at s) [] (t_size s)).
(* JOIN, yaml_private.h:145-151, with yaml_string_join, api.c:94-115.  The bytes
   of the second string stay until the CLEAR or STRING_DEL that follows each
   JOIN of scanner.c; they are removed here. *)
Definition x_join (v w : slot) : xm unit :=
  t <! x_get w ;;
  xh (h_touch (t_at t)) ;!
  match t_bytes t with
  | [] => xret tt
  | bs => x_fit v (length bs) ;! x_put v bs
  end ;!
  x_set w (mkStr (t_at t) [] (t_size t)).
(* string.start == string.pointer *)
Definition x_empty (v : slot) : xm bool :=
  s <! x_get v ;; xret (match t_bytes s with [] => true | _ => false end).
(* start[k] *)
Definition x_at (v : slot) (k : nat) : xm N :=
  s <! x_get v ;;
  xh (h_touch (t_at s)) ;!
  if (k <? t_size s)%nat then xret (nth k (t_bytes s) 0) else xundef.
(* the C string at start, as strlen and strcmp see it: undefined if there is no NUL *)
Definition x_text (s : hstr) : xm (list N) :=
  xh (h_touch (t_at s)) ;!
  if (length (t_bytes s) <? t_size s)%nat then xret (cstr (t_bytes s)) else xundef.
(* "*result = string.start; return 1": the string leaves the frame *)
Definition x_take (v : slot) : xm hstr := s <! x_get v ;; x_set v null_str ;! xret s.
(* "slot = YAML_MALLOC(size); if (!slot) goto error": no error is set *)
Definition x_malloc (v : slot) (bs : list N) (size : nat) : xm unit :=
  p <! xh (h_malloc []) ;;
  match p with None => xfail XUnset | Some b => x_set v (mkStr (Some b) bs size) end.
(* The string becomes part of a token and is not changed any more.  [text] is
   what the reader of the token sees, given the bytes up to pointer: all of them
   (a scalar, which has a length) or those before the first NUL.  Since the text
   of a block is fixed in HeapModel, the block gets a new number here.  Without a
   NUL behind the bytes the token would be unusable: undefined behaviour. *)
Definition h_seal (s : hstr) (text : list N) : hm ptr := fun h =>
  match t_at s with
  | None => HUndef
  | Some b =>
      if allocated h b && (length (t_bytes s) <? t_size s)%nat
      then HOk (Some (length (texts h)))
               (mkHeap (length (texts h) :: remove Nat.eq_dec b (live h)) (texts h ++ [text]) (grants h))
      else HUndef
  end.
Definition x_seal (v : slot) (text : list N -> list N) : xm ptr :=
  s <! x_get v ;;
  p <! xh (h_seal s (text (t_bytes s))) ;;
  x_set v null_str ;! xret p.
Definition whole (s : list N) : list N := s.

(* READ, scanner.c:520-527 *)
Definition x_read (v : slot) : xm unit :=
  x_extend v ;! x <! io (peek 0) ;; io skip ;! x_put v (utf8_enc x).
(* READ_LINE, scanner.c:533-568 *)
Definition x_read_line (v : slot) : xm unit :=
  x_extend v ;! bs <! io (read_line []) ;; x_put v bs.
(* while (IS_X(buffer)) { READ; CACHE(1) } *)
Definition x_read_while (v : slot) (p : N -> bool) : xm unit :=
  xloop (fun _ : unit =>
    b <! io (check 0 p) ;;
    if b then x_read v ;! io (cache 1) ;! xret (inl tt) else xret (inr tt)) tt.

(* ---- the token scanners ---- *)
(* yaml_parser_scan_directive_name, 2111-2152; V0: string *)
Definition x_directive_name (start : mark) : xm hstr :=
  scope [V0] (
  x_init V0 ;!
  io (cache 1) ;!
  x_read_while V0 is_alpha ;!
  empty <! x_empty V0 ;;
  if empty then x_err (Some start) SNoDirectiveName else
  z <! io (check 0 is_blankz) ;;
  if negb z then x_err (Some start) SDirectiveNameChar else
  x_take V0).

(* yaml_parser_scan_tag_handle, 2503-2564; V0: string *)
Definition x_tag_handle (directive : bool) (start : mark) : xm hstr :=
  scope [V0] (
  x_init V0 ;!
  io (cache 1) ;!
  bang <! io (check 0 (eqc 0x21)) ;;
  if negb bang then x_err (Some start) SNoBang else
  x_read V0 ;!
  io (cache 1) ;!
  x_read_while V0 is_alpha ;!
  bang <! io (check 0 (eqc 0x21)) ;;
  (if bang then x_read V0 else
   if directive then
     a <! x_at V0 0 ;; b <! x_at V0 1 ;;
     if (a =? 0x21) && (b =? 0) then xret tt else x_err (Some start) SNoSecondBang
   else xret tt) ;!
  x_take V0).

(* yaml_parser_scan_uri_escapes, 2671-2734; [v] is *string *)
Definition x_uri_escapes (start : mark) (v : slot) : xm unit :=
  xloop (fun width : nat =>
    io (cache 3) ;!
    ok <! io (andc (check 0 (eqc 0x25)) (andc (check 1 is_hex) (check 2 is_hex))) ;;
    if negb ok then x_err (Some start) SUriOctet else
    a <! io (peek 1) ;; b <! io (peek 2) ;;
    let octet := as_hex a * 16 + as_hex b in
    w <! (if (width =? 0)%nat
          then if (uri_width octet =? 0)%nat then x_err (Some start) SUriLead else xret (uri_width octet)
          else if negb (N.land octet 0xC0 =? 0x80) then x_err (Some start) SUriTrail else xret width) ;;
    x_put v [octet] ;!
    io skip ;! io skip ;! io skip ;!
    match w with
    | S (S w') => xret (inl (S w'))
    | _ => xret (inr tt)
    end) O.

(* yaml_parser_scan_tag_uri, 2570-2665; V0: string *)
Definition x_tag_uri (uri_char : bool) (head : option hstr) (start : mark) : xm hstr :=
  scope [V0] (
  head <! match head with None => xret [] | Some s => x_text s end ;;
  x_init V0 ;!
  x_fit V0 (length head) ;!
  (if (1 <? length head)%nat then x_put V0 (tl head) else xret tt) ;!
  io (cache 1) ;!
  length <! xloop (fun length : nat =>
    b <! io (check 0 (uri_class uri_char)) ;;
    if b then
      pct <! io (check 0 (eqc 0x25)) ;;
      (if pct then x_extend V0 ;! x_uri_escapes start V0 else x_read V0) ;!
      io (cache 1) ;! xret (inl (S length))
    else xret (inr length)) (length head) ;;
  if (length =? 0)%nat then x_extend V0 ;! x_err (Some start) SNoUri else
  x_take V0).

(* yaml_parser_scan_tag_directive_value, 2256-2318; V0: handle_value, V1: prefix_value *)
Definition x_tag_directive_value (start : mark) : xm (hstr * hstr) :=
  scope [V0; V1] (
  io (cache 1) ;!
  io (skip_while is_blank) ;!
  call V0 (x_tag_handle true start) ;!
  io (cache 1) ;!
  b <! io (check 0 is_blank) ;;
  if negb b then x_err (Some start) STagDirectiveSpace else
  io (skip_while is_blank) ;!
  call V1 (x_tag_uri true None start) ;!
  io (cache 1) ;!
  z <! io (check 0 is_blankz) ;;
  if negb z then x_err (Some start) STagDirectiveEnd else
  handle <! x_take V0 ;; prefix <! x_take V1 ;; xret (handle, prefix)).

(* yaml_parser_scan_directive, 1995-2099; V0: name, V1: handle, V2: prefix.  The
   token is put together at the end; until then its strings are handle and prefix. *)
Definition x_directive : xm htoken :=
  scope [V2; V1; V0] (
  start <! io get_mark ;;
  io skip ;!
  call V0 (x_directive_name start) ;!
  name <! x_get V0 ;; name <! x_text name ;;
  r <! (if str_eqb name yaml_name then
          v <! io (scan_version_value start) ;;
          e <! io get_mark ;; xret (Some v, e)
        else if str_eqb name tag_name then
          call2 V1 V2 (x_tag_directive_value start) ;!
          e <! io get_mark ;; xret (None, e)
        else x_err (Some start) SUnknownDirective) ;;
  io (scan_line_end start SDirectiveEnd) ;!
  x_del V0 ;!
  match fst r with
  | Some v => xret (mkHtoken (HTVersion (fst v) (snd v)) start (snd r) false)
  | None => handle <! x_seal V1 cstr ;; prefix <! x_seal V2 cstr ;;
            xret (mkHtoken (HTTagDirective handle prefix) start (snd r) false)
  end).

(* yaml_parser_scan_anchor, 2320-2380; V0: string; length != 0 if anything was read *)
Definition x_anchor (anchor : bool) : xm htoken :=
  scope [V0] (
  x_init V0 ;!
  start <! io get_mark ;;
  io skip ;!
  io (cache 1) ;!
  x_read_while V0 is_alpha ;!
  e <! io get_mark ;;
  empty <! x_empty V0 ;;
  if empty then x_err (Some start) SAnchorChar else
  z <! io (check 0 anchor_end) ;;
  if negb z then x_err (Some start) SAnchorChar else
  s <! x_seal V0 cstr ;;
  xret (mkHtoken (if anchor then HTAnchor s else HTAlias s) start e false)).

(* handle[0] == '!' && handle[1] != '\0' && handle[strlen(handle)-1] == '!', 2434 *)
Definition x_is_handle (v : slot) : xm bool :=
  a <! x_at v 0 ;;
  if negb (a =? 0x21) then xret false else
  b <! x_at v 1 ;;
  if b =? 0 then xret false else
  s <! x_get v ;; t <! x_text s ;;
  l <! x_at v (length t - 1) ;;
  xret (l =? 0x21).
(* yaml_parser_scan_tag, 2386-2497; V0: handle, V1: suffix *)
Definition x_tag (flow : bool) : xm htoken :=
  scope [V0; V1] (
  start <! io get_mark ;;
  io (cache 2) ;!
  verbatim <! io (check 1 (eqc 0x3C)) ;;
  (if verbatim then
     x_malloc V0 [] 1 ;!
     io skip ;! io skip ;!
     call V1 (x_tag_uri true None start) ;!
     close <! io (check 0 (eqc 0x3E)) ;;
     if negb close then x_err (Some start) STagClose else
     io skip
   else
     call V0 (x_tag_handle false start) ;!
     is_handle <! x_is_handle V0 ;;
     if is_handle : bool then call V1 (x_tag_uri false None start)
     else
       handle <! x_get V0 ;;
       call V1 (x_tag_uri false (Some handle) start) ;!
       x_del V0 ;!
       x_malloc V0 [0x21] 2 ;!
       z <! x_at V1 0 ;;
       if z =? 0 then
         handle <! x_take V0 ;; suffix <! x_take V1 ;;
         x_set V0 suffix ;! x_set V1 handle
       else xret tt) ;!
  io (cache 1) ;!
  z <! io (check 0 is_blankz) ;;
  comma <! (if z then xret true else io (andc (ret flow) (check 0 (eqc 0x2C)))) ;;
  if negb comma then x_err (Some start) STagEnd else
  e <! io get_mark ;;
  handle <! x_seal V0 cstr ;; suffix <! x_seal V1 cstr ;;
  xret (mkHtoken (HTTag handle suffix) start e false)).

(* yaml_parser_scan_block_scalar_breaks, 2962-3018; [v] is *breaks; returns
   *indent and *end_mark *)
Definition x_block_scalar_breaks (pindent indent : Z) (v : slot) (start : mark) : xm (Z * mark) :=
  e <! io get_mark ;;
  r <! xloop (fun st : Z * mark =>
    let '(max_indent, e) := st in
    io (cache 1) ;!
    io (loop (fun _ : unit => (col <- column ;;
      b <- andc (ret ((indent =? 0)%Z || (Z.of_N col <? indent)%Z)) (check 0 is_space) ;;
      if b : bool then bind skip (fun _ => bind (cache 1) (fun _ => ret (inl tt))) else ret (inr tt))) tt) ;!
    col <! io column ;;
    let max_indent := Z.max max_indent (Z.of_N col) in
    tab <! io (andc (ret ((indent =? 0)%Z || (Z.of_N col <? indent)%Z)) (check 0 is_tab)) ;;
    if tab then x_err (Some start) SBlockTab else
    b <! io (check 0 is_break) ;;
    if negb b then xret (inr (max_indent, e)) else
    io (cache 2) ;!
    x_read_line v ;!
    e <! io get_mark ;;
    xret (inl (max_indent, e))) (0%Z, e) ;;
  let '(max_indent, e) := r in
  xret (if (indent =? 0)%Z then Z.max (Z.max max_indent (pindent + 1)) 1 else indent, e).

(* yaml_parser_scan_block_scalar, 2740-2955; V0: string, V1: leading_break,
   V2: trailing_breaks.  The two STRING_DELs come after SCALAR_TOKEN_INIT. *)
Definition x_block_scalar (pindent : Z) (literal : bool) : xm htoken :=
  scope [V0; V1; V2] (
  x_init V0 ;! x_init V1 ;! x_init V2 ;!
  start <! io get_mark ;;
  io skip ;!
  h <! io (scan_block_header start) ;;
  let '(chomping, increment) := h in
  io (scan_line_end start SBlockHeaderEnd) ;!
  let indent := if (increment =? 0)%Z then 0%Z
                else if (0 <=? pindent)%Z then (pindent + increment)%Z else increment in
  r <! x_block_scalar_breaks pindent indent V2 start ;;
  let '(indent, e) := r in
  io (cache 1) ;!
  e <! xloop (fun st : bool * mark =>
    let '(leading_blank, e) := st in
    col <! io column ;;
    more <! io (andc (ret (Z.of_N col =? indent)%Z) (check 0 (fun x => negb (is_z x)))) ;;
    if negb more then xret (inr e) else
    trailing_blank <! io (check 0 is_blank) ;;
    lf <! x_at V1 0 ;;
    (if negb literal && (lf =? 0xA) && negb leading_blank && negb trailing_blank
     then
       t <! x_at V2 0 ;;
       (if t =? 0 then x_extend V0 ;! x_put V0 [0x20] else xret tt) ;!
       x_clear V1
     else x_join V0 V1 ;! x_clear V1) ;!
    x_join V0 V2 ;! x_clear V2 ;!
    leading_blank <! io (check 0 is_blank) ;;
    x_read_while V0 (fun x => negb (is_breakz x)) ;!
    io (cache 2) ;!
    x_read_line V1 ;!
    r <! x_block_scalar_breaks pindent indent V2 start ;;
    let '(_, e) := r in
    xret (inl (leading_blank, e))) (false, e) ;;
  match chomping with Some false => xret tt | _ => x_join V0 V1 end ;!
  match chomping with Some true => x_join V0 V2 | _ => xret tt end ;!
  x_del V1 ;! x_del V2 ;!
  s <! x_seal V0 whole ;;
  xret (mkHtoken (HTScalar s (if literal then Literal else Folded)) start e false)).

(* one escape sequence other than an escaped line break, 3117-3268; V0: string *)
Definition x_escape (start : mark) : xm unit :=
  x_extend V0 ;!
  x <! io (peek 1) ;;
  match escape x with
  | None => x_err (Some start) SEscape
  | Some (inl bs) => x_put V0 bs ;! io skip ;! io skip
  | Some (inr n) =>
      io skip ;! io skip ;!
      io (cache n) ;!
      value <! io (scan_hex n 0 start 0) ;;
      if ((0xD800 <=? value) && (value <=? 0xDFFF)) || (0x10FFFF <? value)
      then x_err (Some start) SEscapeCode
      else x_put V0 (code_bytes value) ;! io (skip_n n)
  end.

(* the non-blank characters of a quoted scalar, 3085-3278; returns leading_blanks *)
Definition x_quoted_word (single : bool) (start : mark) : xm bool :=
  let quote := if single then 0x27 else 0x22 in
  xloop (fun _ : unit =>
    z <! io (check 0 is_blankz) ;;
    if z then xret (inr false) else
    pair <! io (andc (ret single) (andc (check 0 (eqc 0x27)) (check 1 (eqc 0x27)))) ;;
    if pair then x_extend V0 ;! x_put V0 [0x27] ;! io skip ;! io skip ;! io (cache 2) ;! xret (inl tt) else
    q <! io (check 0 (eqc quote)) ;;
    if q then xret (inr false) else
    eb <! io (andc (ret (negb single)) (andc (check 0 (eqc 0x5C)) (check 1 is_break))) ;;
    if eb then io (cache 3) ;! io skip ;! io skip_line ;! xret (inr true) else
    es <! io (andc (ret (negb single)) (check 0 (eqc 0x5C))) ;;
    if es then x_escape start ;! io (cache 2) ;! xret (inl tt) else
    x_read V0 ;! io (cache 2) ;! xret (inl tt)) tt.

(* the blanks of a quoted scalar, 3296-3334, and of a plain one, 3560-3604, where
   [tabs] is (indent, start_mark).  V1: leading_break, V2: trailing_breaks,
   V3: whitespaces; state and result: leading_blanks *)
Definition x_blanks (tabs : option (Z * mark)) (lb : bool) : xm bool :=
  xloop (fun lb : bool =>
    x <! io (peek 0) ;;
    if is_blank x then
      col <! io column ;;
      (match tabs with
       | Some (indent, start) =>
           if lb && (Z.of_N col <? indent)%Z && is_tab x then x_err (Some start) SPlainTab else xret tt
       | None => xret tt
       end) ;!
      (if lb then io skip else x_read V3) ;! io (cache 1) ;! xret (inl lb)
    else if is_break x then
      io (cache 2) ;!
      (if lb then x_read_line V2 else x_clear V3 ;! x_read_line V1) ;!
      io (cache 1) ;! xret (inl true)
    else xret (inr lb)) lb.

(* 3338-3364 and 3508-3530 *)
Definition x_fold : xm unit :=
  a <! x_at V1 0 ;;
  if a =? 0xA then
    b <! x_at V2 0 ;;
    (if b =? 0 then x_extend V0 ;! x_put V0 [0x20] else x_join V0 V2 ;! x_clear V2) ;!
    x_clear V1
  else x_join V0 V1 ;! x_join V0 V2 ;! x_clear V1 ;! x_clear V2.

(* yaml_parser_scan_flow_scalar, 3024-3391; V0: string, V1: leading_break,
   V2: trailing_breaks, V3: whitespaces.  The STRING_DELs come after
   SCALAR_TOKEN_INIT. *)
Definition x_flow_scalar (single : bool) : xm htoken :=
  scope [V0; V1; V2; V3] (
  x_init V0 ;! x_init V1 ;! x_init V2 ;! x_init V3 ;!
  start <! io get_mark ;;
  let quote := if single then 0x27 else 0x22 in
  io skip ;!
  xloop (fun _ : unit =>
    io (cache 4) ;!
    ind <! io document_indicator ;;
    if ind then x_err (Some start) SQuotedIndicator else
    z <! io (check 0 is_z) ;;
    if z then x_err (Some start) SQuotedEnd else
    io (cache 2) ;!
    lb <! x_quoted_word single start ;;
    io (cache 1) ;!
    q <! io (check 0 (eqc quote)) ;;
    if q then xret (inr tt) else
    io (cache 1) ;!
    lb <! x_blanks None lb ;;
    (if lb then x_fold else x_join V0 V3 ;! x_clear V3) ;!
    xret (inl tt)) tt ;!
  io skip ;!
  e <! io get_mark ;;
  x_del V1 ;! x_del V2 ;! x_del V3 ;!
  s <! x_seal V0 whole ;;
  xret (mkHtoken (HTScalar s (if single then SingleQuoted else DoubleQuoted)) start e false)).

(* the non-blank characters of a plain scalar, 3444-3547; state and result:
   leading_blanks and end_mark *)
Definition x_plain_word (flow : bool) (start : mark) (st : bool * mark) : xm (bool * mark) :=
  xloop (fun st : bool * mark =>
    let '(lb, e) := st in
    z <! io (check 0 is_blankz) ;;
    if z then xret (inr st) else
    colon <! io (andc (ret flow) (andc (check 0 (eqc 0x3A)) (check 1 (fun x => flow_end x || (x =? 0x3F))))) ;;
    if colon then x_err (Some start) SPlainColon else
    stop <! io (orc (andc (check 0 (eqc 0x3A)) (check 1 is_blankz)) (andc (ret flow) (check 0 flow_end))) ;;
    if stop then xret (inr st) else
    white <! x_empty V3 ;;
    (if lb || negb white then if lb then x_fold else x_join V0 V3 ;! x_clear V3 else xret tt) ;!
    x_read V0 ;!
    e <! io get_mark ;;
    io (cache 2) ;!
    xret (inl (false, e))) st.

(* yaml_parser_scan_plain_scalar, 3397-3598; slots as in x_flow_scalar.  Returns
   the token and whether simple_key_allowed is set. *)
Definition x_plain_scalar (flow : bool) (pindent : Z) : xm (htoken * bool) :=
  scope [V0; V1; V2; V3] (
  let indent := (pindent + 1)%Z in
  x_init V0 ;! x_init V1 ;! x_init V2 ;! x_init V3 ;!
  start <! io get_mark ;;
  st <! xloop (fun st : bool * mark =>
    io (cache 4) ;!
    ind <! io document_indicator ;;
    if ind then xret (inr st) else
    hash <! io (check 0 (eqc 0x23)) ;;
    if hash then xret (inr st) else
    st <! x_plain_word flow start st ;;
    more <! io (check 0 (fun x => is_blank x || is_break x)) ;;
    if negb more then xret (inr st) else
    io (cache 1) ;!
    let '(lb, e) := st in
    lb <! x_blanks (Some (indent, start)) lb ;;
    col <! io column ;;
    if negb flow && (Z.of_N col <? indent)%Z then xret (inr (lb, e)) else xret (inl (lb, e))) (false, start) ;;
  let '(lb, e) := st in
  x_del V1 ;! x_del V2 ;! x_del V3 ;!
  s <! x_seal V0 whole ;;
  xret (mkHtoken (HTScalar s Plain) start e false, lb)).
