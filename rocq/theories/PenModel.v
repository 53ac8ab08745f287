(* Model of the writing functions of emitter.c: macros 12-62, writers 1776-2358.

   Strings are lists of characters (code points); the byte level tests and copies
   are those of characters (C48).  What is written is a list of operations on the
   output buffer ([cop], see WriterModel for what they do with the buffer and the
   write handler); a failing operation makes the C function return 0 at once, which
   is modelled by the writer stopping at the first failing operation.

   Reading one place after the end of a string (IS_SPACE_AT(string, 1) and so on)
   gives the terminating NUL.  emitter->line is never read and left out; int
   overflow of emitter->column is not modelled. *)
From Verif Require Import Base Utf8Spec ReaderModel CharSpec WriterModel WriterSpec.

(* include/yaml.h:107-117 yaml_break_t *)
Inductive lbreak := AnyBreak | CrBreak | LnBreak | CrLnBreak.

(* settings: include/yaml.h:1632-1642 *)
Record cfg := mkCfg {
  g_encoding : encoding;
  g_canonical : bool;
  g_indent : Z;              (* best_indent *)
  g_width : Z;               (* best_width *)
  g_unicode : bool;
  g_break : lbreak }.

(* the output and the state of the line: include/yaml.h:1710-1719 *)
Record pen := mkPen {
  p_ops : list cop;          (* oldest first *)
  p_column : Z;
  p_white : bool;            (* whitespace *)
  p_indention : bool;
  p_open : N }.              (* open_ended *)

Definition set_white (p : pen) (w i : bool) : pen := mkPen (p_ops p) (p_column p) w i (p_open p).
Definition set_indention (p : pen) (i : bool) : pen := set_white p (p_white p) i.
Definition set_open (p : pen) (o : N) : pen := mkPen (p_ops p) (p_column p) (p_white p) (p_indention p) o.
Definition pop_ (p : pen) (op : cop) (col : Z) : pen := mkPen (p_ops p ++ [op]) col (p_white p) (p_indention p) (p_open p).

(* PUT and WRITE, 16-20 and 43-47 *)
Definition pput (c : N) (p : pen) : pen := pop_ p (CPut [c]) (p_column p + 1).
Definition pputs (l : list N) (p : pen) : pen := fold_left (fun p c => pput c p) l p.
(* PUT_BREAK, 26-37 *)
Definition break_chars (g : cfg) : list N :=
  match g_break g with CrBreak => [0xD] | LnBreak => [0xA] | CrLnBreak => [0xD; 0xA] | AnyBreak => [] end.
Definition put_break (g : cfg) (p : pen) : pen := pop_ p (CPut (break_chars g)) 0.
(* WRITE_BREAK, 53-62 *)
Definition pwrite_break (g : cfg) (c : N) (p : pen) : pen :=
  if c =? 0xA then pop_ p (CBreak (break_chars g)) 0 else pop_ p (CPut [c]) 0.

(* yaml_emitter_write_indent, 1788-1805 *)
Definition write_indent (g : cfg) (indent : Z) (p : pen) : pen :=
  let indent := if (indent >=? 0)%Z then indent else 0%Z in
  let p := if negb (p_indention p) || (p_column p >? indent)%Z || ((p_column p =? indent)%Z && negb (p_white p))
           then put_break g p else p in
  let p := pputs (repeat 0x20 (Z.to_nat (indent - p_column p))) p in
  set_white p true true.

(* yaml_emitter_write_indicator, 1808-1830 *)
Definition space_if (b : bool) (p : pen) : pen := if b then pput 0x20 p else p.
Definition write_indicator (s : list N) (need is_white is_indention : bool) (p : pen) : pen :=
  let p := pputs s (space_if (need && negb (p_white p)) p) in
  set_white p is_white (p_indention p && is_indention).

(* yaml_emitter_write_anchor, 1833-1848 *)
Definition write_anchor (s : list N) (p : pen) : pen := set_white (pputs s p) false false.

(* yaml_emitter_write_tag_handle, 1850-1869 *)
Definition write_tag_handle (s : list N) (p : pen) : pen :=
  set_white (pputs s (space_if (negb (p_white p)) p)) false false.

Definition hex_digit (d : N) : N := d + (if d <? 10 then 0x30 else 0x41 - 10).
(* yaml_emitter_write_tag_content, 1871-1916: what is written as it is, 1884-1894 *)
Definition tag_plain (c : N) : bool :=
  is_alpha c || existsb (N.eqb c) [0x3B; 0x2F; 0x3F; 0x3A; 0x40; 0x26; 0x3D; 0x2B; 0x24; 0x2C; 0x5F; 0x2E; 0x7E; 0x2A; 0x27; 0x28; 0x29; 0x5B; 0x5D].
Definition tag_escape (b : N) : list N := [0x25; hex_digit (N.shiftr b 4); hex_digit (N.land b 0xF)].
Definition tag_char (c : N) : list N := if tag_plain c then [c] else flat_map tag_escape (utf8_enc c).
Definition write_tag_content (s : list N) (need : bool) (p : pen) : pen :=
  set_white (pputs (flat_map tag_char s) (space_if (need && negb (p_white p)) p)) false false.

(* the next character, or the terminating NUL *)
Definition next (s : list N) : N := nth 0 s 0.

(* yaml_emitter_write_plain_scalar, 1919-1982 *)
Fixpoint plain_loop (g : cfg) (indent : Z) (allow : bool) (spaces breaks : bool) (s : list N) (p : pen) : pen :=
  match s with
  | [] => p
  | c :: r =>
      if is_space c then
        if allow && negb spaces && (p_column p >? g_width g)%Z && negb (is_space (next r))
        then plain_loop g indent allow true breaks r (write_indent g indent p)
        else plain_loop g indent allow true breaks r (pput c p)
      else if is_break c then
        let p := if negb breaks && (c =? 0xA) then put_break g p else p in
        plain_loop g indent allow spaces true r (set_indention (pwrite_break g c p) true)
      else
        let p := if breaks then write_indent g indent p else p in
        plain_loop g indent allow false false r (set_indention (pput c p) false)
  end.
Definition write_plain (g : cfg) (indent : Z) (flow : Z) (s : list N) (allow : bool) (p : pen) : pen :=
  let p := space_if (negb (p_white p) && (negb (nlen s =? 0) || negb (flow =? 0)%Z)) p in
  set_white (plain_loop g indent allow false false s p) false false.

(* yaml_emitter_write_single_quoted_scalar, 1985-2048; [first] is
   string.pointer == string.start *)
Fixpoint single_loop (g : cfg) (indent : Z) (allow : bool) (first spaces breaks : bool) (s : list N) (p : pen) : pen * bool :=
  match s with
  | [] => (p, breaks)
  | c :: r =>
      if is_space c then
        if allow && negb spaces && (p_column p >? g_width g)%Z && negb first
           && negb (nlen r =? 0) && negb (is_space (next r))
        then single_loop g indent allow false true breaks r (write_indent g indent p)
        else single_loop g indent allow false true breaks r (pput c p)
      else if is_break c then
        let p := if negb breaks && (c =? 0xA) then put_break g p else p in
        single_loop g indent allow false spaces true r (set_indention (pwrite_break g c p) true)
      else
        let p := if breaks then write_indent g indent p else p in
        let p := if c =? 0x27 then pput 0x27 p else p in
        single_loop g indent allow false false false r (set_indention (pput c p) false)
  end.
Definition write_single (g : cfg) (indent : Z) (s : list N) (allow : bool) (p : pen) : pen :=
  let p := write_indicator [0x27] true false false p in
  let '(p, breaks) := single_loop g indent allow true false false s p in
  let p := if breaks then write_indent g indent p else p in
  set_white (write_indicator [0x27] false false false p) false false.

(* yaml_emitter_write_double_quoted_scalar, 2051-2204 *)
Definition must_escape (g : cfg) (c : N) : bool :=
  negb (is_printable c) || (negb (g_unicode g) && negb (is_ascii c)) || is_bom c || is_break c || (c =? 0x22) || (c =? 0x5C).
(* 2159-2163: [k] digits, the most significant one first *)
Fixpoint hex_digits (k : nat) (v : N) : list N :=
  match k with
  | O => []
  | S k' => hex_digit (N.land (N.shiftr v (4 * N.of_nat k')) 0xF) :: hex_digits k' v
  end.
(* 2098-2163: what follows the backslash *)
Definition escape_code (v : N) : list N :=
  if v =? 0x00 then [0x30] else if v =? 0x07 then [0x61] else if v =? 0x08 then [0x62] else if v =? 0x09 then [0x74]
  else if v =? 0x0A then [0x6E] else if v =? 0x0B then [0x76] else if v =? 0x0C then [0x66] else if v =? 0x0D then [0x72]
  else if v =? 0x1B then [0x65] else if v =? 0x22 then [0x22] else if v =? 0x5C then [0x5C] else if v =? 0x85 then [0x4E]
  else if v =? 0xA0 then [0x5F] else if v =? 0x2028 then [0x4C] else if v =? 0x2029 then [0x50]
  else if v <=? 0xFF then 0x78 :: hex_digits 2 v
  else if v <=? 0xFFFF then 0x75 :: hex_digits 4 v
  else 0x55 :: hex_digits 8 v.
Fixpoint double_loop (g : cfg) (indent : Z) (allow : bool) (first spaces : bool) (s : list N) (p : pen) : pen :=
  match s with
  | [] => p
  | c :: r =>
      if must_escape g c then double_loop g indent allow false false r (pputs (0x5C :: escape_code c) p)
      else if is_space c then
        if allow && negb spaces && (p_column p >? g_width g)%Z && negb first && negb (nlen r =? 0)
        then let p := write_indent g indent p in
             double_loop g indent allow false true r (if is_space (next r) then pput 0x5C p else p)
        else double_loop g indent allow false true r (pput c p)
      else double_loop g indent allow false false r (pput c p)
  end.
Definition write_double (g : cfg) (indent : Z) (s : list N) (allow : bool) (p : pen) : pen :=
  let p := write_indicator [0x22] true false false p in
  let p := double_loop g indent allow true false s p in
  set_white (write_indicator [0x22] false false false p) false false.

(* yaml_emitter_write_block_scalar_hints, 2207-2262.  The characters before the
   end are found by going back over continuation bytes. *)
Definition chomp_hint (s : list N) : list N * N :=
  match rev s with
  | [] => ([0x2D], 0)
  | c :: r =>
      if negb (is_break c) then ([0x2D], 0)
      else match r with
           | [] => ([0x2B], 2)
           | d :: _ => if is_break d then ([0x2B], 2) else ([], 0)
           end
  end.
Definition write_hints (g : cfg) (s : list N) (p : pen) : pen :=
  let p := if is_space (next s) || is_break (next s)
           then write_indicator [0x30 + Z.to_N (g_indent g)] false false false p else p in
  let (h, o) := chomp_hint s in
  let p := set_open p o in
  match h with [] => p | _ => write_indicator h false false false p end.

(* yaml_emitter_write_literal_scalar, 2265-2301 *)
Fixpoint literal_loop (g : cfg) (indent : Z) (breaks : bool) (s : list N) (p : pen) : pen :=
  match s with
  | [] => p
  | c :: r =>
      if is_break c then literal_loop g indent true r (set_indention (pwrite_break g c p) true)
      else
        let p := if breaks then write_indent g indent p else p in
        literal_loop g indent false r (set_indention (pput c p) false)
  end.
Definition write_literal (g : cfg) (indent : Z) (s : list N) (p : pen) : pen :=
  let p := write_hints g s (write_indicator [0x7C] true false false p) in
  literal_loop g indent true s (set_white (put_break g p) true true).

(* yaml_emitter_write_folded_scalar, 2304-2358.  [after_breaks]: 2328-2331 *)
Fixpoint after_breaks (s : list N) : N :=
  match s with
  | [] => 0
  | c :: r => if is_break c then after_breaks r else c
  end.
Fixpoint folded_loop (g : cfg) (indent : Z) (breaks leading : bool) (s : list N) (p : pen) : pen :=
  match s with
  | [] => p
  | c :: r =>
      if is_break c then
        let p := if negb breaks && negb leading && (c =? 0xA) && negb (is_blankz (after_breaks s))
                 then put_break g p else p in
        folded_loop g indent true leading r (set_indention (pwrite_break g c p) true)
      else
        let p' := if breaks then write_indent g indent p else p in
        let leading := if breaks then is_blank c else leading in
        let p' := if negb breaks && is_space c && negb (is_space (next r)) && (p_column p' >? g_width g)%Z
                 then write_indent g indent p' else pput c p' in
        folded_loop g indent false leading r (set_indention p' false)
  end.
Definition write_folded (g : cfg) (indent : Z) (s : list N) (p : pen) : pen :=
  let p := write_hints g s (write_indicator [0x3E] true false false p) in
  folded_loop g indent true true s (set_white (put_break g p) true true).

(* yaml_emitter_write_bom, 1776-1786: the three bytes of U+FEFF *)
Definition write_bom (p : pen) : pen := pop_ p (CPut [0xFEFF]) (p_column p).
