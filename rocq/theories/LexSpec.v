(* What the characters of a text mean to the scanner: the white space between tokens,
   and the value of a scalar as it is spelled.  Written from the YAML 1.1 productions,
   without reference to the scanner. *)
From Verif Require Import Base Utf8Spec CharSpec Types RoundSpec.

(* the character at the beginning of a text; 0 at its end *)
Notation head t := (nth 0 t 0).

(* ---- between tokens ---- *)
(* a space; and a tab where it cannot be mistaken for indentation: in flow context, or
   on a line that has begun *)
Definition blank_here (flow key : bool) (x : N) : Prop := x = 0x20 \/ x = 9 /\ (flow = true \/ key = false).
(* the rest [r] of the line [t]: after a byte order mark at the very beginning of a line,
   all the blanks, and a comment, which goes to the end of the line.  [key] says that a
   key could begin here, [first] that [t] is at column 0. *)
Definition line_gap (flow key first : bool) (t r : list N) : Prop :=
  exists bom blanks comment,
    t = bom ++ blanks ++ comment ++ r /\
    (if first && (head t =? 0xFEFF) then bom = [0xFEFF] else bom = []) /\
    Forall (blank_here flow key) blanks /\ ~ blank_here flow key (head (comment ++ r)) /\
    (comment = [] /\ head r <> 0x23 \/
     exists s, comment = 0x23 :: s /\ Forall (fun x => is_breakz x = false) s /\ is_breakz (head r) = true).
(* any number of lines with nothing else on them; after a line break in block context a
   key may begin *)
Inductive gap (flow : bool) : bool -> bool -> list N -> list N -> bool -> Prop :=
| gap_end key first t r : line_gap flow key first t r -> is_break (head r) = false -> gap flow key first t r key
| gap_line key first t b r r' key' : line_gap flow key first t (b ++ r) -> line_break b -> (b = [0xD] -> head r <> 0xA) ->
    gap flow (if flow then key else true) true r r' key' -> gap flow key first t r' key'.

(* ---- quoted scalars ---- *)
(* the character a line break stands for *)
Definition break_value (b : list N) : N := if head b =? 0x2028 then 0x2028 else if head b =? 0x2029 then 0x2029 else 0xA.
(* Lines with nothing but blanks on them, behind the line break [b]: the values of the line
   breaks they end with, and the column where the text ends.  [ok x col] says that [x] is
   a blank that may be at the column [col]; CR LF is one break. *)
Inductive lines (ok : N -> N -> Prop) (b : list N) : list N -> list N -> N -> Prop :=
| lines_start : lines ok b [] [] 0
| lines_blank s v col x : lines ok b s v col -> ok x col -> lines ok b (s ++ [x]) v (col + 1)
| lines_break s v col b' : lines ok b s v col -> line_break b' -> (last (b ++ s) 0 = 0xD -> b' <> [0xA]) ->
    lines ok b (s ++ b') (v ++ [break_value b']) 0.
(* a first line break with the value [x] before others: a single line feed is a space, a
   line feed before others is dropped *)
Definition folded (x : N) (v : list N) : list N :=
  if x =? 0xA then match v with [] => [0x20] | _ => v end else x :: v.

(* the escape sequences of double-quoted scalars, without the backslash *)
Definition short_escapes : list (N * N) :=
  [(0x30, 0); (0x61, 7); (0x62, 8); (0x74, 9); (9, 9); (0x6E, 0xA); (0x76, 0xB); (0x66, 0xC); (0x72, 0xD); (0x65, 0x1B);
   (0x20, 0x20); (0x22, 0x22); (0x2F, 0x2F); (0x5C, 0x5C); (0x4E, 0x85); (0x5F, 0xA0); (0x4C, 0x2028); (0x50, 0x2029)].
Definition code_escapes : list (N * nat) := [(0x78, 2%nat); (0x75, 4%nat); (0x55, 8%nat)].
Definition hex_value (ds : list N) : N := fold_left (fun n d => n * 16 + as_hex d) ds 0.
Inductive escaped : list N -> N -> Prop :=
| escaped_short e x : In (e, x) short_escapes -> escaped [e] x
| escaped_code e ds : In (e, length ds) code_escapes -> Forall (fun d => is_hex d = true) ds -> scalar_value (hex_value ds) ->
    escaped (e :: ds) (hex_value ds).

Definition quote (single : bool) : N := if single then 0x27 else 0x22.
Definition not_white (t : list N) : Prop := is_blank (head t) = false /\ is_break (head t) = false.
(* "---" or "..." and a blank or a break *)
Definition marker (t : list N) : Prop :=
  exists x y r, (x = 0x2D \/ x = 0x2E) /\ t = x :: x :: x :: y :: r /\ is_blankz y = true.
Definition any_blank (x col : N) : Prop := is_blank x = true.
(* [t], between two quotes, spells the string [v] *)
Inductive spelled (single : bool) : list N -> list N -> Prop :=
| spelled_end : spelled single [] []
| spelled_char x t v : is_blankz x = false -> x <> quote single -> (single = false -> x <> 0x5C) ->
    spelled single t v -> spelled single (x :: t) (x :: v)
| spelled_pair t v : single = true -> spelled single t v -> spelled single (0x27 :: 0x27 :: t) (0x27 :: v)
| spelled_escape e x t v : single = false -> escaped e x -> spelled single t v -> spelled single (0x5C :: e ++ t) (x :: v)
  (* blanks inside a line are kept *)
| spelled_blanks w t v : w <> [] -> Forall (fun x => is_blank x = true) w -> not_white t ->
    spelled single t v -> spelled single (w ++ t) (w ++ v)
  (* around line breaks they are not, and the breaks are folded *)
| spelled_fold w b s bs col t v : Forall (fun x => is_blank x = true) w -> line_break b -> lines any_blank b s bs col ->
    not_white t -> (col = 0 -> ~ marker t) ->
    spelled single t v -> spelled single (w ++ b ++ s ++ t) (folded (break_value b) bs ++ v)
  (* an escaped line break is dropped *)
| spelled_join b s bs col t v : single = false -> line_break b -> lines any_blank b s bs col ->
    not_white t -> (col = 0 -> ~ marker t) ->
    spelled single t v -> spelled single (0x5C :: b ++ s ++ t) (bs ++ v).
(* behind a quote, [t] goes on with a string that has the bytes [s], the closing quote, and [r] *)
Definition quoted_text (single : bool) (t s r : list N) : Prop :=
  exists u v, t = u ++ quote single :: r /\ (single = true -> head r <> 0x27) /\ spelled single u v /\ s = utf8 v.

(* ---- plain scalars ---- *)
(* , [ ] { } *)
Definition flow_indicator (x : N) : bool := existsb (N.eqb x) [0x2C; 0x5B; 0x5D; 0x7B; 0x7D].
(* [x], before [t], belongs to a word: it is not white space, not a ':' before white space,
   and in flow context not an indicator, nor a ':' before one *)
Definition in_word (flow : bool) (x : N) (t : list N) : Prop :=
  is_blankz x = false /\ (x = 0x3A -> is_blankz (head t) = false) /\
  (flow = true -> flow_indicator x = false /\ (x = 0x3A -> flow_indicator (head t) = false /\ head t <> 0x3F)).
(* a word begins; '#' would begin a comment *)
Definition word_begins (flow : bool) (t : list N) : Prop := exists x t', t = x :: t' /\ x <> 0x23 /\ in_word flow x t'.
(* a word ends, and white space does not follow: the end of the input, ": ", a flow indicator *)
Definition word_stops (flow : bool) (t : list N) : Prop :=
  head t = 0 \/ head t = 0x3A /\ is_blankz (nth 1 t 0) = true \/ flow = true /\ flow_indicator (head t) = true.
(* no tab where the indentation is expected *)
Definition indented_blank (indent : Z) (x col : N) : Prop := x = 0x20 \/ x = 9 /\ (indent <= Z.of_N col)%Z.
(* From [t] on, a plain scalar with the rest [v] of its value goes up to [r], over the
   white space behind it, which has a line break in it or not ([lb]).  In block context
   its lines are indented by at least [indent]. *)
Inductive plain (flow : bool) (indent : Z) : list N -> list N -> list N -> bool -> Prop :=
| plain_char x t v r lb : in_word flow x t -> plain flow indent t v r lb -> plain flow indent (x :: t) (x :: v) r lb
| plain_blanks w t v r lb : w <> [] -> Forall (fun x => is_blank x = true) w -> word_begins flow t ->
    plain flow indent t v r lb -> plain flow indent (w ++ t) (w ++ v) r lb
| plain_fold w b s bs col t v r lb : Forall (fun x => is_blank x = true) w -> line_break b -> lines (indented_blank indent) b s bs col ->
    word_begins flow t -> (flow = true \/ (indent <= Z.of_N col)%Z) -> (col = 0 -> ~ document_marker t) ->
    plain flow indent t v r lb -> plain flow indent (w ++ b ++ s ++ t) (folded (break_value b) bs ++ v) r lb
| plain_end w r : Forall (fun x => is_blank x = true) w -> (word_stops flow r \/ w <> [] /\ head r = 0x23) ->
    plain flow indent (w ++ r) [] r false
| plain_end_lines w b s bs col r : Forall (fun x => is_blank x = true) w -> line_break b -> lines (indented_blank indent) b s bs col -> not_white r ->
    (word_stops flow r \/ head r = 0x23 \/ col = 0 /\ document_marker r \/ flow = false /\ (Z.of_N col < indent)%Z) ->
    plain flow indent (w ++ b ++ s ++ r) [] r true.
(* what no plain scalar has in it, found after [n] characters: in flow context ':' before an
   indicator; a tab before the column [indent] of a line *)
Definition bad_colon (flow : bool) (t : list N) (n : N) : Prop :=
  flow = true /\ exists w x r, t = w ++ 0x3A :: x :: r /\ N.of_nat (length w) = n /\ (flow_indicator x = true \/ x = 0x3F).
Definition bad_tab (indent : Z) (t : list N) (n : N) : Prop :=
  exists w b s bs col r, t = w ++ b ++ s ++ 9 :: r /\ N.of_nat (length (w ++ b ++ s)) = n /\
    line_break b /\ lines (indented_blank indent) b s bs col /\ (Z.of_N col < indent)%Z.

(* ---- block scalars ---- *)
Definition sign (x : N) : Prop := x = 0x2B \/ x = 0x2D.
Definition digit (x : N) : Prop := 0x30 <= x <= 0x39.
Definition count (x : N) : Prop := 0x31 <= x <= 0x39.
(* behind '|' or '>': a sign for the last line breaks ('+', [Some true]: keep all of them;
   '-', [Some false]: drop all) and a digit for the indentation, in any order; [r] follows *)
Inductive block_header : list N -> option bool -> Z -> list N -> Prop :=
| header_none r : ~ sign (head r) -> ~ digit (head r) -> block_header [] None 0 r
| header_sign x r : sign x -> ~ digit (head r) -> block_header [x] (Some (x =? 0x2B)) 0 r
| header_count d r : count d -> ~ sign (head r) -> block_header [d] None (Z.of_N (d - 0x30)) r
| header_sign_count x d r : sign x -> count d -> block_header [x; d] (Some (x =? 0x2B)) (Z.of_N (d - 0x30)) r
| header_count_sign d x r : count d -> sign x -> block_header [d; x] (Some (x =? 0x2B)) (Z.of_N (d - 0x30)) r.
(* blanks and a comment before [r] *)
Definition line_tail (w r : list N) : Prop :=
  exists blanks comment, w = blanks ++ comment /\ Forall (fun x => is_blank x = true) blanks /\ is_blank (head (comment ++ r)) = false /\
    (comment = [] /\ head r <> 0x23 \/
     exists s, comment = 0x23 :: s /\ Forall (fun x => is_breakz x = false) s /\ is_breakz (head r) = true).
(* a column before the indentation; with [indent] = 0, that is not yet known *)
Definition low (indent : Z) (col : N) : Prop := indent = 0%Z \/ (Z.of_N col < indent)%Z.
Definition low_space (indent : Z) (x col : N) : Prop := x = 0x20 /\ low indent col.
(* [t], at the column [col], is behind the empty lines and the indentation *)
Definition text_begins (indent : Z) (col : N) (t : list N) : Prop :=
  is_break (head t) = false /\ (low indent col -> head t <> 0x20 /\ head t <> 9).
(* the largest number of spaces on a line *)
Fixpoint widest (col : N) (s : list N) : N :=
  match s with [] => col | x :: s' => if x =? 0x20 then widest (col + 1) s' else N.max col (widest 0 s') end.
(* what stands for the line break [ld] after a line and the breaks [bs] of the empty lines
   behind it; [kept]: one of the lines around them begins with a blank *)
Definition joined (literal : bool) (ld bs : list N) (kept : bool) : list N :=
  match ld with [] => bs | x :: _ => if literal || kept then x :: bs else folded x bs end.
Definition chomped (chomp : option bool) (ld bs : list N) : list N :=
  match chomp with Some false => [] | None => ld | Some true => ld ++ bs end.
(* the text [t] at the column [col]; [blank]: the line before begins with a blank *)
Inductive block_rest (literal : bool) (chomp : option bool) (indent : Z) : bool -> list N -> list N -> N -> list N -> list N -> list N -> Prop :=
| block_end blank ld bs col t : Z.of_N col <> indent \/ head t = 0 -> block_rest literal chomp indent blank ld bs col t (chomped chomp ld bs) t
| block_line blank ld bs col line b s bs' col' t v r :
    Z.of_N col = indent -> line <> [] -> Forall (fun x => is_breakz x = false) line ->
    line_break b -> lines (low_space indent) b s bs' col' -> text_begins indent col' t ->
    block_rest literal chomp indent (is_blank (head line)) [break_value b] bs' col' t v r ->
    block_rest literal chomp indent blank ld bs col (line ++ b ++ s ++ t) (joined literal ld bs (blank || is_blank (head line)) ++ line ++ v) r
| block_last blank ld bs col line t :
    Z.of_N col = indent -> line <> [] -> Forall (fun x => is_breakz x = false) line -> head t = 0 ->
    block_rest literal chomp indent blank ld bs col (line ++ t) (joined literal ld bs (blank || is_blank (head line)) ++ line) t.
(* The text behind '|' or '>' in a block collection at column [pindent] (-1 outside any).
   Without an indicator the indentation is that of the widest of the empty lines before
   the first text and the line of that text. *)
Definition given_indent (pindent inc : Z) : Z :=
  if (inc =? 0)%Z then 0%Z else if (0 <=? pindent)%Z then (pindent + inc)%Z else inc.
Definition found_indent (pindent given : Z) (s : list N) : Z :=
  if (given =? 0)%Z then Z.max (Z.max (Z.of_N (widest 0 s)) (pindent + 1)) 1 else given.
Inductive block_scalar (literal : bool) (pindent : Z) : list N -> list N -> list N -> Prop :=
| block_nothing h chomp inc w r : block_header h chomp inc (w ++ r) -> line_tail w r -> head r = 0 -> block_scalar literal pindent (h ++ w ++ r) [] r
| block_text h chomp inc w b s bs col t v r : block_header h chomp inc (w ++ b ++ s ++ t) -> line_tail w (b ++ s ++ t) -> line_break b ->
    let given := given_indent pindent inc in
    lines (low_space given) b s bs col -> text_begins given col t ->
    block_rest literal chomp (found_indent pindent given s) false [] bs col t v r ->
    block_scalar literal pindent (h ++ w ++ b ++ s ++ t) v r.
(* what no block scalar has in it, found after [n] characters: the indentation 0, something
   else behind the header, a tab before the indentation *)
Definition zero_indent (t : list N) (n : N) : Prop :=
  exists h r, t = h ++ 0x30 :: r /\ N.of_nat (length h) = n /\ (h = [] \/ exists x, sign x /\ h = [x]).
Definition bad_header (t : list N) (n : N) : Prop :=
  exists h chomp inc w r, t = h ++ w ++ r /\ N.of_nat (length (h ++ w)) = n /\ block_header h chomp inc (w ++ r) /\ line_tail w r /\ is_breakz (head r) = false.
Definition bad_block_tab (t : list N) (n : N) : Prop :=
  exists w b s bs indent col r, t = w ++ b ++ s ++ 9 :: r /\ N.of_nat (length (w ++ b ++ s)) = n /\
    line_break b /\ lines (low_space indent) b s bs col /\ low indent col.

(* ---- anchors, tags and directives ---- *)
(* letters, digits, '-' and '_' *)
Definition name (s : list N) : Prop := Forall (fun x => is_alpha x = true) s.
(* behind '&' or '*': the name [s], before white space or one of ? : , ] } % @ ` *)
Definition anchor_text (t s r : list N) : Prop :=
  t = s ++ r /\ s <> [] /\ name s /\ (is_blankz (head r) = true \/ In (head r) [0x3F; 0x3A; 0x2C; 0x5D; 0x7D; 0x25; 0x40; 0x60]).

(* the characters of a tag other than '%'; [wide]: also , [ ] *)
Definition uri_char (wide : bool) (x : N) : Prop :=
  is_alpha x = true \/ In x [0x3B; 0x2F; 0x3F; 0x3A; 0x40; 0x26; 0x3D; 0x2B; 0x24; 0x2E; 0x21; 0x7E; 0x2A; 0x27; 0x28; 0x29] \/
  wide = true /\ In x [0x2C; 0x5B; 0x5D].
(* escaped bytes, %41 for one *)
Inductive octets : list N -> list N -> Prop :=
| octets_none : octets [] []
| octets_more a b e os : is_hex a = true -> is_hex b = true -> octets e os -> octets (0x25 :: a :: b :: e) (as_hex a * 16 + as_hex b :: os).
(* as many as the first one of a UTF-8 sequence announces *)
Definition following (o : N) : option nat :=
  if o <? 0x80 then Some 0%nat else if o <? 0xC0 then None else if o <? 0xE0 then Some 1%nat else if o <? 0xF0 then Some 2%nat else if o <? 0xF8 then Some 3%nat else None.
Definition utf8_like (os : list N) : Prop :=
  match os with [] => False | o :: tr => following o = Some (length tr) /\ Forall (fun x => 0x80 <= x < 0xC0) tr end.
(* [u] spells the bytes [v] *)
Inductive uri (wide : bool) : list N -> list N -> Prop :=
| uri_end : uri wide [] []
| uri_one x u v : uri_char wide x -> uri wide u v -> uri wide (x :: u) (x :: v)
| uri_escape e os u v : octets e os -> utf8_like os -> uri wide u v -> uri wide (e ++ u) (os ++ v).
(* a string of C ends with its first zero byte *)
Fixpoint up_to_nul (s : list N) : list N := match s with [] => [] | x :: s' => if x =? 0 then [] else x :: up_to_nul s' end.
(* white space follows a tag; in flow context maybe ',' *)
Definition tag_ends (flow : bool) (r : list N) : Prop := is_blankz (head r) = true \/ flow = true /\ head r = 0x2C.
(* the text behind '!', with the handle and the suffix of the tag: !<uri>, !name!uri,
   !uri, and '!' alone, which is the suffix "!" *)
Inductive tag_text (flow : bool) : list N -> list N -> list N -> list N -> Prop :=
| tag_verbatim u v r : u <> [] -> uri true u v -> tag_ends flow r -> tag_text flow (0x3C :: u ++ 0x3E :: r) [] (up_to_nul v) r
| tag_named w u v r : name w -> u <> [] -> uri false u v -> tag_ends flow r -> tag_text flow (w ++ 0x21 :: u ++ r) (0x21 :: w ++ [0x21]) (up_to_nul v) r
| tag_short w u v r : name w -> is_alpha (head (u ++ r)) = false -> head (u ++ r) <> 0x21 -> uri false u v -> tag_ends flow r ->
    up_to_nul (w ++ v) <> [] -> tag_text flow (w ++ u ++ r) [0x21] (up_to_nul (w ++ v)) r
| tag_bang u v r : uri false u v -> tag_ends flow r -> up_to_nul v = [] -> tag_text flow (u ++ r) [] [0x21] r.

(* numbers of at most nine digits *)
Definition number (d : list N) (n : N) : Prop :=
  d <> [] /\ (length d <= 9)%nat /\ Forall (fun x => is_digit x = true) d /\ n = fold_left (fun n x => n * 10 + (x - 0x30)) d 0.
Definition all_blank (w : list N) : Prop := Forall (fun x => is_blank x = true) w.
(* the text behind '%', up to the end of the line: YAML and a version, or TAG, a handle and
   a prefix *)
Inductive directive_text : list N -> tok -> list N -> Prop :=
| directive_version w d1 n1 d2 n2 r : w <> [] -> all_blank w -> number d1 n1 -> number d2 n2 -> is_digit (head r) = false ->
    directive_text ([0x59; 0x41; 0x4D; 0x4C] ++ w ++ d1 ++ 0x2E :: d2 ++ r) (TVersion n1 n2) r
| directive_tag w h w' u v r : w <> [] -> all_blank w -> (h = [0x21] \/ exists k, name k /\ h = 0x21 :: k ++ [0x21]) -> w' <> [] -> all_blank w' ->
    u <> [] -> uri true u v -> is_blankz (head r) = true ->
    directive_text ([0x54; 0x41; 0x47] ++ w ++ h ++ w' ++ u ++ r) (TTagDirective h (up_to_nul v)) r.
(* blanks, a comment, and the line break, unless the input ends *)
Definition line_end (t r : list N) : Prop :=
  exists w q b, t = w ++ q /\ line_tail w q /\ q = b ++ r /\ (line_break b /\ (b = [0xD] -> head r <> 0xA) \/ b = [] /\ head r = 0).
