(* What it means that written text is read back. *)
From Verif Require Import Base Utf8Spec ReaderModel CharSpec Types CursorModel ScanModel WriterModel WriterSpec PenModel.

(* The characters written with a pen so far. *)
Definition written (p : pen) : list N := chars_of (p_ops p).
(* A cursor at the beginning of [t]: at least one character (the end counts as one) is
   in the buffer, no more than there are; whatever else has been read ahead. *)
Definition at_text (c : cur) (t : list N) : Prop :=
  c_text c = t /\ c_bad c = false /\ (1 <= c_unread c <= S (length t))%nat.
(* Scanning with [scan], wherever the cursor is at [t] followed by [rest], gives one
   scalar token with the value [s], and stops exactly before [rest]. *)
Definition scans_as (scan : cm token) (t : list N) (s : list N) (style : sstyle) (rest : list N) : Prop :=
  forall c, at_text c (t ++ rest) ->
    exists c', scan c = COk (mkToken (TScalar (utf8 s) style) (c_mark c) (c_mark c') false) c' /\ c_text c' = rest.

(* What may follow a plain scalar: white space [white], then [r] where it ends:
   the end of the input, ": ", in flow context a flow indicator, and after some white
   space also a comment, in block context a line indented not more than [pindent]
   columns, or a document marker. *)
Definition white_text (white : list N) : Prop := Forall (fun c => c = 0x20 \/ is_break c = true) white.
Definition document_marker (r : list N) : Prop :=
  exists x r', (x = 0x2D \/ x = 0x2E) /\ r = x :: x :: x :: r' /\ is_blankz (nth 0 r' 0) = true.
Definition plain_ends (flow : bool) (pindent : Z) (white r : list N) : Prop :=
  nth 0 r 0 = 0
  \/ (nth 0 r 0 = 0x3A /\ is_blankz (nth 1 r 0) = true)
  \/ (flow = true /\ flow_end (nth 0 r 0) = true)
  \/ (white <> [] /\ nth 0 r 0 = 0x23)
  \/ (flow = false /\ is_blankz (nth 0 r 0) = false /\ exists u b k, white = u ++ b :: repeat 0x20 k /\ is_break b = true /\ (Z.of_nat k <= pindent)%Z)
  \/ (document_marker r /\ exists u b, white = u ++ [b] /\ is_break b = true).

(* What follows a block scalar with the value [s] written with indentation [i]: a line
   break, unless the value ends with one, and a line [r] indented less than [i]. *)
Definition line_break (b : list N) : Prop := (exists x, b = [x] /\ is_break x = true) \/ b = [0xD; 0xA].
Definition block_ends (i : Z) (s rest r : list N) : Prop :=
  exists b k, rest = b ++ repeat 0x20 k ++ r /\ (Z.of_nat k < i)%Z /\ is_blank (nth 0 r 0) = false /\ is_break (nth 0 r 0) = false /\
    if is_break (last s 0) then b = [] else line_break b.
(* Where a line that starts with a space has another space, with no space behind it, the
   text before that fits in the width: the column of a character is the indentation and its
   place in the line. *)
Definition indented_lines_fit (i width : Z) (s : list N) : Prop :=
  forall u l v, s = u ++ 0x20 :: l ++ 0x20 :: v -> u = [] \/ is_break (last u 0) = true -> existsb is_break l = false -> nth 0 v 0 <> 0x20 ->
    (i + 1 + Z.of_nat (length l) <= width)%Z.

(* What may follow a tag: white space, the end of a line or of the input, in flow context
   also a comma. *)
Definition tag_follow (flow : bool) (rest : list N) : Prop :=
  is_blankz (nth 0 rest 0) = true \/ (flow = true /\ nth 0 rest 0 = 0x2C).
(* [x] is what is left of the tag [t] behind the prefix of the first directive whose prefix
   is a proper beginning of it. *)
Definition shorthand (tags : list tagdir) (t x : list N) : Prop :=
  exists l1 h p l2, tags = l1 ++ (h, p) :: l2 /\ t = p ++ x /\ x <> [] /\
    forall h' p' y, In (h', p') l1 -> t = p' ++ y -> y = [].
(* There is none, or it has no ',', '[' or ']'. *)
Definition suffixes_ok (tags : list tagdir) (t : list N) : Prop :=
  forall x, shorthand tags t x -> ~ In 0x2C x /\ ~ In 0x5B x /\ ~ In 0x5D x.
(* The directives as the parser has them: in UTF-8. *)
Definition utf8_tags (tags : list tagdir) : list tagdir := map (fun t => (utf8 (fst t), utf8 (snd t))) tags.
