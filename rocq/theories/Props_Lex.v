(* Properties C62 to C68: the white space between tokens, quoted, plain and block
   scalars, anchors, tags and directives.  Statements only.  The specification is in LexSpec.v; [c_text] is the text not
   yet consumed, [c_mark] the position in the text; a cursor may have any part of the
   text in its buffer, and get any part of the rest at each request. *)
From Verif Require Import Base ReaderModel Utf8Spec CharSpec Types CursorModel ScanModel RoundSpec LexSpec GapExact QuotedExact LexUnique PlainExact BlockExact TagLex.

(* C62: between two tokens exactly the white space, the comments and the byte order
   marks that the specification allows are passed over, and it is known where a key may
   begin.  Nothing but an error of the reader stops that. *)
Theorem C62_between_tokens flow key c :
  match scan_to_next_token flow key c with
  | COk key' c' => forall r k, gap flow key (m_column (c_mark c) =? 0) (c_text c) r k <-> r = c_text c' /\ k = key'
  | CErr e => se_problem e = SReader
  | CBad | CFuel => False
  end.
Proof. exact (gap_exactly flow key c). Qed.
Print Assumptions C62_between_tokens.
(* BOM " # a" CR LF TAB "- b": in block context the tab is left *)
Definition gap_text : list N := [0xFEFF; 0x20; 0x23; 0x20; 0x61; 13; 10; 9; 0x2D; 0x20; 0x62].
Example C62_block : exists c', scan_to_next_token false false (mkCur gap_text 0 [] false mark0) = COk true c' /\ c_text c' = [9; 0x2D; 0x20; 0x62].
Proof. eexists. vm_compute. split; reflexivity. Qed.
Example C62_flow : exists c', scan_to_next_token true false (mkCur gap_text 0 [] false mark0) = COk false c' /\ c_text c' = [0x2D; 0x20; 0x62].
Proof. eexists. vm_compute. split; reflexivity. Qed.

(* C63: behind a quote, the text [u] up to the closing quote is read as a scalar with the
   value [v] if it spells [v], and what is read as a scalar is spelled so.  (Two single
   quotes are one quote in the scalar: so none may follow the closing one.) *)
Theorem C63_quoted_scalars single c t : at_text c (quote single :: t) ->
  let style := if single then SingleQuoted else DoubleQuoted in
  (forall u v r, t = u ++ quote single :: r -> (single = true -> head r <> 0x27) -> spelled single u v ->
     exists c', scan_flow_scalar single c = COk (mkToken (TScalar (utf8 v) style) (c_mark c) (c_mark c') false) c' /\ c_text c' = r) /\
  (forall tk c', scan_flow_scalar single c = COk tk c' ->
     exists u v, t = u ++ quote single :: c_text c' /\ spelled single u v /\
       tk = mkToken (TScalar (utf8 v) style) (c_mark c) (c_mark c') false).
Proof. exact (quoted_exact single c t). Qed.
Print Assumptions C63_quoted_scalars.
(* ... and for every buffer and input: one string at most is spelled, it is the one that is
   read, and if none is spelled there is an error *)
Theorem C63_one_string single c t : (1 <= c_unread c)%nat -> c_text c = quote single :: t ->
  match scan_flow_scalar single c with
  | COk tk c' => exists s, tk = mkToken (TScalar s (if single then SingleQuoted else DoubleQuoted)) (c_mark c) (c_mark c') false /\
      forall s' r, quoted_text single t s' r <-> s' = s /\ r = c_text c'
  | CErr e => se_problem e = SReader \/ forall s r, ~ quoted_text single t s r
  | CBad | CFuel => False
  end.
Proof. exact (quoted_exactly single c t). Qed.
Print Assumptions C63_one_string.
(* "\x41 b" LF LF "  c\" LF " \ d" is "A b", a line feed, "c d" *)
Example C63_spelled : spelled false ([0x5C; 0x78; 0x34; 0x31] ++ [0x20; 0x62] ++ [10] ++ [10; 0x20; 0x20] ++ [0x63] ++ [0x5C; 10; 0x20] ++ [0x5C; 0x20; 0x64])
  [0x41; 0x20; 0x62; 10; 0x63; 0x20; 0x64].
Proof.
  apply (spelled_escape false [0x78; 0x34; 0x31] 0x41); [reflexivity| |].
  { apply (escaped_code 0x78 [0x34; 0x31]); [left; reflexivity|repeat constructor|]. vm_compute. auto. }
  apply (spelled_blanks false [0x20]); [discriminate|repeat constructor|split; reflexivity|].
  apply spelled_char; [reflexivity|discriminate|discriminate|].
  apply (spelled_fold false [] [10] [10; 0x20; 0x20] [10] 2); [constructor|left; exists 10; auto| |split; reflexivity|discriminate|].
  { apply (lines_blank any_blank [10] [10; 0x20] [10] 1 0x20); [|reflexivity]. apply (lines_blank any_blank [10] [10] [10] 0 0x20); [|reflexivity].
    apply (lines_break any_blank [10] [] [] 0 [10]); [constructor|left; exists 10; auto|discriminate]. }
  apply spelled_char; [reflexivity|discriminate|discriminate|].
  apply (spelled_join false [10] [0x20] [] 1); [reflexivity|left; exists 10; auto| |split; reflexivity|discriminate|].
  { apply (lines_blank any_blank [10] [] [] 0 0x20); [constructor|reflexivity]. }
  apply (spelled_escape false [0x20] 0x20); [reflexivity|apply escaped_short; vm_compute; tauto|].
  apply spelled_char; [reflexivity|discriminate|discriminate|]. constructor.
Qed.
Example C63_at_text : at_text (mkCur [0x22; 0x61; 0x22] 1 [] false mark0) (quote false :: [0x61; 0x22]).
Proof. repeat split; cbn; auto. Qed.

(* C64: where a plain scalar begins, the text is read as the specification says, which says
   one thing only; if it says nothing there is an error: a ':' before an indicator in flow
   context, or a tab instead of indentation, at its place in the text.  Besides, the reader
   may fail. *)
Theorem C64_plain_scalars flow pindent c :
  let t := c_text c in let m := c_mark c in
  not_white t -> ~ word_stops flow t -> head t <> 0x23 -> (m_column m = 0 -> ~ document_marker t) ->
  (flow = true \/ (pindent <= Z.of_N (m_column m))%Z) ->
  match scan_plain_scalar flow pindent c with
  | COk (tk, lb) c' => exists v e, tk = mkToken (TScalar (utf8 v) Plain) m e false /\
      forall v' r lb', plain flow (pindent + 1) t v' r lb' <-> v' = v /\ r = c_text c' /\ lb' = lb
  | CErr e => se_problem e = SReader \/
      (se_problem e = SPlainColon /\ bad_colon flow t (m_index (se_mark e) - m_index m) \/
       se_problem e = SPlainTab /\ bad_tab (pindent + 1) t (m_index (se_mark e) - m_index m)) /\
      forall v r lb, ~ plain flow (pindent + 1) t v r lb
  | CBad | CFuel => False
  end.
Proof. exact (plain_exact flow pindent c). Qed.
Print Assumptions C64_plain_scalars.
(* "a:b #" LF LF " c # d" in a block collection at column 0 is "a:b" LF "c" *)
Example C64_block : exists e c', scan_plain_scalar false 0 (mkCur [0x61; 0x3A; 0x62; 10; 10; 0x20; 0x63; 0x20; 0x23; 0x64] 1 [] false mark0) =
  COk (mkToken (TScalar (utf8 [0x61; 0x3A; 0x62; 10; 0x63]) Plain) mark0 e false, false) c' /\ c_text c' = [0x23; 0x64].
Proof. eexists. eexists. vm_compute. split; reflexivity. Qed.
Example C64_colon : exists e, scan_plain_scalar true 0 (mkCur [0x61; 0x3A; 0x5D] 1 [] false mark0) = CErr e /\ se_problem e = SPlainColon /\ m_index (se_mark e) = 1.
Proof. eexists. vm_compute. repeat split; reflexivity. Qed.
Example C64_tab : exists e, scan_plain_scalar false 2 (mkCur [0x61; 10; 0x20; 9; 0x62] 1 [] false mark0) = CErr e /\ se_problem e = SPlainTab /\ m_index (se_mark e) = 3.
Proof. eexists. vm_compute. repeat split; reflexivity. Qed.
Example C64_begins : not_white [0x61; 0x3A; 0x62] /\ ~ word_stops false [0x61; 0x3A; 0x62] /\ ~ document_marker [0x61; 0x3A; 0x62].
Proof. split; [split; reflexivity|]. split; [intros [H|[[H _]|[H _]]]; discriminate H|]. intros (k & r & [H|H] & E & _); subst k; discriminate E. Qed.

(* C65: behind '|' or '>' ([x]) the text is read as a block scalar as the specification
   says, which says one thing only; if it says nothing there is an error: the indentation 0,
   anything but a comment behind the header, or a tab instead of indentation, at its place
   in the text.  Besides, the reader may fail. *)
Theorem C65_block_scalars literal pindent c x t : (1 <= c_unread c)%nat -> c_text c = x :: t ->
  match scan_block_scalar pindent literal c with
  | COk tk c' => exists v e, tk = mkToken (TScalar (utf8 v) (if literal then Literal else Folded)) (c_mark c) e false /\
      forall v' r, block_scalar literal pindent t v' r <-> v' = v /\ r = c_text c'
  | CErr e => let n := m_index (se_mark e) - (m_index (c_mark c) + 1) in
      se_problem e = SReader \/
      (se_problem e = SZeroIndent /\ zero_indent t n \/ se_problem e = SBlockHeaderEnd /\ bad_header t n \/ se_problem e = SBlockTab /\ bad_block_tab t n) /\
      forall v r, ~ block_scalar literal pindent t v r
  | CBad | CFuel => False
  end.
Proof. exact (block_exact literal pindent c x t). Qed.
Print Assumptions C65_block_scalars.
(* ">+1 #c" LF LF " a" LF " b" LF "  c" LF LF "d" in a collection at column 0 is LF "a b" LF " c" LF LF *)
Example C65_folded : exists e c', scan_block_scalar 0 false (mkCur [0x3E; 0x2B; 0x31; 0x20; 0x23; 0x63; 10; 10; 0x20; 0x61; 10; 0x20; 0x62; 10; 0x20; 0x20; 0x63; 10; 10; 0x64] 1 [] false mark0) =
  COk (mkToken (TScalar (utf8 [10; 0x61; 0x20; 0x62; 10; 0x20; 0x63; 10; 10]) Folded) mark0 e false) c' /\ c_text c' = [0x64].
Proof. eexists. eexists. vm_compute. split; reflexivity. Qed.
(* "|-" LF "   a" LF "    b" LF: the indentation is that of the first line *)
Example C65_literal : exists e c', scan_block_scalar (-1) true (mkCur [0x7C; 0x2D; 10; 0x20; 0x20; 0x20; 0x61; 10; 0x20; 0x20; 0x20; 0x20; 0x62; 10] 1 [] false mark0) =
  COk (mkToken (TScalar (utf8 [0x61; 10; 0x20; 0x62]) Literal) mark0 e false) c' /\ c_text c' = [].
Proof. eexists. eexists. vm_compute. split; reflexivity. Qed.
Example C65_spec : block_scalar true (-1) ([0x2D] ++ [] ++ [10] ++ [0x20; 0x20] ++ [0x61; 10]) [0x61] [].
Proof.
  eapply (block_text true (-1) [0x2D] (Some false) 0 [] [10] [0x20; 0x20] [] 2).
  - apply header_sign; [right; reflexivity|]. intros [H _]. revert H. compute. auto.
  - exists [], []. repeat split; [constructor|]. left. split; [reflexivity|discriminate].
  - left. exists 10. auto.
  - apply (lines_blank _ [10] [0x20] [] 1 0x20); [|split; [reflexivity|left; reflexivity]]. apply (lines_blank _ [10] [] [] 0 0x20); [constructor|split; [reflexivity|left; reflexivity]].
  - split; [reflexivity|]. intros _. split; discriminate.
  - apply (block_line true (Some false) 2 false [] [] 2 [0x61] [10] [] [] 0 [] [] []); [reflexivity|discriminate|repeat constructor|left; exists 10; auto|constructor| |].
    + split; [reflexivity|]. intros _. split; discriminate.
    + apply block_end. right. reflexivity.
Qed.
Example C65_zero : exists e, scan_block_scalar 0 true (mkCur [0x7C; 0x2B; 0x30; 10] 1 [] false mark0) = CErr e /\ se_problem e = SZeroIndent /\ m_index (se_mark e) = 2.
Proof. eexists. vm_compute. repeat split; reflexivity. Qed.
Example C65_header : exists e, scan_block_scalar 0 true (mkCur [0x7C; 0x20; 0x61; 10] 1 [] false mark0) = CErr e /\ se_problem e = SBlockHeaderEnd /\ m_index (se_mark e) = 2.
Proof. eexists. vm_compute. repeat split; reflexivity. Qed.
Example C65_tab : exists e, scan_block_scalar 0 true (mkCur [0x7C; 10; 9; 0x61] 1 [] false mark0) = CErr e /\ se_problem e = SBlockTab /\ m_index (se_mark e) = 2.
Proof. eexists. vm_compute. repeat split; reflexivity. Qed.

(* C66: behind '&' or '*' ([x]) a name is read if, and only if, letters, digits, '-' and '_'
   stand there, and behind them white space or one of ? : , ] } % @ ` *)
Theorem C66_anchors anchor c x t : (1 <= c_unread c)%nat -> c_text c = x :: t ->
  match scan_anchor anchor c with
  | COk tk c' => exists s, tk = mkToken (if anchor then TAnchor s else TAlias s) (c_mark c) (c_mark c') false /\
      forall s' r, anchor_text t s' r <-> s' = s /\ r = c_text c'
  | CErr e => se_problem e = SReader \/ forall s r, ~ anchor_text t s r
  | CBad | CFuel => False
  end.
Proof. exact (anchor_exact anchor c x t). Qed.
Print Assumptions C66_anchors.
(* "&a-1,": the comma is left *)
Example C66_anchor : exists e c', scan_anchor true (mkCur [0x26; 0x61; 0x2D; 0x31; 0x2C] 1 [] false mark0) = COk (mkToken (TAnchor [0x61; 0x2D; 0x31]) mark0 e false) c' /\ c_text c' = [0x2C].
Proof. eexists. eexists. vm_compute. split; reflexivity. Qed.
Example C66_spec : anchor_text [0x61; 0x2D; 0x31; 0x2C] [0x61; 0x2D; 0x31] [0x2C].
Proof. split; [reflexivity|]. split; [discriminate|]. split; [repeat constructor|]. right. right. right. left. reflexivity. Qed.
(* "*a.b" *)
Example C66_refused : exists e, scan_anchor false (mkCur [0x2A; 0x61; 0x2E; 0x62] 1 [] false mark0) = CErr e /\ se_problem e = SAnchorChar.
Proof. eexists. vm_compute. split; reflexivity. Qed.

(* C67: behind '!' a tag is read as the specification says, which says one thing only, and
   if it says nothing there is an error. *)
Theorem C67_tags flow c t : c_text c = 0x21 :: t ->
  match scan_tag flow c with
  | COk tk c' => exists h s, tk = mkToken (TTag h s) (c_mark c) (c_mark c') false /\
      forall h' s' r, tag_text flow t h' s' r <-> h' = h /\ s' = s /\ r = c_text c'
  | CErr e => se_problem e = SReader \/ forall h s r, ~ tag_text flow t h s r
  | CBad | CFuel => False
  end.
Proof. exact (tag_exact flow c t). Qed.
Print Assumptions C67_tags.
(* "!e!a%C3%A9 ", with two bytes escaped *)
Example C67_named : exists e c', scan_tag false (mkCur [0x21; 0x65; 0x21; 0x61; 0x25; 0x43; 0x33; 0x25; 0x41; 0x39; 0x20] 1 [] false mark0) =
  COk (mkToken (TTag [0x21; 0x65; 0x21] [0x61; 0xC3; 0xA9]) mark0 e false) c' /\ c_text c' = [0x20].
Proof. eexists. eexists. vm_compute. split; reflexivity. Qed.
Example C67_spec : tag_text false ([0x65] ++ 0x21 :: [0x61; 0x25; 0x43; 0x33; 0x25; 0x41; 0x39] ++ [0x20]) (0x21 :: [0x65] ++ [0x21]) (up_to_nul [0x61; 0xC3; 0xA9]) [0x20].
Proof.
  apply tag_named; [repeat constructor|discriminate| |left; reflexivity]. apply uri_one; [left; reflexivity|].
  apply (uri_escape false [0x25; 0x43; 0x33; 0x25; 0x41; 0x39] [0xC3; 0xA9] [] []).
  - apply (octets_more 0x43 0x33 [0x25; 0x41; 0x39] [0xA9]); [reflexivity|reflexivity|]. apply (octets_more 0x41 0x39 [] []); [reflexivity|reflexivity|]. apply octets_none.
  - split; [reflexivity|]. constructor; [|constructor]. split; [discriminate|reflexivity].
  - apply uri_end.
Qed.
(* "!<a,b>": the comma belongs to it; "!a,b" is the tag "!a" in flow context and refused in block context *)
Example C67_verbatim : exists e c', scan_tag false (mkCur [0x21; 0x3C; 0x61; 0x2C; 0x62; 0x3E] 1 [] false mark0) = COk (mkToken (TTag [] [0x61; 0x2C; 0x62]) mark0 e false) c' /\ c_text c' = [].
Proof. eexists. eexists. vm_compute. split; reflexivity. Qed.
Example C67_flow : exists e c', scan_tag true (mkCur [0x21; 0x61; 0x2C; 0x62] 1 [] false mark0) = COk (mkToken (TTag [0x21] [0x61]) mark0 e false) c' /\ c_text c' = [0x2C; 0x62].
Proof. eexists. eexists. vm_compute. split; reflexivity. Qed.
Example C67_block : exists e, scan_tag false (mkCur [0x21; 0x61; 0x2C; 0x62] 1 [] false mark0) = CErr e /\ se_problem e = STagEnd.
Proof. eexists. vm_compute. split; reflexivity. Qed.
(* "!a%00b" is read as "!a": what follows an escaped zero byte is lost *)
Example C67_nul : exists e c', scan_tag false (mkCur [0x21; 0x61; 0x25; 0x30; 0x30; 0x62] 1 [] false mark0) = COk (mkToken (TTag [0x21] [0x61]) mark0 e false) c' /\ c_text c' = [].
Proof. eexists. eexists. vm_compute. split; reflexivity. Qed.

(* C68: behind '%' ([x]) a line with a %YAML or %TAG directive is read as the specification
   says, which says one thing only, and if it says nothing there is an error; in
   particular other directives are refused. *)
Theorem C68_directives c x t : (1 <= c_unread c)%nat -> c_text c = x :: t ->
  match scan_directive c with
  | COk tk c' => exists d e, tk = mkToken d (c_mark c) e false /\
      forall d' r, (exists r1, directive_text t d' r1 /\ line_end r1 r) <-> d' = d /\ r = c_text c'
  | CErr e => se_problem e = SReader \/ forall d r1 r, ~ (directive_text t d r1 /\ line_end r1 r)
  | CBad | CFuel => False
  end.
Proof. exact (directive_exact c x t). Qed.
Print Assumptions C68_directives.
(* "%YAML 1.2 #c" CR LF "-" *)
Example C68_version : exists e c', scan_directive (mkCur [0x25; 0x59; 0x41; 0x4D; 0x4C; 0x20; 0x31; 0x2E; 0x32; 0x20; 0x23; 0x63; 13; 10; 0x2D] 1 [] false mark0) =
  COk (mkToken (TVersion 1 2) mark0 e false) c' /\ c_text c' = [0x2D].
Proof. eexists. eexists. vm_compute. split; reflexivity. Qed.
Example C68_spec : directive_text ([0x59; 0x41; 0x4D; 0x4C] ++ [0x20] ++ [0x31] ++ 0x2E :: [0x32] ++ [0x20; 0x23; 0x63; 13; 10; 0x2D]) (TVersion 1 2) [0x20; 0x23; 0x63; 13; 10; 0x2D] /\
  line_end [0x20; 0x23; 0x63; 13; 10; 0x2D] [0x2D].
Proof.
  split.
  - apply directive_version; [discriminate|repeat constructor| | |reflexivity]; (split; [discriminate|]; split; [cbn; auto with arith|]; split; [repeat constructor|reflexivity]).
  - exists [0x20; 0x23; 0x63], [13; 10; 0x2D], [13; 10]. split; [reflexivity|]. split.
    + exists [0x20], [0x23; 0x63]. split; [reflexivity|]. split; [repeat constructor|]. split; [reflexivity|]. right. exists [0x63]. split; [reflexivity|]. split; [repeat constructor|reflexivity].
    + split; [reflexivity|]. left. split; [right; reflexivity|discriminate].
Qed.
(* "%TAG !e! a:b" *)
Example C68_tag : exists e c', scan_directive (mkCur [0x25; 0x54; 0x41; 0x47; 0x20; 0x21; 0x65; 0x21; 0x20; 0x61; 0x3A; 0x62] 1 [] false mark0) =
  COk (mkToken (TTagDirective [0x21; 0x65; 0x21] [0x61; 0x3A; 0x62]) mark0 e false) c' /\ c_text c' = [].
Proof. eexists. eexists. vm_compute. split; reflexivity. Qed.
(* "%FOO a": a directive of another name *)
Example C68_unknown : exists e, scan_directive (mkCur [0x25; 0x46; 0x4F; 0x4F; 0x20; 0x61; 10] 1 [] false mark0) = CErr e /\ se_problem e = SUnknownDirective.
Proof. eexists. vm_compute. split; reflexivity. Qed.
