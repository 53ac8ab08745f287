(* What a text is made of: the tokens that are spelled by some of its characters, one
   after the other, with white space between them.  Written from the YAML 1.1 productions
   on top of LexSpec, without reference to the scanner.  The tokens that are not spelled
   by any character - the beginning and the end of the stream and of block collections,
   and the KEY before a key without '?' - are not the subject here (see C19 to C22). *)
From Verif Require Import Base Utf8Spec CharSpec Types ScannerSpec RoundSpec LexSpec.

(* - ? : , [ ] { } # & * ! | >, the two quotes, % @ ` *)
Definition indicators : list N :=
  [0x2D; 0x3F; 0x3A; 0x2C; 0x5B; 0x5D; 0x7B; 0x7D; 0x23; 0x26; 0x2A; 0x21; 0x7C; 0x3E; 0x27; 0x22; 0x25; 0x40; 0x60].
(* a plain scalar begins with another character, or with '-', and in block context '?' or
   ':', before something that is not white space *)
Definition plain_opens (flow : bool) (t : list N) : Prop :=
  is_blankz (head t) = false /\
  (~ In (head t) indicators \/
   is_blankz (nth 1 t 0) = false /\ (head t = 0x2D \/ flow = false /\ (head t = 0x3F \/ head t = 0x3A))).
Definition brackets : list (N * tok) :=
  [(0x5B, TFlowSeqStart); (0x5D, TFlowSeqEnd); (0x7B, TFlowMapStart); (0x7D, TFlowMapEnd); (0x2C, TFlowEntry)].

(* From [t] on, a token [k] is spelled up to [r].  [flow]: in flow context.  [first]: [t] is
   at the beginning of a line.  [indent]: the column of the innermost block collection, -1
   outside any.  [lb]: the line break behind a plain scalar has been passed over. *)
Inductive lexeme (flow first : bool) (indent : Z) : list N -> tok -> bool -> list N -> Prop :=
| lex_directive t k r1 r : first = true -> directive_text t k r1 -> line_end r1 r -> lexeme flow first indent (0x25 :: t) k false r
| lex_start r : first = true -> is_blankz (head r) = true -> lexeme flow first indent (0x2D :: 0x2D :: 0x2D :: r) TDocStart false r
| lex_end r : first = true -> is_blankz (head r) = true -> lexeme flow first indent (0x2E :: 0x2E :: 0x2E :: r) TDocEnd false r
| lex_bracket x k r : In (x, k) brackets -> lexeme flow first indent (x :: r) k false r
| lex_entry r : is_blankz (head r) = true -> lexeme flow first indent (0x2D :: r) TBlockEntry false r
| lex_key r : flow = true \/ is_blankz (head r) = true -> lexeme flow first indent (0x3F :: r) TKey false r
| lex_value r : flow = true \/ is_blankz (head r) = true -> lexeme flow first indent (0x3A :: r) TValue false r
| lex_alias t s r : anchor_text t s r -> lexeme flow first indent (0x2A :: t) (TAlias s) false r
| lex_anchor t s r : anchor_text t s r -> lexeme flow first indent (0x26 :: t) (TAnchor s) false r
| lex_tag t h s r : tag_text flow t h s r -> lexeme flow first indent (0x21 :: t) (TTag h s) false r
| lex_literal t v r : flow = false -> block_scalar true indent t v r -> lexeme flow first indent (0x7C :: t) (TScalar (utf8 v) Literal) false r
| lex_folded t v r : flow = false -> block_scalar false indent t v r -> lexeme flow first indent (0x3E :: t) (TScalar (utf8 v) Folded) false r
| lex_single t s r : quoted_text true t s r -> lexeme flow first indent (0x27 :: t) (TScalar s SingleQuoted) false r
| lex_double t s r : quoted_text false t s r -> lexeme flow first indent (0x22 :: t) (TScalar s DoubleQuoted) false r
| lex_plain t v r lb : plain_opens flow t -> (first = true -> ~ document_marker t) -> plain flow (indent + 1) t v r lb ->
    lexeme flow first indent t (TScalar (utf8 v) Plain) lb r.

(* the position of the rest [t] of the text [T] *)
Definition place (T t : list N) : mark := position T (length T - length t).
Definition col (T t : list N) : N := m_column (place T t).
(* the columns of the open block collections, from the innermost to the -1 below all of
   them, without those that are to the right of the column [c] *)
Fixpoint leave (c : Z) (blocks : list Z) : list Z :=
  match blocks with [] => [] | b :: bs => if (c <? b)%Z then leave c bs else blocks end.
Definition innermost (blocks : list Z) : Z := nth 0 blocks (-1)%Z.
(* one begins at the column [c], if that is further to the right *)
Definition enter (c : Z) (blocks : list Z) : list Z := if (innermost blocks <? c)%Z then c :: blocks else blocks.

(* A node before ':' is a key without '?', if that would have been allowed where it began,
   and it is on one line and has no more than 1024 characters.  [keys] has for every level
   of brackets the last place where such a node has begun. *)
Definition key_before (m : mark) (keys : list (option mark)) : option mark :=
  match nth 0 keys None with
  | Some k => if (m_line k =? m_line m) && (m_index m <=? m_index k + 1024) then Some k else None
  | None => None
  end.

(* What is different behind the token [k] at [m].  [flow]: the number of open brackets. *)
Definition flow_next (flow : N) (k : tok) : N :=
  match k with TFlowSeqStart | TFlowMapStart => flow + 1 | TFlowSeqEnd | TFlowMapEnd => flow - 1 | _ => flow end.
(* [blocks]: in block context, a collection begins with '-', '?', a key or a ':' without
   key; directives and the marks of documents end them all *)
Definition blocks_next (flow : bool) (m : mark) (keys : list (option mark)) (blocks : list Z) (k : tok) : list Z :=
  if flow then blocks else
  match k with
  | TVersion _ _ | TTagDirective _ _ | TDocStart | TDocEnd => leave (-1)%Z blocks
  | TBlockEntry | TKey => enter (Z.of_N (m_column m)) blocks
  | TValue => enter (Z.of_N (m_column (match key_before m keys with Some k => k | None => m end))) blocks
  | _ => blocks
  end.
(* [key]: a key may begin here *)
Definition key_next (flow : bool) (m : mark) (keys : list (option mark)) (k : tok) (lb : bool) : bool :=
  match k with
  | TFlowSeqStart | TFlowMapStart | TFlowEntry | TBlockEntry | TScalar _ Literal | TScalar _ Folded => true
  | TKey => negb flow
  | TValue => match key_before m keys with Some _ => false | None => negb flow end
  | TScalar _ Plain => lb
  | _ => false
  end.
Definition keys_next (flow key : bool) (m : mark) (keys : list (option mark)) (k : tok) : list (option mark) :=
  let noted := if key then Some m :: tl keys else keys in
  match k with
  | TFlowSeqStart | TFlowMapStart => None :: noted
  | TFlowSeqEnd | TFlowMapEnd => if flow then tl keys else None :: tl keys
  | TScalar _ Literal | TScalar _ Folded => None :: tl keys
  | TAlias _ | TAnchor _ | TTag _ _ | TScalar _ _ => noted
  | _ => None :: tl keys
  end.
(* In block context '-', '?' and a ':' without key may only be where a key may begin. *)
Definition permitted (flow key : bool) (m : mark) (keys : list (option mark)) (k : tok) : Prop :=
  flow = false -> match k with TBlockEntry | TKey => key = true | TValue => key_before m keys = None -> key = true | _ => True end.

(* the rest [t'] of the text is behind the white space at [t] *)
Definition passed (T : list N) (flow : N) (key : bool) (t t' : list N) (key1 : bool) : Prop :=
  gap (negb (flow =? 0)) key (col T t =? 0) t t' key1.
(* the block collections that [t'] is in: on a line to the left of some, those are over *)
Definition inside (T : list N) (flow : N) (blocks : list Z) (t' : list N) : list Z :=
  if flow =? 0 then leave (Z.of_N (col T t')) blocks else blocks.
Definition lexeme_at (T : list N) (flow : N) (blocks : list Z) (t' : list N) (k : tok) (lb : bool) (r : list N) : Prop :=
  lexeme (negb (flow =? 0)) (col T t' =? 0) (innermost (inside T flow blocks t')) t' k lb r.
(* The text [T] up to its rest [t] is read as the tokens [l]. *)
Inductive reads (T : list N) : N -> list Z -> bool -> list (option mark) -> list N -> list tok -> Prop :=
| reads_nothing : reads T 0 [(-1)%Z] true [None] T []
| reads_token flow blocks key keys t l t' key1 k lb r :
    reads T flow blocks key keys t l ->
    passed T flow key t t' key1 ->
    lexeme_at T flow blocks t' k lb r ->
    let f := negb (flow =? 0) in
    let m := place T t' in
    permitted f key1 m keys k ->
    reads T (flow_next flow k) (blocks_next f m keys (inside T flow blocks t') k) (key_next f m keys k lb) (keys_next f key1 m keys k) r (l ++ [k]).
(* ... to its end *)
Definition reads_all (T : list N) (l : list tok) : Prop :=
  exists flow blocks key keys t t' key1, reads T flow blocks key keys t l /\ passed T flow key t t' key1 /\ head t' = 0.
(* ... up to a place where no token is spelled, or one that is not allowed there *)
Definition reads_until (T : list N) (l : list tok) : Prop :=
  exists flow blocks key keys t t' key1, reads T flow blocks key keys t l /\ passed T flow key t t' key1 /\ head t' <> 0 /\
    forall k lb r, ~ (lexeme_at T flow blocks t' k lb r /\ permitted (negb (flow =? 0)) key1 (place T t') keys k).

(* the tokens that are spelled *)
Definition written (t : token) : bool :=
  match t_tok t with
  | TStreamStart _ | TStreamEnd | TBlockSeqStart | TBlockMapStart | TBlockEnd => false
  | TKey => m_index (t_start t) <? m_index (t_end t)
  | _ => true
  end.
Definition words (l : list token) : list tok := map t_tok (filter written l).
