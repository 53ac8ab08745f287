(* The texts that the emitter writes for a node, as a grammar.  Between EmitText (the
   emitter writes such a text) and ReadText (the scanner reads it as that node). *)
From Verif Require Import Base ReaderModel Utf8Spec CharSpec Types WriterModel WriterSpec PenModel PenText TreeSpec GrammarSpec RoundSpec TagRun DoubleTrip SingleTrip PlainTrip BlockTrip.
From Verif Require ScanStep.

Section Text.
Variables (g : cfg) (e : env).

(* ---- anchor and tag ---- *)
Inductive tag_is : list N -> list N -> list N -> list N -> Prop :=
| Tag_is h x hd s t : tag_fits h x -> tag_tok h x = TTag hd s -> resolves e hd s t -> tag_is (tag_text h x) hd s t.
Definition anchor_ok (a : list N) : Prop := a <> [] /\ Forall (fun c => is_alpha c = true) a.
Inductive ptext : option (list N) -> option (list N) -> list N -> list tok -> Prop :=
| PT_none : ptext None None [] []
| PT_anchor a : anchor_ok a -> ptext (Some a) None (0x26 :: a) [TAnchor a]
| PT_tag w h s t : tag_is w h s t -> ptext None (Some t) w [TTag h s]
| PT_both a w h s t : anchor_ok a -> tag_is w h s t -> ptext (Some a) (Some t) (0x26 :: a ++ 0x20 :: w) [TAnchor a; TTag h s].
(* what stands between them and the content *)
Definition sep (pw : list N) : list N := match pw with [] => [] | _ => [0x20] end.

(* ---- scalars ---- *)
Definition plain_lead (flow : bool) (s : list N) : Prop :=
  ScanStep.starts s /\ ScanStep.plain_begins flow (next s) (tl s).
Inductive stext (flow : bool) (n : nat) : list N -> sstyle -> list N -> Prop :=
| ST_double s w : dq (break_chars g) false s w -> stext flow n s DoubleQuoted (0x22 :: w ++ [0x22])
| ST_single s w : sq g InWord s w -> stext flow n s SingleQuoted (0x27 :: w ++ [0x27])
| ST_plain s w : plain_string flow s -> plain_lead flow s -> pq g n InWord s w -> stext flow n s Plain w.
Definition read_scalar (a t : option (list N)) (s : list N) (style : sstyle) : tree :=
  Scalar a t (utf8 s) (plain_implicit_of t style) (quoted_implicit_of t style) style.
Inductive leaf (flow : bool) (n : nat) : tree -> list N -> list tok -> Prop :=
| L_alias a : anchor_ok a -> leaf flow n (Alias a) (0x2A :: a) [TAlias a]
| L_scalar a t pw pt s style w : ptext a t pw pt -> stext flow n s style w ->
    leaf flow n (read_scalar a t s style) (pw ++ sep pw ++ w) (pt ++ [TScalar (utf8 s) style]).
(* the indentation of the lines of a scalar, and of the items of a flow collection *)
Definition content_indent (ind : Z) : Z := if (ind <? 0)%Z then g_indent g else (ind + g_indent g)%Z.
Notation width ind := (Z.to_nat (content_indent ind)).

(* ---- simple keys: the text, and a space after an alias ---- *)
Inductive ktext (flow : bool) (ind : Z) : tree -> list N -> list N -> Prop :=
| K_leaf x w ts tail : leaf flow (width ind) x w ts -> tail = [] \/ tail = [0x20] ->
    existsb is_break w = false -> (length w <= 1000)%nat -> ktext flow ind x w tail
| K_seq a t pw pt : ptext a t pw pt -> (length pw <= 900)%nat ->
    ktext flow ind (Sequence a t (implicit_of t) FlowColl []) (pw ++ sep pw ++ [0x5B; 0x5D]) []
| K_map a t pw pt : ptext a t pw pt -> (length pw <= 900)%nat ->
    ktext flow ind (Mapping a t (implicit_of t) FlowColl []) (pw ++ sep pw ++ [0x7B; 0x7D]) [].

(* ---- flow collections ---- *)
Inductive ftext : Z -> tree -> list N -> Prop :=
| F_leaf ind x w ts : leaf true (width ind) x w ts -> ftext ind x w
| F_coll ind x w : ctext ind x w -> ftext ind x w
(* a flow collection, anywhere *)
with ctext : Z -> tree -> list N -> Prop :=
| C_seq ind a t pw pt xs w : ptext a t pw pt -> fseq (content_indent ind) xs w ->
    ctext ind (Sequence a t (implicit_of t) FlowColl xs) (pw ++ sep pw ++ 0x5B :: w)
| C_map ind a t pw pt ps w : ptext a t pw pt -> fmap (content_indent ind) ps w ->
    ctext ind (Mapping a t (implicit_of t) FlowColl ps) (pw ++ sep pw ++ 0x7B :: w)
(* after '[' or ',' *)
with fseq : Z -> list tree -> list N -> Prop :=
| FQ_end ind ws : white_text ws -> fseq ind [] (ws ++ [0x5D])
| FQ_item ind x xs ws w w' : white_text ws -> ftext ind x w -> fseq_tail ind xs w' -> fseq ind (x :: xs) (ws ++ w ++ w')
(* after an item *)
with fseq_tail : Z -> list tree -> list N -> Prop :=
| FQT_end ind : fseq_tail ind [] [0x5D]
| FQT_comma ind xs w : fseq ind xs w -> fseq_tail ind xs (0x2C :: w)
with fmap : Z -> list (tree * tree) -> list N -> Prop :=
| FM_end_ ind ws : white_text ws -> fmap ind [] (ws ++ [0x7D])
| FM_simple ind k v ps ws kw tail vw w' : white_text ws -> ktext true ind k kw tail -> ftext ind v vw -> fmap_tail ind ps w' ->
    fmap ind ((k, v) :: ps) (ws ++ kw ++ tail ++ 0x3A :: 0x20 :: vw ++ w')
| FM_explicit ind k v ps ws kw ws' vw w' : white_text ws -> ftext ind k kw -> white_text ws' -> ftext ind v vw -> fmap_tail ind ps w' ->
    fmap ind ((k, v) :: ps) (ws ++ 0x3F :: 0x20 :: kw ++ ws' ++ 0x3A :: 0x20 :: vw ++ w')
with fmap_tail : Z -> list (tree * tree) -> list N -> Prop :=
| FMT_end ind : fmap_tail ind [] [0x7D]
| FMT_comma ind ps w : fmap ind ps w -> fmap_tail ind ps (0x2C :: w).

(* ---- block collections ---- *)
(* [nl]: the text ends with a line break *)
Definition brk (nl : bool) : list N := if nl then [] else break_chars g.
Definition spaces (z : Z) : list N := repeat 0x20 (Z.to_nat z).
(* a new line indented [j], or, in a compact collection, from column [c] to column [j] *)
Definition pad (comp : option Z) (j : Z) : list N :=
  match comp with None => break_chars g ++ spaces j | Some c => spaces (j - c) end.
Definition pad_ok (white : bool) (comp : option Z) (j : Z) : Prop :=
  match comp with None => True | Some c => (c <= j)%Z /\ (white = false -> (c < j)%Z) end.
Definition gap_text (white : bool) : list N := if white then [] else [0x20].
Definition inner (ind : Z) : Z := if (ind <? 0)%Z then 0%Z else (ind + g_indent g)%Z.

(* [white], [comp]: the last character written is white space; it is in the indentation,
   or an indicator in the indentation, in which case [comp] is the column *)
Inductive btext : bool -> Z -> bool -> option Z -> tree -> list N -> list N -> bool -> Prop :=
| B_leaf mapping ind white comp x w ts : leaf false (width ind) x w ts -> btext mapping ind white comp x (gap_text white) w false
| B_coll mapping ind white comp x w : ctext ind x w -> btext mapping ind white comp x (gap_text white) w false
| B_null mapping ind white comp : btext mapping ind white comp null [] [] false
| B_empty mapping ind white comp a t pw pt : ptext a t pw pt -> pw <> [] ->
    btext mapping ind white comp (Scalar a t [] (implicit_of t) false Plain) (gap_text white) pw false
| B_block mapping ind white comp a t pw pt (literal : bool) s d w : ptext a t pw pt -> s <> [] -> digit_ok d -> header_fits ind (width ind) s d ->
    bt g literal (width ind) (AtBreak Kept) s w ->
    btext mapping ind white comp (read_scalar a t s (if literal then Literal else Folded)) (gap_text white)
      (pw ++ sep pw ++ (if literal then 0x7C else 0x3E) :: digit_text d ++ chomp_text (chomp_of (tail_breaks 1 s)) ++ break_chars g ++ w) (is_break (last s 0))
| B_seq mapping ind white comp xs w nl : pad_ok white comp (inner ind) -> bseq (inner ind) xs w nl ->
    btext mapping ind white comp (Sequence None None true BlockColl xs) (pad comp (inner ind)) w nl
| B_seq_props mapping ind white comp a t pw pt xs w nl : ptext a t pw pt -> pw <> [] -> bseq (inner ind) xs w nl ->
    btext mapping ind white comp (Sequence a t (implicit_of t) BlockColl xs) (gap_text white) (pw ++ pad None (inner ind) ++ w) nl
| B_indentless ind white xs w nl : (0 <= ind)%Z -> bseq ind xs w nl ->
    btext true ind white None (Sequence None None true BlockColl xs) (pad None ind) w nl
| B_indentless_props ind white comp a t pw pt xs w nl : (0 <= ind)%Z -> ptext a t pw pt -> pw <> [] -> bseq ind xs w nl ->
    btext true ind white comp (Sequence a t (implicit_of t) BlockColl xs) (gap_text white) (pw ++ pad None ind ++ w) nl
| B_map mapping ind white comp ps w nl : pad_ok white comp (inner ind) -> bmap (inner ind) ps w nl ->
    btext mapping ind white comp (Mapping None None true BlockColl ps) (pad comp (inner ind)) w nl
| B_map_props mapping ind white comp a t pw pt ps w nl : ptext a t pw pt -> pw <> [] -> bmap (inner ind) ps w nl ->
    btext mapping ind white comp (Mapping a t (implicit_of t) BlockColl ps) (gap_text white) (pw ++ pad None (inner ind) ++ w) nl
(* from the first '-', at column [j] *)
with bseq : Z -> list tree -> list N -> bool -> Prop :=
| BQ_one j x ws w nl : btext false j false (Some (j + 1)%Z) x ws w nl -> bseq j [x] (0x2D :: ws ++ w) nl
| BQ_more j x xs ws w nl w' nl' : btext false j false (Some (j + 1)%Z) x ws w nl -> bseq j xs w' nl' ->
    bseq j (x :: xs) (0x2D :: ws ++ w ++ brk nl ++ spaces j ++ w') nl'
(* from the first key or '?', at column [j] *)
with bmap : Z -> list (tree * tree) -> list N -> bool -> Prop :=
| BM_one j p w nl : bpair j p w nl -> bmap j [p] w nl
| BM_more j p ps w nl w' nl' : bpair j p w nl -> bmap j ps w' nl' -> bmap j (p :: ps) (w ++ brk nl ++ spaces j ++ w') nl'
with bpair : Z -> tree * tree -> list N -> bool -> Prop :=
| BP_simple j k v kw tail ws w nl : ktext false j k kw tail -> btext true j false None v ws w nl ->
    bpair j (k, v) (kw ++ tail ++ 0x3A :: ws ++ w) nl
| BP_explicit j k v ks kw knl ws w nl : btext true j false (Some (j + 1)%Z) k ks kw knl -> btext true j false (Some (j + 1)%Z) v ws w nl ->
    bpair j (k, v) (0x3F :: ks ++ kw ++ brk knl ++ spaces j ++ 0x3A :: ws ++ w) nl.
End Text.
