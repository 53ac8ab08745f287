(* Properties C37-C43: what the emitter writes for a node is what the scanner reads.
   Statements only. *)
From Verif Require Import Base Utf8Spec ReaderModel CharSpec Types CursorModel ScanModel WriterModel WriterSpec ParserModel PenModel EmitModel EmitSpec RoundSpec DoubleTrip SingleTrip PlainTrip BlockTrip FoldExact TagTrip TagExact.

(* C37: for every string of Unicode characters, every indentation (the emitter's are at
   least 2), line width, line break, unicode setting and state of the line, what is
   written is at most a space and then a text that scans as exactly that string,
   whatever follows. *)
Theorem C37_double_quoted g i s allow p : (1 <= i)%Z -> g_break g <> AnyBreak -> Forall scalar_value s ->
  exists sp w, (sp = [] \/ sp = [0x20]) /\ written (write_double g i s allow p) = written p ++ sp ++ w /\
    forall rest, scans_as (scan_flow_scalar false) w s DoubleQuoted rest.
Proof. exact (double_round_trip g i s allow p). Qed.
Print Assumptions C37_double_quoted.
(* a  b<TAB>c with a fold between the spaces, after "k: " *)
Definition dq_cfg : cfg := mkCfg Utf8Enc false 2 3 false CrLnBreak.
Definition dq_value : list N := [97; 0x20; 0x20; 98; 9; 0x20; 0xE9].
Definition dq_pen : pen := mkPen [CPut [107]; CPut [58]] 2 false false 0.
Example C37_meets : (1 <= 2)%Z /\ g_break dq_cfg <> AnyBreak /\ Forall scalar_value dq_value.
Proof. split; [lia|]. split; [discriminate|]. repeat constructor; unfold scalar_value; lia. Qed.
Example C37_text : written (write_double dq_cfg 2 dq_value true dq_pen) =
  [107; 58] ++ [0x20] ++ [34; 97; 13; 10; 32; 32; 92; 32; 98; 92; 116; 13; 10; 32; 32; 92; 120; 69; 57; 34].
Proof. vm_compute. reflexivity. Qed.
Example C37_at_text : at_text (mkCur ([34; 97; 34] ++ [10]) 2 [] false (mkMark 0 0 0)) ([34; 97; 34] ++ [10]).
Proof. repeat split; cbn; lia. Qed.

(* C38: for every string whose analysis allows the plain style in the context ([flow]),
   what is written is at most a space and then a text that scans, in that context, as one
   plain scalar with exactly that value, up to where the plain scalar ends: the end of
   input, ": ", a flow indicator, a comment, a dedent or a document marker, after
   whatever white space.  In block context the scanner's indentation is smaller than the
   emitter's, and not beyond the column of the scalar. *)
Theorem C38_plain g i fl s allow p d (flow : bool) pindent : (1 <= i)%Z -> g_break g <> AnyBreak -> s <> [] ->
  (if flow then a_flow_plain (analyze_scalar (g_unicode g) s d) else a_block_plain (analyze_scalar (g_unicode g) s d)) = true ->
  exists sp w, (sp = [] \/ sp = [0x20]) /\ written (write_plain g i fl s allow p) = written p ++ sp ++ w /\
    forall white r c, at_text c (w ++ white ++ r) -> white_text white -> plain_ends flow pindent white r ->
      flow = true \/ (pindent < i)%Z /\ (pindent <= Z.of_N (m_column (c_mark c)))%Z ->
      exists c' e, scan_plain_scalar flow pindent c = COk (mkToken (TScalar (utf8 s) Plain) (c_mark c) e false, existsb is_break white) c' /\ c_text c' = r.
Proof. exact (plain_round_trip g i fl s allow p d flow pindent). Qed.
Print Assumptions C38_plain.
(* "a -b#c:d e" after "k:" with a fold, followed by a less indented line *)
Definition pl_value : list N := [97; 0x20; 45; 98; 35; 99; 58; 100; 0x20; 101].
Example C38_meets : a_block_plain (analyze_scalar (g_unicode dq_cfg) pl_value no_data) = true /\
  plain_ends false 0 [13; 10] [107; 58] /\ white_text [13; 10].
Proof.
  split; [vm_compute; reflexivity|]. split.
  - right. right. right. right. left. split; [reflexivity|]. split; [reflexivity|]. exists [13], 10, 0%nat. split; [reflexivity|]. split; [reflexivity|lia].
  - constructor; [right; reflexivity|]. constructor; [right; reflexivity|constructor].
Qed.
Example C38_text : written (write_plain dq_cfg 2 0 pl_value true dq_pen) =
  [107; 58] ++ [0x20] ++ [97; 13; 10; 32; 32; 45; 98; 35; 99; 58; 100; 13; 10; 32; 32; 101].
Proof. vm_compute. reflexivity. Qed.

(* C39: the same for the single-quoted style. *)
Theorem C39_single_quoted g i s allow p d : (1 <= i)%Z -> g_break g <> AnyBreak ->
  a_single (analyze_scalar (g_unicode g) s d) = true ->
  exists sp w, (sp = [] \/ sp = [0x20]) /\ written (write_single g i s allow p) = written p ++ sp ++ w /\
    forall rest, nth 0 rest 0 <> 0x27 -> scans_as (scan_flow_scalar true) w s SingleQuoted rest.
Proof. exact (single_round_trip g i s allow p d). Qed.
Print Assumptions C39_single_quoted.
(* "a  b'<LF>c d" *)
Definition sq_value : list N := [97; 0x20; 0x20; 98; 0x27; 10; 99; 0x20; 100].
Example C39_meets : a_single (analyze_scalar (g_unicode dq_cfg) sq_value no_data) = true.
Proof. vm_compute. reflexivity. Qed.
Example C39_text : written (write_single dq_cfg 2 sq_value true dq_pen) =
  [107; 58] ++ [0x20] ++ [39; 97; 32; 32; 98; 39; 39; 13; 10; 13; 10; 32; 32; 99; 32; 100; 39].
Proof. vm_compute. reflexivity. Qed.

(* C40: for every string whose analysis allows the block styles, at every indentation
   (that of the parent node, which the scanner also has, increased by the emitter's
   step), what is written is at most a space and then a text that scans as exactly that
   string, whatever less indented line follows. *)
Theorem C40_literal g i s p d pindent : g_break g <> AnyBreak -> (2 <= g_indent g <= 9)%Z ->
  ((pindent = -1 /\ i = g_indent g) \/ (0 <= pindent /\ i = pindent + g_indent g))%Z ->
  a_block (analyze_scalar (g_unicode g) s d) = true ->
  exists sp w, (sp = [] \/ sp = [0x20]) /\ written (write_literal g i s p) = written p ++ sp ++ w /\
    forall rest r c, block_ends i s rest r -> at_text c (w ++ rest) ->
      exists c' e, scan_block_scalar pindent true c = COk (mkToken (TScalar (utf8 s) Literal) (c_mark c) e false) c' /\ c_text c' = r.
Proof. intros B I P A. apply (block_round_trip g i s p d true pindent B I P A). discriminate. Qed.
Print Assumptions C40_literal.
(* " a<LF><LF>b<LF>" as the value of a key *)
Definition bl_value : list N := [0x20; 97; 10; 10; 98; 10].
Example C40_meets : a_block (analyze_scalar (g_unicode dq_cfg) bl_value no_data) = true /\ block_ends 2 bl_value [107] [107].
Proof. split; [vm_compute; reflexivity|]. exists [], 0%nat. repeat split; lia. Qed.
Example C40_text : written (write_literal dq_cfg 2 bl_value dq_pen) =
  [107; 58] ++ [0x20] ++ [124; 50; 13; 10; 32; 32; 32; 97; 13; 10; 13; 10; 32; 32; 98; 13; 10].
Proof. vm_compute. reflexivity. Qed.

(* C41: the same for the folded style, provided the emitter folds no line that starts with
   a space. *)
Theorem C41_folded g i s p d pindent : g_break g <> AnyBreak -> (2 <= g_indent g <= 9)%Z ->
  ((pindent = -1 /\ i = g_indent g) \/ (0 <= pindent /\ i = pindent + g_indent g))%Z ->
  a_block (analyze_scalar (g_unicode g) s d) = true -> indented_lines_fit i (g_width g) s ->
  exists sp w, (sp = [] \/ sp = [0x20]) /\ written (write_folded g i s p) = written p ++ sp ++ w /\
    forall rest r c, block_ends i s rest r -> at_text c (w ++ rest) ->
      exists c' e, scan_block_scalar pindent false c = COk (mkToken (TScalar (utf8 s) Folded) (c_mark c) e false) c' /\ c_text c' = r.
Proof. intros B I P A N. apply (block_round_trip g i s p d false pindent B I P A). intros _. exact N. Qed.
Print Assumptions C41_folded.
(* "a bc d<LF><LF>e<LF> f<LF>" with folds *)
Definition fo_cfg : cfg := mkCfg Utf8Enc false 2 5 false LnBreak.
Definition fo_value : list N := [97; 0x20; 98; 99; 0x20; 100; 10; 10; 101; 10; 0x20; 102; 10].
Example C41_meets : a_block (analyze_scalar (g_unicode fo_cfg) fo_value no_data) = true /\ indented_lines_fit 2 5 fo_value.
Proof.
  split; [vm_compute; reflexivity|]. intros u l v E U L.
  do 13 (destruct u as [|? u]; [cbn in E; injection E; intros; subst; clear E; first [discriminate|destruct U as [U|U]; discriminate U|
    destruct l as [|? l]; [cbn; lia|]; cbn in *; match goal with H : _ :: _ = _ |- _ => injection H; intros; subst; clear H end; destruct l as [|? l]; [cbn; lia|];
    match goal with H : _ :: _ = _ |- _ => injection H; intros; subst; clear H end; discriminate L]|]).
  cbn in E. destruct u; discriminate E.
Qed.
Example C41_text : written (write_folded fo_cfg 2 fo_value dq_pen) =
  [107; 58] ++ [0x20] ++ [62; 10; 32; 32; 97; 32; 98; 99; 10; 32; 32; 100; 10; 10; 10; 32; 32; 101; 10; 32; 32; 32; 102; 10].
Proof. vm_compute. reflexivity. Qed.
(* C41, exactly which strings come back: whatever the string, the text is scanned as one
   folded scalar, up to the same place, and its value is the string if and only if no line
   that starts with a space is folded. *)
Theorem C41_exact g i s p d pindent : g_break g <> AnyBreak -> (2 <= g_indent g <= 9)%Z ->
  ((pindent = -1 /\ i = g_indent g) \/ (0 <= pindent /\ i = pindent + g_indent g))%Z ->
  a_block (analyze_scalar (g_unicode g) s d) = true ->
  exists sp w, (sp = [] \/ sp = [0x20]) /\ written (write_folded g i s p) = written p ++ sp ++ w /\
    forall rest r c, block_ends i s rest r -> at_text c (w ++ rest) ->
      exists v c' e, scan_block_scalar pindent false c = COk (mkToken (TScalar (utf8 v) Folded) (c_mark c) e false) c' /\ c_text c' = r /\
        (utf8 v = utf8 s <-> indented_lines_fit i (g_width g) s).
Proof. exact (folded_exact g i s p d pindent). Qed.
Print Assumptions C41_exact.
(* " a b<LF>c" at width 3: the first line is folded before "b" *)
Example C41_exact_meets : a_block (analyze_scalar (g_unicode fo_cfg) [0x20; 97; 0x20; 98; 10; 99] no_data) = true /\ ~ indented_lines_fit 2 3 [0x20; 97; 0x20; 98; 10; 99] /\
  written (write_folded (mkCfg Utf8Enc false 2 3 false LnBreak) 2 [0x20; 97; 0x20; 98; 10; 99] dq_pen) = [107; 58] ++ [0x20] ++ [62; 50; 45; 10; 32; 32; 32; 97; 10; 32; 32; 98; 10; 32; 32; 99].
Proof.
  split; [vm_compute; reflexivity|]. split; [|vm_compute; reflexivity]. intros H. specialize (H [] [97] [98; 10; 99] eq_refl (or_introl eq_refl) eq_refl ltac:(discriminate)). cbn in H. lia.
Qed.
(* Without that condition it fails: " a b c" at width 3 is read back with a line break
   where a space was (emitter.c:2344 folds a line that starts with a space). *)
Definition fold_bad : list N := [0x20; 97; 0x20; 98].
Theorem C41_folded_refuted : exists g i s p pindent, g_break g <> AnyBreak /\ (2 <= g_indent g <= 9)%Z /\ pindent = (-1)%Z /\ i = g_indent g /\
  a_block (analyze_scalar (g_unicode g) s no_data) = true /\
  exists w rest c, written (write_folded g i s p) = written p ++ w /\ block_ends i s rest [] /\ at_text c (w ++ rest) /\
    match scan_block_scalar pindent false c with
    | COk tk _ => t_tok tk = TScalar [0x20; 97; 10; 98] Folded
    | _ => False
    end.
Proof.
  exists (mkCfg Utf8Enc false 2 3 false LnBreak), 2%Z, fold_bad, (mkPen [] 0 true true 0), (-1)%Z. split; [discriminate|]. split; [cbn; lia|]. split; [reflexivity|]. split; [reflexivity|]. split; [vm_compute; reflexivity|].
  exists [62; 50; 45; 10; 32; 32; 32; 97; 10; 32; 32; 98], [10], (mkCur ([62; 50; 45; 10; 32; 32; 32; 97; 10; 32; 32; 98] ++ [10]) 14 [] false (mkMark 0 0 0)).
  split; [vm_compute; reflexivity|]. split; [exists [10], 0%nat; split; [reflexivity|]; split; [lia|]; split; [reflexivity|]; split; [reflexivity|]; left; exists 10; auto|]. split; [repeat split; cbn; lia|]. vm_compute. reflexivity.
Qed.
Print Assumptions C41_folded_refuted.

(* C42: for every set of tag directives the emitter may have (valid handles, each once)
   and every tag it accepts, what is written is at most a space and then a text that,
   wherever it stands, scans as one tag token, which the parser resolves, with the same
   directives, to exactly that tag.  This needs that the part of the tag that a
   directive's prefix does not cover has no ',', '[' or ']' (see C42_tags_refuted). *)
Theorem C42_tags (flow : bool) m t d : analyze_tag (m_tags m) t no_data = inr d ->
  Forall (fun td => valid_handle (fst td)) (m_tags m) -> NoDup (map fst (m_tags m)) -> Forall scalar_value t -> ~ In 0 t -> suffixes_ok (m_tags m) t ->
  exists sp w, (sp = [] \/ sp = [0x20]) /\ written (m_pen (process_tag (set_data m d))) = written (m_pen m) ++ sp ++ w /\
    forall rest c, tag_follow flow rest -> at_text c (w ++ rest) ->
    exists h s e c', scan_tag flow c = COk (mkToken (TTag h s) (c_mark c) e false) c' /\ c_text c' = rest /\ resolve_tag (utf8_tags (m_tags m)) h s = Some (utf8 t).
Proof. exact (tag_round_trip flow m t d). Qed.
Print Assumptions C42_tags.
Definition tag_emitter : emitter := set_tags (init_emitter dq_cfg) (([0x21; 101; 0x21], [0x21; 97; 58]) :: default_tags).
(* "!a:b!<é>" with %TAG !e! !a: *)
Definition tag_value : list N := [0x21; 97; 58; 98; 0x21; 60; 0xE9; 62].
Example C42_meets : (exists d, analyze_tag (m_tags tag_emitter) tag_value no_data = inr d /\
    written (m_pen (process_tag (set_data tag_emitter d))) = [0x20] ++ [33;101;33;98;37;50;49;37;51;67;37;67;51;37;65;57;37;51;69]) /\
  Forall (fun td => valid_handle (fst td)) (m_tags tag_emitter) /\ NoDup (map fst (m_tags tag_emitter)) /\ suffixes_ok (m_tags tag_emitter) tag_value.
Proof.
  split; [eexists; split; [reflexivity|vm_compute; reflexivity]|]. split.
  - constructor; [right; exists [101]; repeat constructor|]. constructor; [left; reflexivity|]. constructor; [right; exists []; repeat constructor|constructor].
  - split.
    + cbn. repeat constructor; cbn; intuition discriminate.
    + intros x (l1 & h & p & l2 & _ & E & _). unfold tag_value in E. assert (K : forall c, In c x -> In c [0x21; 97; 58; 98; 0x21; 60; 0xE9; 62]) by (intros c I; rewrite E; apply in_or_app; auto).
      repeat split; intros I; apply K in I; cbn in I; intuition discriminate.
Qed.

(* C42, exactly which tags come back: whatever the tag and the directives, the text that is
   written is read back as that tag if and only if what stands behind the handle, should a
   handle be written, has no ',', '[' or ']'. *)
Theorem C42_exact (flow : bool) m t d : analyze_tag (m_tags m) t no_data = inr d ->
  Forall (fun td => valid_handle (fst td)) (m_tags m) -> NoDup (map fst (m_tags m)) -> Forall scalar_value t -> ~ In 0 t ->
  exists sp w, (sp = [] \/ sp = [0x20]) /\ written (m_pen (process_tag (set_data m d))) = written (m_pen m) ++ sp ++ w /\
    forall rest c, tag_follow flow rest -> at_text c (w ++ rest) ->
    ((exists h s e c', scan_tag flow c = COk (mkToken (TTag h s) (c_mark c) e false) c' /\ c_text c' = rest /\ resolve_tag (utf8_tags (m_tags m)) h s = Some (utf8 t))
     <-> suffixes_ok (m_tags m) t).
Proof. exact (tag_exact flow m t d). Qed.
Print Assumptions C42_exact.
(* Besides the hypotheses as in C42_meets: behind "!e!" stands "b!<é>"; of "!a,b" the part
   behind "!" has a comma; "a,b" is written in full and comes back. *)
Example C42_exact_meets : shorthand (m_tags tag_emitter) tag_value [98; 0x21; 60; 0xE9; 62] /\
  shorthand (m_tags tag_emitter) [0x21; 97; 0x2C; 98] [97; 0x2C; 98] /\
  (exists d, analyze_tag (m_tags tag_emitter) [97; 0x2C; 98] no_data = inr d) /\ (forall x, ~ shorthand (m_tags tag_emitter) [97; 0x2C; 98] x) /\
  tag_follow false [0x20] /\ tag_follow true [0x2C].
Proof.
  split; [exists [], [0x21; 101; 0x21], [0x21; 97; 58], default_tags; repeat split; [discriminate|intros ? ? ? []]|].
  split. { exists [([0x21; 101; 0x21], [0x21; 97; 58])], [0x21], [0x21], (tl default_tags). split; [reflexivity|]. split; [reflexivity|]. split; [discriminate|]. intros h' p' y [[= <- <-]|[]] E. discriminate E. }
  split; [eexists; reflexivity|]. split; [|split; [left; reflexivity|right; auto]].
  intros x (l1 & h & p & l2 & E & Et & _). assert (I : In (h, p) (m_tags tag_emitter)) by (rewrite E; apply in_or_app; right; left; reflexivity).
  cbn in I. destruct I as [[= <- <-]|[[= <- <-]|[[= <- <-]|[]]]]; discriminate Et.
Qed.

(* With ',', '[' or ']' after the handle the text is read as another tag, or not at all:
   "!a,b" is read as "!a" in a flow collection and is an error elsewhere. *)
Theorem C42_tags_refuted : exists m t d w, m_tags m = default_tags /\ analyze_tag (m_tags m) t no_data = inr d /\ Forall scalar_value t /\ ~ In 0 t /\
  written (m_pen (process_tag (set_data m d))) = written (m_pen m) ++ w /\ at_text (mkCur (w ++ [0x20]) 5 [] false mark0) (w ++ [0x20]) /\
  (exists e, scan_tag false (mkCur (w ++ [0x20]) 5 [] false mark0) = CErr e) /\
  (exists h s e c', scan_tag true (mkCur (w ++ [0x20]) 5 [] false mark0) = COk (mkToken (TTag h s) mark0 e false) c' /\ resolve_tag (utf8_tags (m_tags m)) h s <> Some (utf8 t)).
Proof.
  exists (set_tags (set_pen (init_emitter dq_cfg) (mkPen [] 0 true true 0)) default_tags), [0x21; 97; 0x2C; 98]. eexists. exists [0x21; 97; 0x2C; 98].
  split; [reflexivity|]. split; [reflexivity|]. split; [repeat constructor; unfold scalar_value; lia|]. split; [cbn; intuition discriminate|]. split; [vm_compute; reflexivity|].
  split; [repeat split; cbn; lia|]. split; [eexists; vm_compute; reflexivity|]. do 4 eexists. split; [vm_compute; reflexivity|]. vm_compute. discriminate.
Qed.
Print Assumptions C42_tags_refuted.
