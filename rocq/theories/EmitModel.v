(* Model of the emitter: emitter.c:281-1769 (look-ahead, state machine, analysis)
   and the emitter settings of api.c:346-378, 510-577.

   Simplifications: allocation succeeds; int overflow of indent and flow_level is
   not modelled; the strings of an event are lists of characters and, where C has a
   NUL terminated string, contain no NUL; root_context and sequence_context are never
   read and left out.  A failing write is dealt with outside (see PenModel). *)
From Verif Require Import Base Utf8Spec ReaderModel CharSpec Types WriterModel WriterSpec PenModel.

(* include/yaml.h:1499-1538 *)
Inductive estate :=
| StreamStart | FirstDocStart | DocStart | DocContent | DocEnd
| FlowSeqFirst | FlowSeqItem
| FlowMapFirst | FlowMapKey | FlowMapSimple | FlowMapValue
| BlockSeqFirst | BlockSeqItem
| BlockMapFirst | BlockMapKey | BlockMapSimple | BlockMapValue
| EndState.

(* emitter->problem *)
Inductive eproblem :=
| ExpectedStreamStart | ExpectedDocStart | ExpectedDocEnd | ExpectedNode | ExpectedNothing
| DuplicateTagDirective | IncompatibleVersion
| HandleEmpty | HandleStart | HandleEnd | HandleAlpha | PrefixEmpty
| AnchorEmpty | AnchorAlpha | TagEmpty | NoTagNoImplicit.

(* anchor_data, tag_data, scalar_data: include/yaml.h:1722-1766 *)
Record adata := mkAdata {
  a_anchor : option (list N); a_alias : bool;
  a_handle : option (list N); a_suffix : option (list N);
  a_value : list N;
  a_multiline : bool; a_flow_plain : bool; a_block_plain : bool; a_single : bool; a_block : bool }.
Definition no_data : adata := mkAdata None false None None [] false false false false false.

Record emitter := mkEmitter {
  m_cfg : cfg;
  m_pen : pen;
  m_state : estate; m_states : list estate;
  m_events : list ev;                         (* head first *)
  m_indent : Z; m_indents : list Z;
  m_flow : Z;
  m_tags : list tagdir;                       (* bottom first *)
  m_mapping : bool; m_simple : bool;          (* mapping_context, simple_key_context *)
  m_data : adata }.

(* return 1; return 0 with the problem, and the state left behind; undefined *)
Inductive eres := EOk (m : emitter) | EErr (x : eproblem) (m : emitter) | EBad.
Definition ebind (r : eres) (k : emitter -> eres) : eres := match r with EOk m => k m | x => x end.
Notation "m >>= k" := (ebind m k) (at level 50, left associativity).

Definition set_pen (m : emitter) (p : pen) : emitter :=
  mkEmitter (m_cfg m) p (m_state m) (m_states m) (m_events m) (m_indent m) (m_indents m) (m_flow m) (m_tags m) (m_mapping m) (m_simple m) (m_data m).
Definition set_state (m : emitter) (x : estate) : emitter :=
  mkEmitter (m_cfg m) (m_pen m) x (m_states m) (m_events m) (m_indent m) (m_indents m) (m_flow m) (m_tags m) (m_mapping m) (m_simple m) (m_data m).
Definition set_states (m : emitter) (x : estate) (l : list estate) : emitter :=
  mkEmitter (m_cfg m) (m_pen m) x l (m_events m) (m_indent m) (m_indents m) (m_flow m) (m_tags m) (m_mapping m) (m_simple m) (m_data m).
Definition set_events (m : emitter) (l : list ev) : emitter :=
  mkEmitter (m_cfg m) (m_pen m) (m_state m) (m_states m) l (m_indent m) (m_indents m) (m_flow m) (m_tags m) (m_mapping m) (m_simple m) (m_data m).
Definition set_indents (m : emitter) (x : Z) (l : list Z) : emitter :=
  mkEmitter (m_cfg m) (m_pen m) (m_state m) (m_states m) (m_events m) x l (m_flow m) (m_tags m) (m_mapping m) (m_simple m) (m_data m).
Definition set_flow (m : emitter) (x : Z) : emitter :=
  mkEmitter (m_cfg m) (m_pen m) (m_state m) (m_states m) (m_events m) (m_indent m) (m_indents m) x (m_tags m) (m_mapping m) (m_simple m) (m_data m).
Definition set_tags (m : emitter) (l : list tagdir) : emitter :=
  mkEmitter (m_cfg m) (m_pen m) (m_state m) (m_states m) (m_events m) (m_indent m) (m_indents m) (m_flow m) l (m_mapping m) (m_simple m) (m_data m).
Definition set_context (m : emitter) (mapping simple : bool) : emitter :=
  mkEmitter (m_cfg m) (m_pen m) (m_state m) (m_states m) (m_events m) (m_indent m) (m_indents m) (m_flow m) (m_tags m) mapping simple (m_data m).
Definition set_data (m : emitter) (d : adata) : emitter :=
  mkEmitter (m_cfg m) (m_pen m) (m_state m) (m_states m) (m_events m) (m_indent m) (m_indents m) (m_flow m) (m_tags m) (m_mapping m) (m_simple m) d.
Definition set_cfg (m : emitter) (g : cfg) : emitter :=
  mkEmitter g (m_pen m) (m_state m) (m_states m) (m_events m) (m_indent m) (m_indents m) (m_flow m) (m_tags m) (m_mapping m) (m_simple m) (m_data m).

(* PUSH(states), POP(states), POP(indents) *)
Definition push_state (m : emitter) (x : estate) : emitter := set_states m (m_state m) (x :: m_states m).
Definition pop_state (m : emitter) : eres :=
  match m_states m with x :: l => EOk (set_states m x l) | [] => EBad end.
Definition pop_indent (m : emitter) : eres :=
  match m_indents m with x :: l => EOk (set_indents m x l) | [] => EBad end.

(* writing *)
Definition on_pen (f : pen -> pen) (m : emitter) : emitter := set_pen m (f (m_pen m)).
Definition indicator (s : list N) (need white indention : bool) : emitter -> emitter :=
  on_pen (write_indicator s need white indention).
Definition indent_ (m : emitter) : emitter := on_pen (write_indent (m_cfg m) (m_indent m)) m.

(* yaml_emitter_increase_indent, 403-417 *)
Definition increase_indent (m : emitter) (flow indentless : bool) : emitter :=
  set_indents m
    (if (m_indent m <? 0)%Z then if flow then g_indent (m_cfg m) else 0%Z
     else if negb indentless then (m_indent m + g_indent (m_cfg m))%Z else m_indent m)
    (m_indent m :: m_indents m).

(* ---- analysis ---- *)
(* yaml_emitter_analyze_version_directive, 1352-1365 *)
Definition analyze_version (v : version) : option eproblem :=
  if negb (fst v =? 1) || (negb (snd v =? 1) && negb (snd v =? 2)) then Some IncompatibleVersion else None.
(* yaml_emitter_analyze_tag_directive, 1371-1415; the loop runs over the characters
   between the first and the last one *)
Definition analyze_tag_directive (t : tagdir) : option eproblem :=
  let (handle, prefix) := t in
  match handle with
  | [] => Some HandleEmpty
  | c :: r =>
      if negb (c =? 0x21) then Some HandleStart
      else if negb (last handle 0 =? 0x21) then Some HandleEnd
      else if negb (forallb is_alpha (removelast r)) then Some HandleAlpha
      else match prefix with [] => Some PrefixEmpty | _ => None end
  end.
(* yaml_emitter_analyze_anchor, 1422-1451 *)
Definition analyze_anchor (s : list N) (alias : bool) (d : adata) : eproblem + adata :=
  match s with
  | [] => inl AnchorEmpty
  | _ => if forallb is_alpha s
         then inr (mkAdata (Some s) alias (a_handle d) (a_suffix d) (a_value d) (a_multiline d) (a_flow_plain d) (a_block_plain d) (a_single d) (a_block d))
         else inl AnchorAlpha
  end.
(* yaml_emitter_analyze_tag, 1458-1494: the first directive whose prefix is a proper
   prefix of the tag *)
Fixpoint strip_prefix (p s : list N) : option (list N) :=
  match p, s with
  | [], _ => Some s
  | x :: p', y :: s' => if x =? y then strip_prefix p' s' else None
  | _, _ => None
  end.
Fixpoint match_tag (tags : list tagdir) (s : list N) : option (list N * list N) :=
  match tags with
  | [] => None
  | (h, p) :: r =>
      match strip_prefix p s with
      | Some (x :: suffix) => Some (h, x :: suffix)
      | _ => match_tag r s
      end
  end.
Definition analyze_tag (tags : list tagdir) (s : list N) (d : adata) : eproblem + adata :=
  match s with
  | [] => inl TagEmpty
  | _ =>
      let (h, x) := match match_tag tags s with Some (h, x) => (Some h, Some x) | None => (a_handle d, Some s) end in
      inr (mkAdata (a_anchor d) (a_alias d) h x (a_value d) (a_multiline d) (a_flow_plain d) (a_block_plain d) (a_single d) (a_block d))
  end.

(* yaml_emitter_analyze_scalar, 1501-1694: the flags of the loop 1545-1631 *)
Record flags := mkFlags {
  f_block_ind : bool; f_flow_ind : bool; f_breaks : bool; f_special : bool;
  f_lspace : bool; f_lbreak : bool; f_tspace : bool; f_tbreak : bool;
  f_break_space : bool; f_space_break : bool }.
(* one of the characters of 1549-1556, 1573-1575 *)
Definition first_indicator (c : N) : bool :=
  existsb (N.eqb c) [0x23; 0x2C; 0x5B; 0x5D; 0x7B; 0x7D; 0x26; 0x2A; 0x21; 0x7C; 0x3E; 0x27; 0x22; 0x25; 0x40; 0x60].
Definition inner_flow_indicator (c : N) : bool := existsb (N.eqb c) [0x2C; 0x3F; 0x5B; 0x5D; 0x7B; 0x7D].
(* 1547-1591: (block_indicators, flow_indicators) set at this character *)
Definition indicators_at (first preceded followed : bool) (c : N) : bool * bool :=
  if first then
    (first_indicator c || (((c =? 0x3F) || (c =? 0x3A)) && followed) || ((c =? 0x2D) && followed),
     first_indicator c || (c =? 0x3F) || (c =? 0x3A) || ((c =? 0x2D) && followed))
  else
    (((c =? 0x3A) && followed) || ((c =? 0x23) && preceded),
     inner_flow_indicator c || (c =? 0x3A) || ((c =? 0x23) && preceded)).
Fixpoint flag_loop (unicode : bool) (first preceded prev_space prev_break : bool) (s : list N) (f : flags) : flags :=
  match s with
  | [] => f
  | c :: r =>
      let followed := is_blankz (next r) in
      let '(bi, fi) := indicators_at first preceded followed c in
      let special := negb (is_printable c) || (negb (is_ascii c) && negb unicode) in
      let final := match r with [] => true | _ => false end in
      let sp := is_space c in
      let br := negb sp && is_break c in
      let f := mkFlags (f_block_ind f || bi) (f_flow_ind f || fi) (f_breaks f || is_break c) (f_special f || special)
        (f_lspace f || (sp && first)) (f_lbreak f || (br && first)) (f_tspace f || (sp && final)) (f_tbreak f || (br && final))
        (f_break_space f || (sp && prev_break)) (f_space_break f || (br && prev_space)) in
      flag_loop unicode false (is_blankz c) sp br r f
  end.
(* 1534-1543 *)
Definition doc_indicator (s : list N) : bool :=
  ((nth 0 s 0 =? 0x2D) && (nth 1 s 0 =? 0x2D) && (nth 2 s 0 =? 0x2D))
  || ((nth 0 s 0 =? 0x2E) && (nth 1 s 0 =? 0x2E) && (nth 2 s 0 =? 0x2E)).
Definition scalar_flags (unicode : bool) (s : list N) : flags :=
  flag_loop unicode true true false false s
    (mkFlags (doc_indicator s) (doc_indicator s) false false false false false false false false).
Definition analyze_scalar (unicode : bool) (s : list N) (d : adata) : adata :=
  match s with
  | [] => mkAdata (a_anchor d) (a_alias d) (a_handle d) (a_suffix d) [] false false true true false
  | _ =>
      let f := scalar_flags unicode s in
      let edge := f_lspace f || f_lbreak f || f_tspace f || f_tbreak f in
      let bad := f_space_break f || f_special f in
      let plain := negb edge && negb (f_break_space f) && negb bad && negb (f_breaks f) in
      mkAdata (a_anchor d) (a_alias d) (a_handle d) (a_suffix d) s (f_breaks f)
        (plain && negb (f_flow_ind f)) (plain && negb (f_block_ind f))
        (negb (f_break_space f) && negb bad) (negb (f_tspace f) && negb bad)
  end.

(* yaml_emitter_analyze_event, 1701-1769 *)
Definition then_ (r : eproblem + adata) (k : adata -> eproblem + adata) : eproblem + adata :=
  match r with inr d => k d | inl x => inl x end.
Definition maybe {A} (o : option A) (f : A -> adata -> eproblem + adata) (d : adata) : eproblem + adata :=
  match o with Some x => f x d | None => inr d end.
Definition analyze_event (g : cfg) (tags : list tagdir) (e : ev) : eproblem + adata :=
  match e with
  | EAlias a => analyze_anchor a true no_data
  | EScalar a t v pi qi _ =>
      then_ (maybe a (fun a => analyze_anchor a false) no_data) (fun d =>
      then_ (if g_canonical g || (negb pi && negb qi) then maybe t (analyze_tag tags) d else inr d) (fun d =>
      inr (analyze_scalar (g_unicode g) v d)))
  | ESeqStart a t i _ | EMapStart a t i _ =>
      then_ (maybe a (fun a => analyze_anchor a false) no_data) (fun d =>
      if g_canonical g || negb i then maybe t (analyze_tag tags) d else inr d)
  | _ => inr no_data
  end.

(* ---- checks ---- *)
(* yaml_emitter_check_empty_sequence, check_empty_mapping, 1119-1140 *)
Definition check_empty_sequence (l : list ev) : bool :=
  match l with ESeqStart _ _ _ _ :: ESeqEnd :: _ => true | _ => false end.
Definition check_empty_mapping (l : list ev) : bool :=
  match l with EMapStart _ _ _ _ :: EMapEnd :: _ => true | _ => false end.
(* lengths are in bytes *)
Definition olen (o : option (list N)) : N := match o with Some s => nlen (utf8 s) | None => 0 end.
(* yaml_emitter_check_simple_key, 1147-1191 *)
Definition check_simple_key (m : emitter) : bool :=
  let d := m_data m in
  let props := olen (a_anchor d) + olen (a_handle d) + olen (a_suffix d) in
  match m_events m with
  | EAlias _ :: _ => olen (a_anchor d) <=? 128
  | EScalar _ _ _ _ _ _ :: _ => negb (a_multiline d) && (props + nlen (utf8 (a_value d)) <=? 128)
  | ESeqStart _ _ _ _ :: _ => check_empty_sequence (m_events m) && (props <=? 128)
  | EMapStart _ _ _ _ :: _ => check_empty_mapping (m_events m) && (props <=? 128)
  | _ => false
  end.

(* yaml_emitter_select_scalar_style, 1198-1253: None is the error, otherwise the
   handle and the style *)
Definition select_style (m : emitter) (pi qi : bool) (style : sstyle) : option (option (list N) * sstyle) :=
  let d := m_data m in
  let flow := negb (m_flow m =? 0)%Z in
  let no_tag := match a_handle d, a_suffix d with None, None => true | _, _ => false end in
  if no_tag && negb pi && negb qi then None else
  let style := match style with AnyScalar => Plain | x => x end in
  let style := if g_canonical (m_cfg m) then DoubleQuoted else style in
  let style := if m_simple m && a_multiline d then DoubleQuoted else style in
  let style :=
    match style with
    | Plain =>
        if (flow && negb (a_flow_plain d)) || (negb flow && negb (a_block_plain d))
           || ((nlen (a_value d) =? 0) && (flow || m_simple m))
           || (no_tag && negb pi) then SingleQuoted else Plain
    | x => x
    end in
  let style := match style with SingleQuoted => if negb (a_single d) then DoubleQuoted else SingleQuoted | x => x end in
  let style :=
    match style with
    | Literal | Folded => if negb (a_block d) || flow || m_simple m then DoubleQuoted else style
    | x => x
    end in
  let handle := if no_tag && negb qi && negb (sstyle_eqb style Plain) then Some [0x21] else a_handle d in
  Some (handle, style).

(* ---- processors ---- *)
(* yaml_emitter_process_anchor, 1260-1272 *)
Definition process_anchor (m : emitter) : emitter :=
  match a_anchor (m_data m) with
  | None => m
  | Some s => on_pen (write_anchor s) (indicator [if a_alias (m_data m) then 0x2A else 0x26] true false false m)
  end.
(* yaml_emitter_process_tag, 1278-1306 *)
Definition process_tag (m : emitter) : emitter :=
  match a_handle (m_data m), a_suffix (m_data m) with
  | None, None => m
  | Some h, None => on_pen (write_tag_handle h) m
  | Some h, Some x => on_pen (write_tag_content x false) (on_pen (write_tag_handle h) m)
  | None, Some x => indicator [0x3E] false false false (on_pen (write_tag_content x false) (indicator [0x21; 0x3C] true false false m))
  end.
(* yaml_emitter_process_scalar, 1313-1345 *)
Definition process_scalar (m : emitter) (style : sstyle) : emitter :=
  let g := m_cfg m in let v := a_value (m_data m) in let allow := negb (m_simple m) in
  on_pen (match style with
          | Plain | AnyScalar => write_plain g (m_indent m) (m_flow m) v allow
          | SingleQuoted => write_single g (m_indent m) v allow
          | DoubleQuoted => write_double g (m_indent m) v allow
          | Literal => write_literal g (m_indent m) v
          | Folded => write_folded g (m_indent m) v
          end) m.

(* ---- states ---- *)
(* yaml_emitter_append_tag_directive, 364-396 *)
Definition append_tag (m : emitter) (t : tagdir) (allow : bool) : eres :=
  if existsb (fun d => str_eqb (fst t) (fst d)) (m_tags m)
  then if allow then EOk m else EErr DuplicateTagDirective m
  else EOk (set_tags m (m_tags m ++ [t])).

(* INT_MAX *)
Definition INT_MAX : Z := 2147483647.
(* 501-526: the settings after STREAM-START *)
Definition normalise (g : cfg) (e : encoding) : cfg :=
  let enc := match g_encoding g with AnyEnc => e | x => x end in
  let enc := match enc with AnyEnc => Utf8Enc | x => x end in
  let ind := if (g_indent g <? 2)%Z || (g_indent g >? 9)%Z then 2%Z else g_indent g in
  let w := if (g_width g >=? 0)%Z && (g_width g <=? ind * 2)%Z then 80%Z else g_width g in
  let w := if (w <? 0)%Z then INT_MAX else w in
  mkCfg enc (g_canonical g) ind w (g_unicode g) (match g_break g with AnyBreak => LnBreak | x => x end).
(* yaml_emitter_emit_stream_start, 495-545 *)
Definition emit_stream_start (m : emitter) (e : ev) : eres :=
  let m := on_pen (fun p => set_open p 0) m in
  match e with
  | EStreamStart enc =>
      let g := normalise (m_cfg m) enc in
      let m := set_indents (set_cfg m g) (-1)%Z (m_indents m) in
      let m := on_pen (fun p => mkPen (p_ops p) 0 true true (p_open p)) m in
      let m := if encoding_eqb (g_encoding g) Utf8Enc then m else on_pen write_bom m in
      EOk (set_state m FirstDocStart)
  | _ => EErr ExpectedStreamStart m
  end.

Definition fail_if (o : option eproblem) (m : emitter) : eres := match o with Some x => EErr x m | None => EOk m end.
Fixpoint each_tag (f : tagdir -> emitter -> eres) (l : list tagdir) (m : emitter) : eres :=
  match l with [] => EOk m | t :: r => f t m >>= each_tag f r end.
(* 558-562 *)
Definition default_tags : list tagdir :=
  [([0x21], [0x21]); ([0x21; 0x21], [116;97;103;58;121;97;109;108;46;111;114;103;44;50;48;48;50;58])].
Definition s_dots : list N := [0x2E; 0x2E; 0x2E].
Definition s_dashes : list N := [0x2D; 0x2D; 0x2D].
Definition s_yaml : list N := [0x25; 0x59; 0x41; 0x4D; 0x4C].
Definition s_tag : list N := [0x25; 0x54; 0x41; 0x47].
Definition has_directives (v : option version) (tags : list tagdir) : bool :=
  match v, tags with None, [] => false | _, _ => true end.
(* yaml_emitter_emit_document_start, 552-684 (check_empty_document is always false, 1109-1113) *)
Definition emit_document_start (m : emitter) (e : ev) (first : bool) : eres :=
  match e with
  | EDocStart v tags implicit =>
      fail_if (match v with Some v => analyze_version v | None => None end) m >>= fun m =>
      each_tag (fun t m => fail_if (analyze_tag_directive t) m >>= fun m => append_tag m t false) tags m >>= fun m =>
      each_tag (fun t m => append_tag m t true) default_tags m >>= fun m =>
      let implicit := implicit && first && negb (g_canonical (m_cfg m)) && negb (has_directives v tags) in
      let m := if has_directives v tags && negb (p_open (m_pen m) =? 0)
               then indent_ (indicator s_dots true false false m) else m in
      let m := on_pen (fun p => set_open p 0) m in
      let m := match v with
               | Some v => indent_ (indicator (if snd v =? 1 then [0x31; 0x2E; 0x31] else [0x31; 0x2E; 0x32]) true false false
                             (indicator s_yaml true false false m))
               | None => m
               end in
      let m := fold_left (fun m t => indent_ (on_pen (write_tag_content (snd t) true)
                             (on_pen (write_tag_handle (fst t)) (indicator s_tag true false false m)))) tags m in
      let m := if negb implicit
               then let m := indicator s_dashes true false false (indent_ m) in
                    if g_canonical (m_cfg m) then indent_ m else m
               else m in
      EOk (on_pen (fun p => set_open p 0) (set_state m DocContent))
  | EStreamEnd =>
      let m := if p_open (m_pen m) =? 2
               then indent_ (on_pen (fun p => set_open p 0) (indicator s_dots true false false m)) else m in
      EOk (set_state (on_pen (fun p => pop_ p CFlush (p_column p)) m) EndState)
  | _ => EErr ExpectedDocStart m
  end.

(* yaml_emitter_emit_document_end, 705-738 *)
Definition emit_document_end (m : emitter) (e : ev) : eres :=
  match e with
  | EDocEnd implicit =>
      let m := indent_ m in
      let m := if negb implicit
               then indent_ (on_pen (fun p => set_open p 0) (indicator s_dots true false false m))
               else if p_open (m_pen m) =? 0 then on_pen (fun p => set_open p 1) m else m in
      EOk (set_tags (set_state (on_pen (fun p => pop_ p CFlush (p_column p)) m) DocStart) [])
  | _ => EErr ExpectedDocEnd m
  end.

(* yaml_emitter_emit_alias, 1022-1032 *)
Definition emit_alias (m : emitter) : eres :=
  let m := process_anchor m in
  pop_state (if m_simple m then on_pen (pput 0x20) m else m).
(* yaml_emitter_emit_scalar, 1038-1054 *)
Definition emit_scalar (m : emitter) (pi qi : bool) (style : sstyle) : eres :=
  match select_style m pi qi style with
  | None => EErr NoTagNoImplicit m
  | Some (handle, style) =>
      let d := m_data m in
      let m := set_data m (mkAdata (a_anchor d) (a_alias d) handle (a_suffix d) (a_value d) (a_multiline d) (a_flow_plain d) (a_block_plain d) (a_single d) (a_block d)) in
      let m := process_tag (process_anchor m) in
      let m := process_scalar (increase_indent m true false) style in
      pop_indent m >>= pop_state
  end.
(* yaml_emitter_emit_sequence_start, 1061-1079 *)
Definition emit_sequence_start (m : emitter) (style : cstyle) : eres :=
  let m := process_tag (process_anchor m) in
  EOk (set_state m (if negb (m_flow m =? 0)%Z || g_canonical (m_cfg m) || cstyle_eqb style FlowColl || check_empty_sequence (m_events m)
                    then FlowSeqFirst else BlockSeqFirst)).
(* yaml_emitter_emit_mapping_start, 1085-1103 *)
Definition emit_mapping_start (m : emitter) (style : cstyle) : eres :=
  let m := process_tag (process_anchor m) in
  EOk (set_state m (if negb (m_flow m =? 0)%Z || g_canonical (m_cfg m) || cstyle_eqb style FlowColl || check_empty_mapping (m_events m)
                    then FlowMapFirst else BlockMapFirst)).
(* yaml_emitter_emit_node, 987-1015 *)
Definition emit_node (m : emitter) (e : ev) (mapping simple : bool) : eres :=
  let m := set_context m mapping simple in
  match e with
  | EAlias _ => emit_alias m
  | EScalar _ _ _ pi qi style => emit_scalar m pi qi style
  | ESeqStart _ _ _ style => emit_sequence_start m style
  | EMapStart _ _ _ style => emit_mapping_start m style
  | _ => EErr ExpectedNode m
  end.

(* yaml_emitter_emit_document_content, 691-699 *)
Definition emit_document_content (m : emitter) (e : ev) : eres := emit_node (push_state m DocEnd) e false false.

Definition wide (m : emitter) : bool := g_canonical (m_cfg m) || (p_column (m_pen m) >? g_width (m_cfg m))%Z.
Definition indent_if (b : bool) (m : emitter) : emitter := if b then indent_ m else m.
(* opening and closing a flow collection: 749-756, 798-805; 758-773, 807-822 *)
Definition open_flow (c : N) (m : emitter) : emitter :=
  let m := increase_indent (indicator [c] true true false m) true false in set_flow m (m_flow m + 1).
Definition close_flow (c : N) (first : bool) (m : emitter) : eres :=
  pop_indent (set_flow m (m_flow m - 1)) >>= fun m =>
  let m := if g_canonical (m_cfg m) && negb first then indent_ (indicator [0x2C] false false false m) else m in
  pop_state (indicator [c] false false false m).
(* yaml_emitter_emit_flow_sequence_item, 746-788 *)
Definition emit_flow_sequence_item (m : emitter) (e : ev) (first : bool) : eres :=
  let m := if first then open_flow 0x5B m else m in
  match e with
  | ESeqEnd => close_flow 0x5D first m
  | _ =>
      let m := if first then m else indicator [0x2C] false false false m in
      let m := indent_if (wide m) m in
      emit_node (push_state m FlowSeqItem) e false false
  end.
(* yaml_emitter_emit_flow_mapping_key, 795-851 *)
Definition emit_flow_mapping_key (m : emitter) (e : ev) (first : bool) : eres :=
  let m := if first then open_flow 0x7B m else m in
  match e with
  | EMapEnd => close_flow 0x7D first m
  | _ =>
      let m := if first then m else indicator [0x2C] false false false m in
      let m := indent_if (wide m) m in
      if negb (g_canonical (m_cfg m)) && check_simple_key m
      then emit_node (push_state m FlowMapSimple) e true true
      else emit_node (push_state (indicator [0x3F] true false false m) FlowMapValue) e true false
  end.
(* yaml_emitter_emit_flow_mapping_value, 858-876 *)
Definition emit_flow_mapping_value (m : emitter) (e : ev) (simple : bool) : eres :=
  let m := if simple then indicator [0x3A] false false false m
           else indicator [0x3A] true false false (indent_if (wide m) m) in
  emit_node (push_state m FlowMapKey) e true false.
(* yaml_emitter_emit_block_sequence_item, 883-910 *)
Definition emit_block_sequence_item (m : emitter) (e : ev) (first : bool) : eres :=
  let m := if first then increase_indent m false (m_mapping m && negb (p_indention (m_pen m))) else m in
  match e with
  | ESeqEnd => pop_indent m >>= pop_state
  | _ => emit_node (push_state (indicator [0x2D] true false true (indent_ m)) BlockSeqItem) e false false
  end.
(* yaml_emitter_emit_block_mapping_key, 917-955 *)
Definition emit_block_mapping_key (m : emitter) (e : ev) (first : bool) : eres :=
  let m := if first then increase_indent m false false else m in
  match e with
  | EMapEnd => pop_indent m >>= pop_state
  | _ =>
      let m := indent_ m in
      if check_simple_key m
      then emit_node (push_state m BlockMapSimple) e true true
      else emit_node (push_state (indicator [0x3F] true false true m) BlockMapValue) e true false
  end.
(* yaml_emitter_emit_block_mapping_value, 962-980 *)
Definition emit_block_mapping_value (m : emitter) (e : ev) (simple : bool) : eres :=
  let m := if simple then indicator [0x3A] false false false m
           else indicator [0x3A] true false true (indent_ m) in
  emit_node (push_state m BlockMapKey) e true false.

(* yaml_emitter_state_machine, 424-488 *)
Definition state_machine (m : emitter) (e : ev) : eres :=
  match m_state m with
  | StreamStart => emit_stream_start m e
  | FirstDocStart => emit_document_start m e true
  | DocStart => emit_document_start m e false
  | DocContent => emit_document_content m e
  | DocEnd => emit_document_end m e
  | FlowSeqFirst => emit_flow_sequence_item m e true
  | FlowSeqItem => emit_flow_sequence_item m e false
  | FlowMapFirst => emit_flow_mapping_key m e true
  | FlowMapKey => emit_flow_mapping_key m e false
  | FlowMapSimple => emit_flow_mapping_value m e true
  | FlowMapValue => emit_flow_mapping_value m e false
  | BlockSeqFirst => emit_block_sequence_item m e true
  | BlockSeqItem => emit_block_sequence_item m e false
  | BlockMapFirst => emit_block_mapping_key m e true
  | BlockMapKey => emit_block_mapping_key m e false
  | BlockMapSimple => emit_block_mapping_value m e true
  | BlockMapValue => emit_block_mapping_value m e false
  | EndState => EErr ExpectedNothing m
  end.

(* ---- look-ahead ---- *)
(* yaml_emitter_need_more_events, 309-357 *)
Definition level_after (level : Z) (e : ev) : Z :=
  match e with
  | EStreamStart _ | EDocStart _ _ _ | ESeqStart _ _ _ _ | EMapStart _ _ _ _ => (level + 1)%Z
  | EStreamEnd | EDocEnd _ | ESeqEnd | EMapEnd => (level - 1)%Z
  | _ => level
  end.
Fixpoint never_closed (level : Z) (l : list ev) : bool :=
  match l with
  | [] => true
  | e :: r => let level := level_after level e in if (level =? 0)%Z then false else never_closed level r
  end.
Definition need_more (l : list ev) : bool :=
  match l with
  | [] => true
  | e :: _ =>
      match match e with EDocStart _ _ _ => Some 1 | ESeqStart _ _ _ _ => Some 2 | EMapStart _ _ _ _ => Some 3 | _ => None end with
      | None => false
      | Some n => if n <? nlen l then false else never_closed 0 l
      end
  end.
(* 283-296: one round of the loop, for the event at the head *)
Definition emit_one (m : emitter) (e : ev) : eres :=
  match analyze_event (m_cfg m) (m_tags m) e with
  | inl x => EErr x m
  | inr d => state_machine (set_data m d) e >>= fun m => EOk (set_events m (tl (m_events m)))
  end.
(* the queue gets shorter each time, so that it is enough to go on for as many rounds
   as there are events in it *)
Fixpoint emit_loop (n : nat) (m : emitter) : eres :=
  match n, m_events m with
  | S n', e :: _ => if need_more (m_events m) then EOk m else emit_one m e >>= emit_loop n'
  | _, _ => EOk m
  end.
(* yaml_emitter_emit, 281-297 *)
Definition emit_event (m : emitter) (e : ev) : eres :=
  let m := set_events m (m_events m ++ [e]) in emit_loop (length (m_events m)) m.
(* giving events one after the other, up to the first failure *)
Fixpoint emit_all (m : emitter) (es : list ev) : eres :=
  match es with [] => EOk m | e :: r => emit_event m e >>= fun m => emit_all m r end.

(* ---- api.c ---- *)
(* yaml_emitter_initialize, 346-378 *)
Definition init_pen : pen := mkPen [] 0 false false 0.
Definition init_cfg : cfg := mkCfg AnyEnc false 0 0 false AnyBreak.
Definition init_emitter (g : cfg) : emitter :=
  mkEmitter g init_pen StreamStart [] [] 0 [] 0 [] false false no_data.
(* yaml_emitter_set_*, 510-577 *)
Inductive setting :=
| SetEncoding (e : encoding) | SetCanonical (x : Z) | SetIndent (x : Z) | SetWidth (x : Z) | SetUnicode (x : Z) | SetBreak (b : lbreak).
Definition apply_setting (g : cfg) (s : setting) : cfg :=
  match s with
  | SetEncoding e => mkCfg e (g_canonical g) (g_indent g) (g_width g) (g_unicode g) (g_break g)
  | SetCanonical x => mkCfg (g_encoding g) (negb (x =? 0)%Z) (g_indent g) (g_width g) (g_unicode g) (g_break g)
  | SetIndent x => mkCfg (g_encoding g) (g_canonical g) (if (1 <? x)%Z && (x <? 10)%Z then x else 2%Z) (g_width g) (g_unicode g) (g_break g)
  | SetWidth x => mkCfg (g_encoding g) (g_canonical g) (g_indent g) (if (x >=? 0)%Z then x else (-1)%Z) (g_unicode g) (g_break g)
  | SetUnicode x => mkCfg (g_encoding g) (g_canonical g) (g_indent g) (g_width g) (negb (x =? 0)%Z) (g_break g)
  | SetBreak b => mkCfg (g_encoding g) (g_canonical g) (g_indent g) (g_width g) (g_unicode g) b
  end.
