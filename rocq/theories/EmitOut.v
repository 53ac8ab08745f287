(* The characters the emitter writes. *)
From Verif Require Import Base Utf8Spec ReaderModel CharSpec Types TreeSpec WriterModel WriterSpec PenModel EmitModel EmitSpec EmitInv EmitLoop EmitSettings PenOut.

(* a character of the output *)
Definition out_char (unicode : bool) (c : N) : Prop :=
  yaml_char c /\ c <> 0xFEFF /\ c <= 0xFFFF /\ (unicode = false -> c < 0x80).

Section Out.
  Variable u : bool.
  Let P := out_char u.
  Lemma Plf : P 0xA. Proof. unfold P, out_char, yaml_char. split; [auto|]. split; [discriminate|]. split; [lia|]. intros; lia. Qed.
  Lemma Pcr : P 0xD. Proof. unfold P, out_char, yaml_char. split; [auto|]. split; [discriminate|]. split; [lia|]. intros; lia. Qed.
  Lemma Pascii c : 0x20 <= c -> c <= 0x7E -> P c.
  Proof. unfold P, out_char, yaml_char. intros. split; [auto 6|]. split; [lia|]. split; [lia|]. intros; lia. Qed.
  Lemma Pprintable c : is_printable c = true -> is_ascii c || u = true -> P c.
  Proof.
    unfold is_printable, is_ascii, in_range, P, out_char, yaml_char. intros H A. split; [lia|]. split; [lia|]. split; [lia|]. intros ->. lia.
  Qed.
  Lemma alpha_P s : Forall (fun c => is_alpha c = true) s -> Forall P s.
  Proof. intros F. eapply Forall_impl; [|exact F]. cbn. intros c H. apply alpha_ok in H. apply Pascii; lia. Qed.
  Lemma handle_P h : valid_handle h -> Forall P h.
  Proof.
    assert (B : P 0x21) by (apply Pascii; lia).
    intros [-> |(n & -> & F)]; [constructor; [exact B|constructor]|]. constructor; [exact B|]. apply Forall_app. split; [apply alpha_P; exact F|constructor; [exact B|constructor]].
  Qed.

  Definition small (s : list N) : Prop := Forall (fun c => c < 0x200000) s.
  Lemma text_small s : text s -> small s.
  Proof. intros F. eapply Forall_impl; [|exact F]. unfold scalar_value. cbn. lia. Qed.

  (* what holds of the emitter after STREAM-START *)
  Record good (m : emitter) : Prop := {
    o_unicode : g_unicode (m_cfg m) = u;
    o_break : g_break (m_cfg m) <> AnyBreak;
    o_indent : (2 <= g_indent (m_cfg m) <= 9)%Z;
    o_tags : Forall (fun t => Forall P (fst t)) (m_tags m) }.
  Record gdata (d : adata) : Prop := {
    d_anchor : forall s, a_anchor d = Some s -> Forall P s;
    d_handle : forall s, a_handle d = Some s -> Forall P s;
    d_suffix : forall s, a_suffix d = Some s -> small s;
    d_value : a_flow_plain d || a_block_plain d || a_single d || a_block d = true -> Forall P (a_value d) }.
  Definition moves (m : emitter) (m' : emitter) : Prop := adds P (m_pen m) (m_pen m') /\ good m' /\ m_cfg m' = m_cfg m.
  Definition keeps (m : emitter) (r : eres) : Prop :=
    match r with EOk m' | EErr _ m' => moves m m' | EBad => True end.

  Lemma moves_refl m : good m -> moves m m.
  Proof. split; [apply adds_refl|]. split; [assumption|reflexivity]. Qed.
  Lemma moves_trans a b c : moves a b -> moves b c -> moves a c.
  Proof. intros [A [_ E]] [B [G E']]. split; [eapply adds_trans; eassumption|]. split; [exact G|congruence]. Qed.
  Lemma keeps_bind m r k : keeps m r -> (forall m', good m' -> keeps m' (k m')) -> keeps m (r >>= k).
  Proof.
    intros R K. destruct r as [m'|x m'|]; cbn in *; [|exact R|exact I]. destruct R as (A & G & E). specialize (K m' G).
    destruct (k m') as [m2|x m2|]; cbn in *; [| |exact I]; (eapply moves_trans; [split; [exact A|split; [exact G|exact E]]|exact K]).
  Qed.
  Lemma keeps_after m m' r : moves m m' -> keeps m' r -> keeps m r.
  Proof. intros M K. destruct r; cbn in *; try exact I; eapply moves_trans; eassumption. Qed.
  Lemma good_pen m p : good m -> good (set_pen m p).
  Proof. intros [A B C D]. constructor; assumption. Qed.
  Lemma moves_pen m f : good m -> adds P (m_pen m) (f (m_pen m)) -> moves m (on_pen f m).
  Proof. intros G A. split; [exact A|]. split; [apply good_pen; exact G|reflexivity]. Qed.
  Lemma moves_indicator m s a b c : good m -> Forall P s -> moves m (indicator s a b c m).
  Proof. intros G F. apply moves_pen; [exact G|]. apply adds_indicator; auto using Pascii. Qed.
  Lemma moves_indent m : good m -> moves m (indent_ m).
  Proof. intros G. apply moves_pen; [exact G|]. destruct G. apply adds_indent; auto using Plf, Pcr, Pascii. Qed.
  Lemma moves_open m n : good m -> moves m (on_pen (fun p => set_open p n) m).
  Proof. intros G. apply moves_pen; [exact G|]. apply adds_set_open. apply adds_refl. Qed.
  Lemma moves_flush m : good m -> moves m (on_pen (fun p => pop_ p CFlush (p_column p)) m).
  Proof. intros G. apply moves_pen; [exact G|]. eapply adds_op; [reflexivity|exact I]. Qed.
  Lemma moves_when (b : bool) m m' q : moves m m' -> (good m' -> moves m' q) -> moves m (if b then q else m').
  Proof. intros M H. destruct b; [|exact M]. eapply moves_trans; [exact M|]. apply H. apply M. Qed.
  (* only the pen, settings and tags matter *)
  Lemma moves_same m m1 m2 : moves m m1 -> m_pen m2 = m_pen m1 -> m_cfg m2 = m_cfg m1 -> m_tags m2 = m_tags m1 -> moves m m2.
  Proof. intros [A [[B C D E] F]] E1 E2 E3. split; [rewrite E1; exact A|]. split; [constructor; rewrite ?E2, ?E3; assumption|congruence]. Qed.

  Lemma chars1 c : 0x20 <= c -> c <= 0x7E -> Forall P [c].
  Proof. intros. constructor; [apply Pascii; assumption|constructor]. Qed.

  Lemma keeps_pop_state m : good m -> keeps m (pop_state m).
  Proof. intros G. unfold pop_state. destruct (m_states m); [exact I|]. eapply moves_same; [apply moves_refl; exact G|reflexivity..]. Qed.
  Lemma keeps_pop_indent m : good m -> keeps m (pop_indent m).
  Proof. intros G. unfold pop_indent. destruct (m_indents m); [exact I|]. eapply moves_same; [apply moves_refl; exact G|reflexivity..]. Qed.

  Lemma moves_anchor m : good m -> gdata (m_data m) -> moves m (process_anchor m).
  Proof.
    intros G D. unfold process_anchor. destruct (a_anchor (m_data m)) as [s|] eqn:E; [|apply moves_refl; exact G].
    assert (M : moves m (indicator [if a_alias (m_data m) then 0x2A else 0x26] true false false m)).
    { apply moves_indicator; [exact G|]. apply chars1; destruct (a_alias (m_data m)); lia. }
    eapply moves_trans; [exact M|]. apply moves_pen; [apply M|]. apply adds_anchor. destruct D as [D _ _ _]. apply D. exact E.
  Qed.
  Lemma moves_tag m : good m -> gdata (m_data m) -> moves m (process_tag m).
  Proof.
    intros G [_ D1 D2 _]. unfold process_tag.
    destruct (a_handle (m_data m)) as [h|] eqn:E1, (a_suffix (m_data m)) as [x|] eqn:E2.
    - assert (M : moves m (on_pen (write_tag_handle h) m)) by (apply moves_pen; [exact G|]; apply adds_tag_handle; auto using Pascii).
      eapply moves_trans; [exact M|]. apply moves_pen; [apply M|]. apply adds_tag_content; auto using Pascii. apply D2. reflexivity.
    - apply moves_pen; [exact G|]. apply adds_tag_handle; auto using Pascii.
    - assert (M : moves m (indicator [0x21; 0x3C] true false false m)) by (apply moves_indicator; [exact G|]; repeat (constructor; [apply Pascii; lia|]); constructor).
      eapply moves_trans; [exact M|]. set (m1 := indicator [0x21; 0x3C] true false false m) in *.
      assert (M1 : moves m1 (on_pen (write_tag_content x false) m1)) by (apply moves_pen; [apply M|]; apply adds_tag_content; auto using Pascii; apply D2; reflexivity).
      eapply moves_trans; [exact M1|]. apply moves_indicator; [apply M1|]. apply chars1; lia.
    - apply moves_refl. exact G.
  Qed.

  (* the style chosen is one the analysis allows *)
  Lemma style_allowed m pi qi st h s : select_style m pi qi st = Some (h, s) ->
    match s with
    | DoubleQuoted => True
    | _ => a_flow_plain (m_data m) || a_block_plain (m_data m) || a_single (m_data m) || a_block (m_data m) = true
    end.
  Proof.
    unfold select_style. set (d := m_data m). destruct (_ && _ && negb qi); [discriminate|]. intros E. injection E as _ <-.
    match goal with |- context [match ?x with AnyScalar => Plain | _ => _ end] => set (st0 := match x with AnyScalar => Plain | y => y end) end.
    set (st1 := if g_canonical (m_cfg m) then DoubleQuoted else st0).
    set (st2 := if m_simple m && a_multiline d then DoubleQuoted else st1).
    assert (N0 : st2 <> AnyScalar) by (unfold st2, st1, st0; destruct (m_simple m && a_multiline d), (g_canonical (m_cfg m)), st; discriminate).
    destruct st2; cbn; try congruence.
    - match goal with |- context [if ?b then SingleQuoted else Plain] => destruct b eqn:B end.
      + destruct (a_single d) eqn:S; cbn; [|exact I]. rewrite orb_true_r. reflexivity.
      + apply orb_false_elim in B as [B _]. apply orb_false_elim in B as [B _]. apply orb_false_elim in B as [B1 B2].
        destruct (negb (m_flow m =? 0)%Z), (a_flow_plain d), (a_block_plain d); cbn in *; congruence.
    - destruct (a_single d) eqn:S; cbn; [|exact I]. rewrite orb_true_r. reflexivity.
    - exact I.
    - destruct (a_block d) eqn:S; cbn; [rewrite orb_true_r; destruct (_ || _); trivial|exact I].
    - destruct (a_block d) eqn:S; cbn; [rewrite orb_true_r; destruct (_ || _); trivial|exact I].
  Qed.
  Lemma moves_scalar m s : good m -> gdata (m_data m) ->
    match s with
    | DoubleQuoted => True
    | _ => a_flow_plain (m_data m) || a_block_plain (m_data m) || a_single (m_data m) || a_block (m_data m) = true
    end -> moves m (process_scalar m s).
  Proof.
    intros G D A. unfold process_scalar. apply moves_pen; [exact G|]. pose proof G as [Gu Gb Gi Gt]. destruct D as [_ _ _ Dv].
    destruct s.
    - apply adds_plain; auto using Plf, Pcr, Pascii.
    - apply adds_plain; auto using Plf, Pcr, Pascii.
    - apply adds_single; auto using Plf, Pcr, Pascii.
    - apply adds_double; auto using Plf, Pcr, Pascii.
      apply Forall_forall. intros c _ N. unfold must_escape in N. apply Pprintable; destruct (is_printable c), (is_ascii c), (g_unicode (m_cfg m)); cbn in *; try rewrite <- Gu; cbn; congruence.
    - apply adds_literal; auto using Plf, Pcr, Pascii.
    - apply adds_folded; auto using Plf, Pcr, Pascii.
  Qed.

  Lemma keeps_node m e mp si : good m -> gdata (m_data m) -> keeps m (emit_node m e mp si).
  Proof.
    intros G D. unfold emit_node. set (m0 := set_context m mp si).
    assert (M0 : moves m m0) by (eapply moves_same; [apply moves_refl; exact G|reflexivity..]).
    assert (D0 : gdata (m_data m0)) by exact D. pose proof (proj1 (proj2 M0)) as G0. clearbody m0.
    apply (keeps_after m m0); [exact M0|].
    assert (T : moves m0 (process_tag (process_anchor m0))).
    { pose proof (moves_anchor m0 G0 D0) as MA. eapply moves_trans; [exact MA|]. apply moves_tag; [apply MA|]. destruct (process_anchor_same m0) as (_ & _ & _ & -> & _). exact D0. }
    destruct e; try (apply moves_refl; exact G0).
    - unfold emit_alias. pose proof (moves_anchor m0 G0 D0) as MA.
      assert (MB : moves m0 (if m_simple (process_anchor m0) then on_pen (pput 0x20) (process_anchor m0) else process_anchor m0)).
      { apply moves_when; [exact MA|]. intros GA. apply moves_pen; [exact GA|]. apply adds_put. apply Pascii; lia. }
      eapply keeps_after; [exact MB|]. apply keeps_pop_state. apply MB.
    - unfold emit_scalar. destruct (select_style m0 plain_implicit quoted_implicit style) as [[h st]|] eqn:E; [|apply moves_refl; exact G0].
      pose proof (style_allowed _ _ _ _ _ _ E) as A.
      match goal with |- keeps _ (pop_indent (process_scalar (increase_indent (process_tag (process_anchor ?x)) _ _) _) >>= _) => set (m1 := x) end.
      assert (M1 : moves m0 m1) by (eapply moves_same; [apply moves_refl; exact G0|reflexivity..]).
      assert (D1 : gdata (m_data m1)).
      { destruct D0 as [E1 E2 E3 E4]. constructor; cbn; auto. intros s Hs.
        assert (K : h = Some [0x21] \/ h = a_handle (m_data m0)).
        { unfold select_style in E. destruct (_ && _ && negb quoted_implicit); [discriminate|]. injection E as <- _.
          match goal with |- context [if ?b then Some _ else _] => destruct b end; auto. }
        destruct K as [K|K]; [rewrite K in Hs; injection Hs as <-; apply chars1; lia|apply E2; congruence]. }
      assert (A1 : match st with DoubleQuoted => True | _ => a_flow_plain (m_data m1) || a_block_plain (m_data m1) || a_single (m_data m1) || a_block (m_data m1) = true end) by exact A.
      clearbody m1. pose proof (moves_anchor m1 (proj1 (proj2 M1)) D1) as MA.
      assert (DA : gdata (m_data (process_anchor m1))) by (destruct (process_anchor_same m1) as (_ & _ & _ & -> & _); exact D1).
      pose proof (moves_tag _ (proj1 (proj2 MA)) DA) as MT.
      assert (ET : m_data (process_tag (process_anchor m1)) = m_data m1) by (destruct (props_same m1) as (_ & _ & _ & K & _); exact K).
      set (m2 := process_tag (process_anchor m1)) in *.
      assert (M3 : moves m2 (increase_indent m2 true false)) by (eapply moves_same; [apply moves_refl; apply MT|reflexivity..]).
      assert (M4 : moves m2 (process_scalar (increase_indent m2 true false) st)).
      { eapply moves_trans; [exact M3|]. apply moves_scalar; [apply M3| |].
        - cbn [increase_indent set_indents m_data]. rewrite ET. exact D1.
        - cbn [increase_indent set_indents m_data]. rewrite ET. exact A1. }
      eapply keeps_after; [eapply moves_trans; [exact M1|eapply moves_trans; [exact MA|eapply moves_trans; [exact MT|exact M4]]]|].
      apply keeps_bind; [apply keeps_pop_indent; apply M4|]. intros m' G'. apply keeps_pop_state. exact G'.
    - unfold emit_sequence_start. eapply keeps_after; [exact T|]. eapply moves_same; [apply moves_refl; apply T|reflexivity..].
    - unfold emit_mapping_start. eapply keeps_after; [exact T|]. eapply moves_same; [apply moves_refl; apply T|reflexivity..].
  Qed.

  (* a helper: go on from a state reached *)
  Lemma keeps_node_from m m1 e mp si : moves m m1 -> gdata (m_data m1) -> keeps m (emit_node m1 e mp si).
  Proof. intros M D. eapply keeps_after; [exact M|]. apply keeps_node; [apply M|exact D]. Qed.
  Lemma moves_indent_if m m' b : moves m m' -> moves m (indent_if b m').
  Proof. intros M. unfold indent_if. apply moves_when; [exact M|]. apply moves_indent. Qed.
  Lemma moves_ind m m' s a b c : moves m m' -> Forall P s -> moves m (indicator s a b c m').
  Proof. intros M F. eapply moves_trans; [exact M|]. apply moves_indicator; [apply M|exact F]. Qed.
  Lemma moves_ind_ m m' : moves m m' -> moves m (indent_ m').
  Proof. intros M. eapply moves_trans; [exact M|]. apply moves_indent. apply M. Qed.

  Lemma moves_push m m' x : moves m m' -> moves m (push_state m' x).
  Proof. intros M. eapply moves_same; [exact M|reflexivity..]. Qed.

  Lemma keeps_close c f m m1 : 0x20 <= c -> c <= 0x7E -> moves m m1 -> keeps m (close_flow c f m1).
  Proof.
    intros C1 C2 M. unfold close_flow. apply keeps_bind.
    - assert (M2 : moves m (set_flow m1 (m_flow m1 - 1))) by (eapply moves_same; [exact M|reflexivity..]).
      eapply keeps_after; [exact M2|]. apply keeps_pop_indent. apply M2.
    - intros m' G. eapply keeps_after; [|apply keeps_pop_state].
      2: { match goal with |- good ?x => assert (K : moves m' x) end; [|apply K].
           apply moves_ind; [|apply chars1; assumption]. apply moves_when; [apply moves_refl; exact G|]. intros G'. apply moves_ind_. apply moves_ind; [apply moves_refl; exact G'|apply chars1; lia]. }
      apply moves_ind; [|apply chars1; assumption]. apply moves_when; [apply moves_refl; exact G|]. intros G'. apply moves_ind_. apply moves_ind; [apply moves_refl; exact G'|apply chars1; lia].
  Qed.
  Lemma moves_open_flow m c : good m -> 0x20 <= c -> c <= 0x7E -> moves m (open_flow c m).
  Proof. intros G C1 C2. eapply moves_same; [apply (moves_indicator m [c] true true false G (chars1 c C1 C2))|reflexivity..]. Qed.

  Lemma data_indent_if b m : m_data (indent_if b m) = m_data m.
  Proof. destruct b; reflexivity. Qed.

  Lemma keeps_flow_seq m e f : good m -> gdata (m_data m) -> keeps m (emit_flow_sequence_item m e f).
  Proof.
    intros G D. unfold emit_flow_sequence_item.
    set (m1 := if f then open_flow 0x5B m else m).
    assert (M1 : moves m m1) by (apply moves_when; [apply moves_refl; exact G|intros; apply moves_open_flow; auto; lia]).
    assert (D1 : m_data m1 = m_data m) by (unfold m1; destruct f; reflexivity). clearbody m1.
    set (m2 := if f then m1 else indicator [0x2C] false false false m1).
    assert (M2 : moves m m2) by (unfold m2; destruct f; [exact M1|apply moves_ind; [exact M1|apply chars1; lia]]).
    assert (D2 : m_data m2 = m_data m) by (unfold m2; destruct f; exact D1).
    assert (K : keeps m (emit_node (push_state (indent_if (wide m2) m2) FlowSeqItem) e false false)).
    { apply keeps_node_from; [apply moves_push; apply moves_indent_if; exact M2|]. cbn [push_state set_states m_data]. rewrite data_indent_if, D2. exact D. }
    destruct e; try exact K. apply keeps_close; [lia|lia|exact M1].
  Qed.
  Lemma keeps_flow_key m e f : good m -> gdata (m_data m) -> keeps m (emit_flow_mapping_key m e f).
  Proof.
    intros G D. unfold emit_flow_mapping_key.
    set (m1 := if f then open_flow 0x7B m else m).
    assert (M1 : moves m m1) by (apply moves_when; [apply moves_refl; exact G|intros; apply moves_open_flow; auto; lia]).
    assert (D1 : m_data m1 = m_data m) by (unfold m1; destruct f; reflexivity). clearbody m1.
    set (m2 := if f then m1 else indicator [0x2C] false false false m1).
    assert (M2 : moves m m2) by (unfold m2; destruct f; [exact M1|apply moves_ind; [exact M1|apply chars1; lia]]).
    assert (D2 : m_data m2 = m_data m) by (unfold m2; destruct f; exact D1).
    set (m3 := indent_if (wide m2) m2).
    assert (M3 : moves m m3) by (apply moves_indent_if; exact M2).
    assert (D3 : m_data m3 = m_data m) by (unfold m3; rewrite data_indent_if; exact D2).
    assert (K : keeps m (if negb (g_canonical (m_cfg m3)) && check_simple_key m3
      then emit_node (push_state m3 FlowMapSimple) e true true
      else emit_node (push_state (indicator [0x3F] true false false m3) FlowMapValue) e true false)).
    { match goal with |- context [if ?b then _ else _] => destruct b end; apply keeps_node_from.
      - apply moves_push; exact M3.
      - cbn [push_state set_states m_data]. rewrite D3. exact D.
      - apply moves_push; apply moves_ind; [exact M3|apply chars1; lia].
      - change (gdata (m_data m3)). rewrite D3. exact D. }
    destruct e; try exact K. apply keeps_close; [lia|lia|exact M1].
  Qed.
  Lemma keeps_flow_value m e f : good m -> gdata (m_data m) -> keeps m (emit_flow_mapping_value m e f).
  Proof.
    intros G D. unfold emit_flow_mapping_value. apply keeps_node_from.
    - apply moves_push; destruct f; (apply moves_ind; [|apply chars1; lia]); [apply moves_refl; exact G|apply moves_indent_if; apply moves_refl; exact G].
    - destruct f; [exact D|]. change (gdata (m_data (indent_if (wide m) m))). rewrite data_indent_if. exact D.
  Qed.
  Lemma moves_increase m a b : good m -> moves m (increase_indent m a b).
  Proof. intros G. eapply moves_same; [apply moves_refl; exact G|reflexivity..]. Qed.
  Lemma keeps_block_end m m1 : moves m m1 -> keeps m (pop_indent m1 >>= pop_state).
  Proof. intros M. apply keeps_bind; [eapply keeps_after; [exact M|apply keeps_pop_indent; apply M]|]. intros m' G. apply keeps_pop_state. exact G. Qed.
  Lemma keeps_block_seq m e f : good m -> gdata (m_data m) -> keeps m (emit_block_sequence_item m e f).
  Proof.
    intros G D. unfold emit_block_sequence_item.
    set (m1 := if f then increase_indent m false (m_mapping m && negb (p_indention (m_pen m))) else m).
    assert (M1 : moves m m1) by (apply moves_when; [apply moves_refl; exact G|intros; apply moves_increase; assumption]).
    assert (D1 : m_data m1 = m_data m) by (unfold m1; destruct f; reflexivity). clearbody m1.
    assert (K : keeps m (emit_node (push_state (indicator [0x2D] true false true (indent_ m1)) BlockSeqItem) e false false)).
    { apply keeps_node_from; [apply moves_push; apply moves_ind; [apply moves_ind_; exact M1|apply chars1; lia]|]. change (gdata (m_data m1)). rewrite D1. exact D. }
    destruct e; try exact K. apply keeps_block_end. exact M1.
  Qed.
  Lemma keeps_block_key m e f : good m -> gdata (m_data m) -> keeps m (emit_block_mapping_key m e f).
  Proof.
    intros G D. unfold emit_block_mapping_key.
    set (m1 := if f then increase_indent m false false else m).
    assert (M1 : moves m m1) by (apply moves_when; [apply moves_refl; exact G|intros; apply moves_increase; assumption]).
    assert (D1 : m_data m1 = m_data m) by (unfold m1; destruct f; reflexivity). clearbody m1.
    assert (K : keeps m (if check_simple_key (indent_ m1)
      then emit_node (push_state (indent_ m1) BlockMapSimple) e true true
      else emit_node (push_state (indicator [0x3F] true false true (indent_ m1)) BlockMapValue) e true false)).
    { destruct (check_simple_key (indent_ m1)); apply keeps_node_from.
      - apply moves_push; apply moves_ind_; exact M1.
      - change (gdata (m_data m1)). rewrite D1. exact D.
      - apply moves_push; apply moves_ind; [apply moves_ind_; exact M1|apply chars1; lia].
      - change (gdata (m_data m1)). rewrite D1. exact D. }
    destruct e; try exact K. apply keeps_block_end. exact M1.
  Qed.
  Lemma keeps_block_value m e f : good m -> gdata (m_data m) -> keeps m (emit_block_mapping_value m e f).
  Proof.
    intros G D. unfold emit_block_mapping_value. apply keeps_node_from.
    - apply moves_push; destruct f; (apply moves_ind; [|apply chars1; lia]); [apply moves_refl; exact G|apply moves_ind_; apply moves_refl; exact G].
    - destruct f; exact D.
  Qed.

  (* --- documents --- *)
  Lemma keeps_each f l : (forall t m, In t l -> good m -> keeps m (f t m)) -> forall m, good m -> keeps m (each_tag f l m).
  Proof.
    induction l as [|t l IH]; intros F m G; cbn [each_tag]; [apply moves_refl; exact G|].
    apply keeps_bind; [apply F; [left; reflexivity|exact G]|]. intros m' G'. apply IH; [|exact G']. intros t' m2 I' G2. apply F; [right; exact I'|exact G2].
  Qed.
  Lemma keeps_append t b m : Forall P (fst t) -> good m -> keeps m (append_tag m t b).
  Proof.
    intros F G. unfold append_tag. destruct (existsb _ _); [destruct b; apply moves_refl; exact G|].
    destruct G as [A B C D]. split; [apply adds_refl|]. split; [|reflexivity]. constructor; try assumption. cbn. apply Forall_app. split; [exact D|constructor; [exact F|constructor]].
  Qed.
  Lemma keeps_tag_step t m : good m -> keeps m (tag_step t m).
  Proof.
    intros G. unfold tag_step. destruct (analyze_tag_directive t) eqn:A; cbn [fail_if ebind]; [apply moves_refl; exact G|].
    apply keeps_append; [|exact G]. destruct t as [h p]. apply handle_valid in A as [V _]. apply handle_P. exact V.
  Qed.
  Lemma keeps_default t m : In t default_tags -> good m -> keeps m (append_tag m t true).
  Proof.
    intros H G. apply keeps_append; [|exact G]. destruct H as [<-|[<-|[]]]; cbn; repeat (constructor; [apply Pascii; lia|]); constructor.
  Qed.
  Lemma moves_when2 (b : bool) m x y : moves m x -> moves m y -> moves m (if b then x else y).
  Proof. destruct b; auto. Qed.
  Lemma moves_open_ m m' n : moves m m' -> moves m (on_pen (fun p => set_open p n) m').
  Proof. intros M. eapply moves_trans; [exact M|apply moves_open; apply M]. Qed.
  Lemma moves_flush_ m m' : moves m m' -> moves m (on_pen (fun p => pop_ p CFlush (p_column p)) m').
  Proof. intros M. eapply moves_trans; [exact M|apply moves_flush; apply M]. Qed.
  Lemma moves_state m m' x : moves m m' -> moves m (set_state m' x).
  Proof. intros M. eapply moves_same; [exact M|reflexivity..]. Qed.
  Ltac ascii := repeat (constructor; [apply Pascii; lia|]); constructor.

  Lemma keeps_document_start m e first_ : good m -> text_event e -> keeps m (emit_document_start m e first_).
  Proof.
    intros G T. unfold emit_document_start. destruct e; try (apply moves_refl; exact G).
    - apply moves_state. apply moves_flush_. apply moves_when; [apply moves_refl; exact G|]. intros _. apply moves_ind_. apply moves_open_. apply moves_ind; [apply moves_refl; exact G|]. ascii.
    - destruct (match v with Some v0 => analyze_version v0 | None => None end) as [x|] eqn:V; cbn [fail_if ebind]; [apply moves_refl; exact G|].
      change (fun t m => fail_if (analyze_tag_directive t) m >>= (fun m0 => append_tag m0 t false)) with tag_step.
      pose proof (keeps_each tag_step tags (fun t m0 _ => keeps_tag_step t m0) m G) as K.
      destruct (directive_tags tags m) as [(F & _ & _ & E)|(F & x & m' & E & Ev)]; rewrite E in K |- *; cbn [ebind]; [|exact K].
      set (m1 := set_tags m (m_tags m ++ tags)) in *. cbn [keeps] in K.
      pose proof (keeps_each _ default_tags keeps_default m1 (proj1 (proj2 K))) as K1.
      destruct (append_tags_defaults default_tags m1) as (m2 & E2 & _). rewrite E2 in K1 |- *. cbn [ebind keeps] in K1 |- *.
      assert (M2 : moves m m2) by (eapply moves_trans; [exact K|exact K1]). clear K K1 E2 E m1.
      apply moves_open_. apply moves_state.
      match goal with |- moves m (if _ then (if _ then indent_ (indicator _ _ _ _ (indent_ ?x)) else _) else _) => set (m4 := x) end.
      assert (M4 : moves m m4).
      { unfold m4. match goal with |- moves m (fold_left _ tags ?x) => set (m3 := x) end.
        assert (M3 : moves m m3).
        { assert (D : moves m (if has_directives v tags && negb (p_open (m_pen m2) =? 0) then indent_ (indicator s_dots true false false m2) else m2)).
          { apply moves_when; [exact M2|]. intros G2. apply moves_ind_. apply moves_ind; [apply moves_refl; exact G2|]. ascii. }
          unfold m3. destruct v as [v|]; [|apply moves_open_; exact D].
          apply moves_ind_. apply moves_ind; [|destruct (snd v =? 1); ascii]. apply moves_ind; [|ascii]. apply moves_open_. exact D. }
        clearbody m3. clear m4. revert m3 M3. cbn [text_event] in T.
        induction tags as [|t ts IH]; intros m3 M3; cbn [fold_left]; [exact M3|].
        inversion F as [|? ? [F1 F2] F3]; subst. inversion T as [|? ? [T1 T2] T3]; subst.
        apply IH; [exact T3|exact F3|].
        apply moves_ind_.
        assert (A1 : moves m (indicator s_tag true false false m3)) by (apply moves_ind; [exact M3|ascii]).
        set (ma := indicator s_tag true false false m3) in *.
        assert (A2 : moves m (on_pen (write_tag_handle (fst t)) ma)).
        { eapply moves_trans; [exact A1|]. apply moves_pen; [apply A1|]. apply adds_tag_handle; [apply Pascii|apply handle_P; exact F1]. }
        eapply moves_trans; [exact A2|]. apply moves_pen; [apply A2|]. apply adds_tag_content; [apply Pascii|apply text_small; exact T2]. }
      clearbody m4.
      assert (M5 : moves m (indicator s_dashes true false false (indent_ m4))) by (apply moves_ind; [apply moves_ind_; exact M4|ascii]).
      apply moves_when2; [|exact M4]. apply moves_when2; [apply moves_ind_; exact M5|exact M5].
  Qed.
  Lemma keeps_document_end m e : good m -> keeps m (emit_document_end m e).
  Proof.
    intros G. unfold emit_document_end. destruct e; try (apply moves_refl; exact G).
    match goal with |- keeps m (EOk (set_tags (set_state (on_pen _ ?x) _) _)) => set (m1 := x) end.
    assert (M1 : moves m m1).
    { pose proof (moves_indent m G) as M. unfold m1. apply moves_when2; [|apply moves_when2; [apply moves_open_; exact M|exact M]].
      apply moves_ind_. apply moves_open_. apply moves_ind; [exact M|ascii]. }
    clearbody m1. pose proof (moves_state _ _ DocStart (moves_flush_ _ _ M1)) as [A [[B C D E] F]]. split; [exact A|]. split; [constructor; try assumption; constructor|exact F].
  Qed.

  Lemma keeps_machine m e : good m -> gdata (m_data m) -> text_event e -> m_state m <> StreamStart -> keeps m (state_machine m e).
  Proof.
    intros G D T N. unfold state_machine. destruct (m_state m);
      try (congruence || apply keeps_document_start; assumption) ;
      first [apply keeps_document_start; assumption | apply keeps_document_end; assumption | apply keeps_flow_seq; assumption
        | apply keeps_flow_key; assumption | apply keeps_flow_value; assumption | apply keeps_block_seq; assumption | apply keeps_block_key; assumption
        | apply keeps_block_value; assumption | (apply moves_refl; exact G) | (apply keeps_node_from; [apply moves_push; apply moves_refl; exact G|exact D])].
  Qed.

  (* --- analysis --- *)
  Lemma flag_special s : forall a b c d f,
    f_special (flag_loop u a b c d s f) = f_special f || existsb (fun c => negb (is_printable c) || (negb (is_ascii c) && negb u)) s.
  Proof.
    induction s as [|x r IH]; intros a b c d f; cbn [flag_loop existsb]; [rewrite orb_false_r; reflexivity|].
    destruct (indicators_at _ _ _ _) as [bi fi]. rewrite IH. cbn [f_special]. rewrite !orb_assoc. reflexivity.
  Qed.
  Lemma value_P v d : let d' := analyze_scalar u v d in a_flow_plain d' || a_block_plain d' || a_single d' || a_block d' = true -> Forall P (a_value d').
  Proof.
    cbn zeta. unfold analyze_scalar. destruct v as [|c r]; cbn [a_value]; [constructor|]. set (v := c :: r). intros H.
    assert (S : f_special (scalar_flags u v) = false).
    { destruct (f_special (scalar_flags u v)); [|reflexivity]. cbn in H. rewrite !orb_true_r in H. cbn in H. rewrite !andb_false_r in H. discriminate. }
    unfold scalar_flags in S. rewrite flag_special in S. cbn [f_special orb] in S.
    apply Forall_forall. intros x X. apply Pprintable.
    - destruct (is_printable x) eqn:Px; [reflexivity|]. assert (K : existsb (fun c => negb (is_printable c) || (negb (is_ascii c) && negb u)) v = true); [|congruence].
      apply existsb_exists. exists x. rewrite Px. auto.
    - destruct (is_ascii x) eqn:Px, u eqn:Eu; try reflexivity. assert (K : existsb (fun c => negb (is_printable c) || (negb (is_ascii c) && negb false)) v = true); [|congruence].
      apply existsb_exists. exists x. rewrite Px. rewrite orb_true_r. auto.
  Qed.
  Lemma strip_prefix_app p : forall s r, strip_prefix p s = Some r -> s = p ++ r.
  Proof. induction p as [|x p IH]; intros s r H; [destruct s; cbn in H; injection H as <-; reflexivity|]. destruct s as [|y s]; [discriminate|]. cbn in H. destruct (N.eqb_spec x y); [|discriminate]. subst. cbn. f_equal. apply IH. exact H. Qed.
  Lemma match_tag_spec tags s h x : match_tag tags s = Some (h, x) -> exists p, In (h, p) tags /\ s = p ++ x.
  Proof.
    induction tags as [|[h' p] r IH]; cbn [match_tag]; [discriminate|].
    destruct (strip_prefix p s) as [[|y suf]|] eqn:E.
    - intros H. destruct (IH H) as (q & I & Q). exists q. split; [right; exact I|exact Q].
    - intros H. injection H as <- <-. exists p. split; [left; reflexivity|apply strip_prefix_app; exact E].
    - intros H. destruct (IH H) as (q & I & Q). exists q. split; [right; exact I|exact Q].
  Qed.
  Lemma gdata_none : gdata no_data.
  Proof. constructor; cbn; intros; discriminate. Qed.
  Lemma gdata_anchor s b d d' : gdata d -> analyze_anchor s b d = inr d' -> gdata d'.
  Proof.
    intros [A B C D] H. pose proof (proj1 (anchor_valid s b d) (ex_intro _ d' H)) as [_ V]. unfold analyze_anchor in H. destruct s as [|x r]; [discriminate|].
    destruct (forallb is_alpha (x :: r)); [|discriminate]. injection H as <-. constructor; cbn; auto. intros s E. injection E as <-. apply alpha_P. exact V.
  Qed.
  Lemma gdata_tag tags s d d' : Forall (fun t => Forall P (fst t)) tags -> text s -> gdata d -> analyze_tag tags s d = inr d' -> gdata d'.
  Proof.
    intros F T [A B C D] H. unfold analyze_tag in H. destruct s as [|x r]; [discriminate|].
    destruct (match_tag tags (x :: r)) as [[h y]|] eqn:M; injection H as <-; constructor; cbn; auto.
    - intros s E. injection E as <-. apply match_tag_spec in M as (p & I & _). rewrite Forall_forall in F. apply (F _ I).
    - intros s E. injection E as <-. apply match_tag_spec in M as (p & _ & Q). apply text_small. rewrite Q in T. apply Forall_app in T. apply T.
    - intros s E. injection E as <-. apply text_small. exact T.
  Qed.
  Lemma gdata_maybe_anchor a d d' : gdata d -> maybe a (fun a => analyze_anchor a false) d = inr d' -> gdata d'.
  Proof. intros G H. destruct a as [s|]; cbn in H; [eapply gdata_anchor; eassumption|congruence]. Qed.
  Lemma gdata_maybe_tag tags t d d' : Forall (fun t => Forall P (fst t)) tags -> otext t -> gdata d -> maybe t (analyze_tag tags) d = inr d' -> gdata d'.
  Proof. intros F T G H. destruct t as [s|]; cbn in *; [eapply gdata_tag; eassumption|congruence]. Qed.
  Lemma analysed_data m e d : good m -> text_event e -> analyze_event (m_cfg m) (m_tags m) e = inr d -> gdata d.
  Proof.
    intros [Gu _ _ Gt] T H. destruct e; cbn [analyze_event text_event] in *; try (injection H as <-; apply gdata_none).
    - eapply gdata_anchor; [apply gdata_none|exact H].
    - destruct T as (_ & Tt & Tv). unfold then_ in H.
      destruct (maybe anchor (fun a => analyze_anchor a false) no_data) as [x|d1] eqn:E1; [discriminate|]. apply (gdata_maybe_anchor _ _ _ gdata_none) in E1.
      destruct (if g_canonical (m_cfg m) || (negb plain_implicit && negb quoted_implicit) then maybe tag (analyze_tag (m_tags m)) d1 else inr d1) as [x|d2] eqn:E2; [discriminate|].
      assert (D2 : gdata d2) by (destruct (g_canonical (m_cfg m) || _); [eapply gdata_maybe_tag; eassumption|congruence]).
      injection H as <-. rewrite Gu. destruct D2 as [A B C D]. constructor; try (unfold analyze_scalar; destruct value; cbn; assumption). apply value_P.
    - destruct T as (_ & Tt). unfold then_ in H.
      destruct (maybe anchor (fun a => analyze_anchor a false) no_data) as [x|d1] eqn:E1; [discriminate|]. apply (gdata_maybe_anchor _ _ _ gdata_none) in E1.
      destruct (g_canonical (m_cfg m) || negb implicit); [eapply gdata_maybe_tag; eassumption|congruence].
    - destruct T as (_ & Tt). unfold then_ in H.
      destruct (maybe anchor (fun a => analyze_anchor a false) no_data) as [x|d1] eqn:E1; [discriminate|]. apply (gdata_maybe_anchor _ _ _ gdata_none) in E1.
      destruct (g_canonical (m_cfg m) || negb implicit); [eapply gdata_maybe_tag; eassumption|congruence].
  Qed.
  Lemma keeps_one m e : good m -> text_event e -> m_state m <> StreamStart -> keeps m (emit_one m e).
  Proof.
    intros G T N. unfold emit_one. destruct (analyze_event (m_cfg m) (m_tags m) e) as [x|d] eqn:A; [apply moves_refl; exact G|].
    apply keeps_bind.
    - assert (M : moves m (set_data m d)) by (eapply moves_same; [apply moves_refl; exact G|reflexivity..]).
      eapply keeps_after; [exact M|]. apply keeps_machine; [apply M|eapply analysed_data; eassumption|exact T|exact N].
    - intros m' G'. eapply moves_same; [apply moves_refl; exact G'|reflexivity..].
  Qed.
End Out.
