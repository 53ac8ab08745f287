(* The emitter waits for some events before it writes; what it writes is the same as if
   all events were there from the start. *)
From Verif Require Import Base Utf8Spec ReaderModel CharSpec Types WriterModel WriterSpec PenModel EmitModel TreeSpec EmitLoop.

(* all the events are in the queue *)
Fixpoint run (l : list ev) (m : emitter) : eres :=
  match l with
  | [] => EOk (set_events m [])
  | e :: r => emit_one (set_events m l) e >>= run r
  end.

Definition reframe (l : list ev) (r : eres) : eres :=
  match r with EOk m => EOk (set_events m l) | EErr x m => EErr x (set_events m l) | EBad => EBad end.
Definition look (q l : list ev) : Prop :=
  hd_error q = hd_error l /\ check_empty_sequence q = check_empty_sequence l /\ check_empty_mapping q = check_empty_mapping l.

Lemma simple_look m l : look (m_events m) l -> check_simple_key (set_events m l) = check_simple_key m.
Proof.
  intros (H & S & M). unfold check_simple_key. cbn [set_events m_events m_data].
  destruct (m_events m) as [|e q], l as [|e' l]; try discriminate; [reflexivity|]. injection H as <-. rewrite S, M. reflexivity.
Qed.
Lemma anchor_frame m l : process_anchor (set_events m l) = set_events (process_anchor m) l.
Proof. unfold process_anchor. cbn [set_events m_data]. destruct (a_anchor (m_data m)); reflexivity. Qed.
Lemma tag_frame m l : process_tag (set_events m l) = set_events (process_tag m) l.
Proof. unfold process_tag. cbn [set_events m_data]. destruct (a_handle (m_data m)), (a_suffix (m_data m)); reflexivity. Qed.
Lemma anchor_events m : m_events (process_anchor m) = m_events m.
Proof. unfold process_anchor. destruct (a_anchor (m_data m)); reflexivity. Qed.
Lemma tag_events m : m_events (process_tag m) = m_events m.
Proof. unfold process_tag. destruct (a_handle (m_data m)), (a_suffix (m_data m)); reflexivity. Qed.
Lemma pop_state_frame m l : pop_state (set_events m l) = reframe l (pop_state m).
Proof. unfold pop_state. cbn [set_events m_states]. destruct (m_states m); reflexivity. Qed.
Lemma pop_indent_frame m l : pop_indent (set_events m l) = reframe l (pop_indent m).
Proof. unfold pop_indent. cbn [set_events m_indents]. destruct (m_indents m); reflexivity. Qed.
Lemma bind_frame l r r' k k' : r' = reframe l r -> (forall m, k' (set_events m l) = reframe l (k m)) -> (r' >>= k') = reframe l (r >>= k).
Proof. intros -> H. destruct r; cbn; auto. Qed.

Lemma alias_frame m l : emit_alias (set_events m l) = reframe l (emit_alias m).
Proof.
  unfold emit_alias. rewrite anchor_frame. cbv zeta. set (m1 := process_anchor m). change (m_simple (set_events m1 l)) with (m_simple m1).
  destruct (m_simple m1); [exact (pop_state_frame (on_pen (pput 0x20) m1) l)|exact (pop_state_frame m1 l)].
Qed.
Lemma scalar_frame m l pi qi st : emit_scalar (set_events m l) pi qi st = reframe l (emit_scalar m pi qi st).
Proof.
  unfold emit_scalar. change (select_style (set_events m l) pi qi st) with (select_style m pi qi st). destruct (select_style m pi qi st) as [[h s]|]; [|reflexivity]. cbv zeta.
  match goal with |- context [process_anchor (set_data (set_events m l) ?d)] => change (set_data (set_events m l) d) with (set_events (set_data m d) l) end.
  rewrite anchor_frame, tag_frame. match goal with |- context [set_events (process_tag ?x) l] => set (m1 := process_tag x) end.
  apply bind_frame; [|intros; apply pop_state_frame]. exact (pop_indent_frame (process_scalar (increase_indent m1 true false) s) l).
Qed.
Lemma seq_frame m l st : look (m_events m) l -> emit_sequence_start (set_events m l) st = reframe l (emit_sequence_start m st).
Proof.
  intros (_ & S & _). unfold emit_sequence_start. rewrite anchor_frame, tag_frame. cbv zeta. cbn [set_events m_flow m_cfg m_events]. rewrite tag_events, anchor_events, S. reflexivity.
Qed.
Lemma map_frame m l st : look (m_events m) l -> emit_mapping_start (set_events m l) st = reframe l (emit_mapping_start m st).
Proof.
  intros (_ & _ & S). unfold emit_mapping_start. rewrite anchor_frame, tag_frame. cbv zeta. cbn [set_events m_flow m_cfg m_events]. rewrite tag_events, anchor_events, S. reflexivity.
Qed.
Lemma node_frame m l e mapping simple : look (m_events m) l -> emit_node (set_events m l) e mapping simple = reframe l (emit_node m e mapping simple).
Proof.
  intros L. unfold emit_node. change (set_context (set_events m l) mapping simple) with (set_events (set_context m mapping simple) l).
  destruct e; try reflexivity; [apply alias_frame|apply scalar_frame|apply seq_frame; exact L|apply map_frame; exact L].
Qed.
Lemma close_frame c first m l : close_flow c first (set_events m l) = reframe l (close_flow c first m).
Proof.
  unfold close_flow. apply bind_frame; [exact (pop_indent_frame (set_flow m (m_flow m - 1)) l)|]. intros m1. cbv zeta. change (m_cfg (set_events m1 l)) with (m_cfg m1).
  destruct (g_canonical (m_cfg m1) && negb first); [exact (pop_state_frame (indicator [c] false false false (indent_ (indicator [0x2C] false false false m1))) l)|exact (pop_state_frame (indicator [c] false false false m1) l)].
Qed.
Lemma fail_frame o m l : fail_if o (set_events m l) = reframe l (fail_if o m).
Proof. destruct o; reflexivity. Qed.
Lemma append_frame m t b l : append_tag (set_events m l) t b = reframe l (append_tag m t b).
Proof. unfold append_tag. cbn [set_events m_tags]. match goal with |- context [existsb ?f ?x] => destruct (existsb f x) end; [destruct b|]; reflexivity. Qed.
Lemma each_frame f l ts : (forall t m, f t (set_events m l) = reframe l (f t m)) -> forall m, each_tag f ts (set_events m l) = reframe l (each_tag f ts m).
Proof. intros H. induction ts as [|t ts IH]; intros m; cbn [each_tag]; [reflexivity|]. apply bind_frame; auto. Qed.
Lemma fold_frame {A} (f : emitter -> A -> emitter) l ts : (forall t m, f (set_events m l) t = set_events (f m t) l) -> forall m, fold_left f ts (set_events m l) = set_events (fold_left f ts m) l.
Proof. intros H. induction ts as [|t ts IH]; intros m; cbn [fold_left]; [reflexivity|]. rewrite H. apply IH. Qed.
Lemma if_frame (b : bool) (f : emitter -> emitter) l m : (forall m, f (set_events m l) = set_events (f m) l) -> (if b then f (set_events m l) else set_events m l) = set_events (if b then f m else m) l.
Proof. intros H. destruct b; auto. Qed.
Lemma doc_start_frame m l e first : emit_document_start (set_events m l) e first = reframe l (emit_document_start m e first).
Proof.
  unfold emit_document_start. destruct e; try reflexivity.
  - cbv zeta. change (m_pen (set_events m l)) with (m_pen m). destruct (p_open (m_pen m) =? 2); reflexivity.
  - apply bind_frame; [apply fail_frame|]. intros m1.
    apply bind_frame; [apply each_frame; intros t m2; apply bind_frame; [apply fail_frame|intros; apply append_frame]|]. intros m2.
    apply bind_frame; [apply each_frame; intros t m3; apply append_frame|]. intros m3. cbv zeta.
    change (m_cfg (set_events m3 l)) with (m_cfg m3). change (m_pen (set_events m3 l)) with (m_pen m3).
    rewrite (if_frame (has_directives v tags && negb (p_open (m_pen m3) =? 0)) (fun m => indent_ (indicator s_dots true false false m))) by reflexivity.
    match goal with |- context [on_pen (fun p => set_open p 0) (set_events ?x l)] => set (m4 := x) end.
    change (on_pen (fun p => set_open p 0) (set_events m4 l)) with (set_events (on_pen (fun p => set_open p 0) m4) l). set (m5 := on_pen (fun p => set_open p 0) m4).
    assert (E : forall x y, (match v with Some v => indent_ (indicator (if snd v =? 1 then x else y) true false false (indicator s_yaml true false false (set_events m5 l))) | None => set_events m5 l end) =
      set_events (match v with Some v => indent_ (indicator (if snd v =? 1 then x else y) true false false (indicator s_yaml true false false m5)) | None => m5 end) l) by (intros; destruct v; reflexivity).
    rewrite E. match goal with |- context [fold_left ?f tags (set_events ?x l)] => rewrite (fold_frame f l tags) by reflexivity; set (m6 := fold_left f tags x) end.
    change (m_cfg (indicator s_dashes true false false (indent_ (set_events m6 l)))) with (m_cfg (indicator s_dashes true false false (indent_ m6))).
    destruct (negb (implicit && first && negb (g_canonical (m_cfg m3)) && negb (has_directives v tags))); [|reflexivity].
    destruct (g_canonical (m_cfg (indicator s_dashes true false false (indent_ m6)))); reflexivity.
Qed.
Lemma indent_if_frame b m l : indent_if b (set_events m l) = set_events (indent_if b m) l.
Proof. destruct b; reflexivity. Qed.
Ltac node_frames H := match goal with |- emit_node ?a _ _ _ = reframe ?l (emit_node ?b _ _ _) => change a with (set_events b l); apply node_frame; exact H end.
Lemma events_if b m : m_events (indent_if b m) = m_events m. Proof. destruct b; reflexivity. Qed.
Lemma wide_frame m l : wide (set_events m l) = wide m. Proof. reflexivity. Qed.

Lemma machine_frame m l e : look (m_events m) l -> state_machine (set_events m l) e = reframe l (state_machine m e).
Proof.
  intros L. unfold state_machine. change (m_state (set_events m l)) with (m_state m).
  assert (Q : forall first, emit_flow_sequence_item (set_events m l) e first = reframe l (emit_flow_sequence_item m e first)).
  { intros first. unfold emit_flow_sequence_item. cbv zeta. rewrite (if_frame first (open_flow 0x5B)) by reflexivity. set (m1 := if first then open_flow 0x5B m else m).
    assert (E1 : m_events m1 = m_events m) by (unfold m1; destruct first; reflexivity).
    destruct e; try apply close_frame;
    (replace (if first then set_events m1 l else indicator [0x2C] false false false (set_events m1 l)) with (set_events (if first then m1 else indicator [0x2C] false false false m1) l) by (destruct first; reflexivity);
     set (m2 := if first then m1 else indicator [0x2C] false false false m1); rewrite wide_frame, indent_if_frame;
     assert (E2 : m_events m2 = m_events m) by (unfold m2; destruct first; exact E1);
     rewrite <- E2, <- (events_if (wide m2)) in L;
     apply (node_frame (push_state (indent_if (wide m2) m2) FlowSeqItem)); exact L). }
  assert (K : forall first, emit_flow_mapping_key (set_events m l) e first = reframe l (emit_flow_mapping_key m e first)).
  { intros first. unfold emit_flow_mapping_key. cbv zeta. rewrite (if_frame first (open_flow 0x7B)) by reflexivity. set (m1 := if first then open_flow 0x7B m else m).
    assert (E1 : m_events m1 = m_events m) by (unfold m1; destruct first; reflexivity).
    destruct e; try apply close_frame;
    (replace (if first then set_events m1 l else indicator [0x2C] false false false (set_events m1 l)) with (set_events (if first then m1 else indicator [0x2C] false false false m1) l) by (destruct first; reflexivity);
     set (m2 := if first then m1 else indicator [0x2C] false false false m1); rewrite wide_frame, indent_if_frame;
     assert (E2 : m_events m2 = m_events m) by (unfold m2; destruct first; exact E1);
     rewrite <- E2, <- (events_if (wide m2)) in L; set (m3 := indent_if (wide m2) m2) in *; rewrite (simple_look m3 l L); change (m_cfg (set_events m3 l)) with (m_cfg m3);
     destruct (negb (g_canonical (m_cfg m3)) && check_simple_key m3);
     [apply (node_frame (push_state m3 FlowMapSimple)); exact L|apply (node_frame (push_state (indicator [0x3F] true false false m3) FlowMapValue)); exact L]). }
  assert (V : forall simple, emit_flow_mapping_value (set_events m l) e simple = reframe l (emit_flow_mapping_value m e simple)).
  { intros simple. unfold emit_flow_mapping_value. cbv zeta. destruct simple; [apply (node_frame (push_state (indicator [0x3A] false false false m) FlowMapKey)); exact L|].
    rewrite wide_frame, indent_if_frame. apply (node_frame (push_state (indicator [0x3A] true false false (indent_if (wide m) m)) FlowMapKey)). cbn. rewrite events_if. exact L. }
  assert (BQ : forall first, emit_block_sequence_item (set_events m l) e first = reframe l (emit_block_sequence_item m e first)).
  { intros first. unfold emit_block_sequence_item. cbv zeta. change (m_mapping (set_events m l)) with (m_mapping m). change (m_pen (set_events m l)) with (m_pen m).
    rewrite (if_frame first (fun m1 => increase_indent m1 false (m_mapping m && negb (p_indention (m_pen m))))) by reflexivity. cbv beta.
    set (m1 := if first then increase_indent m false (m_mapping m && negb (p_indention (m_pen m))) else m). assert (E1 : m_events m1 = m_events m) by (unfold m1; destruct first; reflexivity).
    rewrite <- E1 in L. destruct e; try (apply bind_frame; [apply pop_indent_frame|intros; apply pop_state_frame]); apply (node_frame (push_state (indicator [0x2D] true false true (indent_ m1)) BlockSeqItem)); exact L. }
  assert (BK : forall first, emit_block_mapping_key (set_events m l) e first = reframe l (emit_block_mapping_key m e first)).
  { intros first. unfold emit_block_mapping_key. cbv zeta.
    rewrite (if_frame first (fun m1 => increase_indent m1 false false)) by reflexivity. cbv beta.
    set (m1 := if first then increase_indent m false false else m). assert (E1 : m_events m1 = m_events m) by (unfold m1; destruct first; reflexivity).
    rewrite <- E1 in L. destruct e; try (apply bind_frame; [apply pop_indent_frame|intros; apply pop_state_frame]);
    (change (indent_ (set_events m1 l)) with (set_events (indent_ m1) l); rewrite (simple_look (indent_ m1) l L); destruct (check_simple_key (indent_ m1));
     [apply (node_frame (push_state (indent_ m1) BlockMapSimple)); exact L|apply (node_frame (push_state (indicator [0x3F] true false true (indent_ m1)) BlockMapValue)); exact L]). }
  assert (BV : forall simple, emit_block_mapping_value (set_events m l) e simple = reframe l (emit_block_mapping_value m e simple)).
  { intros simple. unfold emit_block_mapping_value. cbv zeta. destruct simple; [apply (node_frame (push_state (indicator [0x3A] false false false m) BlockMapKey)); exact L|].
    apply (node_frame (push_state (indicator [0x3A] true false true (indent_ m)) BlockMapKey)). exact L. }
  destruct (m_state m); auto.
  - unfold emit_stream_start. destruct e; try reflexivity. cbv zeta. cbn [on_pen set_pen set_events m_cfg m_pen].
    match goal with |- context [if encoding_eqb ?a ?b then _ else _] => destruct (encoding_eqb a b) end; reflexivity.
  - apply doc_start_frame.
  - apply doc_start_frame.
  - unfold emit_document_content. apply (node_frame (push_state m DocEnd)). exact L.
  - unfold emit_document_end. destruct e; try reflexivity. cbv zeta. change (m_pen (indent_ (set_events m l))) with (m_pen (indent_ m)). destruct (negb implicit); [reflexivity|].
    destruct (p_open (m_pen (indent_ m)) =? 0); reflexivity.
Qed.

Lemma one_frame m q l e : m_events m = e :: q -> look (e :: q) l ->
  emit_one (set_events m l) e = match emit_one m e with EOk m1 => EOk (set_events m1 (tl l)) | EErr x m1 => EErr x (set_events m1 l) | EBad => EBad end.
Proof.
  intros Q L. unfold emit_one. change (m_cfg (set_events m l)) with (m_cfg m). change (m_tags (set_events m l)) with (m_tags m).
  destruct (analyze_event (m_cfg m) (m_tags m) e) as [x|d]; [reflexivity|].
  change (set_data (set_events m l) d) with (set_events (set_data m d) l). rewrite machine_frame by (cbn; rewrite Q; exact L).
  destruct (state_machine (set_data m d) e); reflexivity.
Qed.
Lemma run_events l m x : run l (set_events m x) = run l m.
Proof. destruct l; reflexivity. Qed.
Lemma look_more e q more : need_more (e :: q) = false -> look (e :: q) ((e :: q) ++ more).
Proof.
  intros N. split; [reflexivity|].
  assert (H : (exists f r, q = f :: r) \/ (check_empty_sequence [e] = false /\ forall r, check_empty_sequence (e :: r) = false /\ check_empty_mapping (e :: r) = false)).
  { destruct e; try (right; repeat split; reflexivity); left; (destruct q as [|f r]; [discriminate|eauto]). }
  destruct H as [(f & r & ->)|(_ & H)]; [|destruct (H q), (H (q ++ more)); cbn [app]; split; congruence].
  destruct e; split; reflexivity.
Qed.
Lemma loop_run n : forall m m' more, emit_loop n m = EOk m' -> run (m_events m ++ more) m = run (m_events m' ++ more) m'.
Proof.
  induction n as [|n IH]; intros m m' more H; cbn [emit_loop] in H; [injection H as <-; reflexivity|].
  destruct (m_events m) as [|e q] eqn:Q; [injection H as <-; rewrite Q; reflexivity|].
  destruct (need_more (e :: q)) eqn:N; [injection H as <-; rewrite Q; reflexivity|].
  destruct (emit_one m e) as [m1|x m1|] eqn:E; cbn [ebind] in H; try discriminate. rewrite <- (IH m1 m' more H).
  cbn [app run]. rewrite (one_frame m q (e :: q ++ more) e Q) by (apply (look_more e q more N)). rewrite E. cbn [ebind tl]. rewrite run_events.
  assert (T : m_events m1 = q).
  { unfold emit_one in E. destruct (analyze_event (m_cfg m) (m_tags m) e) as [x|d]; [discriminate|].
    destruct (state_machine (set_data m d) e) as [m2|x m2|] eqn:S; cbn [ebind] in E; try discriminate. injection E as <-. cbn.
    assert (K : state_machine (set_events (set_data m d) (e :: q)) e = reframe (e :: q) (state_machine (set_data m d) e)) by (apply machine_frame; cbn; rewrite Q; repeat split; reflexivity).
    replace (set_events (set_data m d) (e :: q)) with (set_data m d) in K by (rewrite <- Q; destruct m; reflexivity). rewrite S in K. cbn [reframe] in K. injection K as K.
    rewrite K. reflexivity. }
  rewrite T. reflexivity.
Qed.
Theorem emit_all_run es : forall m mf, emit_all m es = EOk mf -> run (m_events m ++ es) m = run (m_events mf) mf.
Proof.
  induction es as [|e es IH]; intros m mf H; cbn [emit_all] in H; [injection H as <-; rewrite app_nil_r; reflexivity|].
  destruct (emit_event m e) as [m1|x m1|] eqn:E; cbn [ebind] in H; try discriminate.
  rewrite <- (IH m1 mf H). unfold emit_event in E. apply (loop_run _ _ _ es) in E. rewrite <- E. cbn [set_events m_events]. rewrite <- app_assoc. symmetry. apply run_events.
Qed.
Corollary emitted_run g es mf : emit_all (init_emitter g) es = EOk mf -> m_events mf = [] -> run es (init_emitter g) = EOk mf.
Proof. intros H E. apply emit_all_run in H. cbn [init_emitter m_events app] in H. rewrite H, E. cbn [run]. rewrite <- E. destruct mf; reflexivity. Qed.
