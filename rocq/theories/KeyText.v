(* The simple keys the emitter writes are on one line and short. *)
From Verif Require Import Base ReaderModel Utf8Spec Utf8Lemmas CharSpec Types WriterModel WriterSpec PenModel PenText EmitModel EmitSpec TreeSpec EventAcc EmitInv RoundSpec PlainTrip TagTrip TextGrammar EmitPen EmitLeaf KeySpec.
From Verif Require ScanStep ParserModel GrammarSpec TagRun.
Import TagRun(tag_text).

(* ---- sequences of steps ---- *)
Definition queued (m m' : emitter) : Prop := exists l, m' = set_events m (m_events m ++ l).
Lemma takes_nil_inv m es m' : takes m es m' -> es = [] -> queued m m'.
Proof.
  induction 1 as [|es m1 e H IH|es m1 e q m2 H IH Q N E]; intros X.
  - exists []. rewrite app_nil_r. destruct m; reflexivity.
  - destruct (IH X) as (l & ->). exists (l ++ [e]). cbn. rewrite <- app_assoc. reflexivity.
  - destruct es; discriminate.
Qed.
Lemma takes_trans m es m1 es' m2 : takes m es m1 -> takes m1 es' m2 -> takes m (es ++ es') m2.
Proof.
  intros A. induction 1 as [|es' m2 e H IH|es' m2 e q m3 H IH Q N E]; [rewrite app_nil_r; exact A|apply T_give; exact IH|]. rewrite app_assoc. eapply T_take; eassumption.
Qed.
Lemma takes_split m es m2 : takes m es m2 -> forall a b, es = a ++ b -> exists m1, takes m a m1 /\ takes m1 b m2.
Proof.
  induction 1 as [|es m1 e H IH|es m1 e q m2 H IH Q N E]; intros a b X.
  - symmetry in X. apply app_eq_nil in X as [-> ->]. exists m. split; constructor.
  - destruct (IH a b X) as (mm & A & B). exists mm. split; [exact A|apply T_give; exact B].
  - destruct b as [|y b] using rev_ind.
    + exists m2. rewrite app_nil_r in X. subst a. split; [eapply T_take; eassumption|constructor].
    + clear IHb. rewrite app_assoc in X. apply app_inj_tail in X as [X <-]. destruct (IH a b X) as (mm & A & B). exists mm. split; [exact A|eapply T_take; eassumption].
Qed.
Lemma takes_cons m x es m2 : takes m (x :: es) m2 -> exists ma mb q, queued m ma /\ m_events ma = x :: q /\ need_more (x :: q) = false /\ emit_one ma x = EOk mb /\ takes mb es m2.
Proof.
  intros H. destruct (takes_split _ _ _ H [x] es eq_refl) as (m1 & A & B). remember [x] as l eqn:L.
  enough (K : exists ma mb q, queued m ma /\ m_events ma = x :: q /\ need_more (x :: q) = false /\ emit_one ma x = EOk mb /\ queued mb m1).
  { destruct K as (ma & mb & q & K1 & K2 & K3 & K4 & (l' & K5)). exists ma, mb, q. repeat (split; [assumption|]). rewrite K5 in B. clear - B.
    assert (G : takes mb [] (set_events mb (m_events mb ++ l'))).
    { revert l' B. intros l' _. induction l' as [|y l' IH] using rev_ind; [rewrite app_nil_r; replace (set_events mb (m_events mb)) with mb by (destruct mb; reflexivity); constructor|].
      rewrite app_assoc. exact (T_give _ _ _ y IH). }
    exact (takes_trans _ [] _ _ _ G B). }
  clear B H. revert L. induction A as [|l' m1 e H IH|l' m1 e q m2' H IH Q N E]; intros L; [discriminate| |].
  - destruct (IH L) as (ma & mb & q & K1 & K2 & K3 & K4 & (l & ->)). exists ma, mb, q. repeat (split; [assumption|]). exists (l ++ [e]). cbn. rewrite <- app_assoc. reflexivity.
  - destruct l' as [|y l']; [|destruct l'; discriminate]. injection L as <-. exists m1, m2', q. split; [exact (takes_nil_inv _ _ _ H eq_refl)|]. repeat (split; [assumption|]). exists []. rewrite app_nil_r. destruct m2'; reflexivity.
Qed.
(* what yaml_emitter_emit does *)
Lemma loop_takes n : forall m m', emit_loop n m = EOk m' -> exists es, takes m es m' /\ m_events m = es ++ m_events m'.
Proof.
  induction n as [|n IH]; intros m m' H; cbn [emit_loop] in H; [injection H as <-; exists []; split; [constructor|reflexivity]|].
  destruct (m_events m) as [|e q] eqn:Q; [injection H as <-; exists []; rewrite Q; split; [constructor|reflexivity]|].
  destruct (need_more (e :: q)) eqn:N; [injection H as <-; exists []; rewrite Q; split; [constructor|reflexivity]|].
  destruct (emit_one m e) as [m1|x m1|] eqn:E; cbn [ebind] in H; try discriminate. destruct (IH m1 m' H) as (es & T & Ev). exists (e :: es). split.
  - change (e :: es) with ([e] ++ es). eapply takes_trans; [|exact T]. change [e] with ([] ++ [e]). eapply T_take; [constructor|exact Q|exact N|exact E].
  - cbn [app]. rewrite <- Ev. f_equal. clear - E Q. unfold emit_one in E. destruct (analyze_event _ _ e) as [x|d]; [discriminate|].
    destruct (state_machine (set_data m d) e) as [m2|x m2|] eqn:S; cbn [ebind] in E; try discriminate. injection E as <-. cbn [set_events m_events].
    assert (K : m_events m2 = m_events m); [|rewrite K, Q; reflexivity]. pose proof (EmitRun.machine_frame (set_data m d) (m_events m) e) as F. cbn [set_data m_events] in F.
    assert (L : EmitRun.look (m_events m) (m_events m)) by (repeat split). specialize (F L). rewrite S in F. replace (set_events (set_data m d) (m_events m)) with (set_data m d) in F by reflexivity. rewrite S in F. cbn [EmitRun.reframe] in F. injection F as F. rewrite F. reflexivity.
Qed.
Lemma emitted_takes es : forall m m', emit_all m es = EOk m' -> exists done, takes m done m' /\ m_events m ++ es = done ++ m_events m'.
Proof.
  induction es as [|e es IH]; intros m m' H; cbn [emit_all] in H; [injection H as <-; exists []; rewrite app_nil_r; split; [constructor|reflexivity]|].
  unfold emit_event in H. cbv zeta in H. set (m0 := set_events m (m_events m ++ [e])) in H.
  destruct (emit_loop (length (m_events m0)) m0) as [m1|x m1|] eqn:E; cbn [ebind] in H; try discriminate.
  destruct (loop_takes _ _ _ E) as (d1 & T1 & Ev1). destruct (IH _ _ H) as (d2 & T2 & Ev2). exists (d1 ++ d2). split.
  - eapply takes_trans; [|exact T2]. change d1 with ([] ++ d1). eapply takes_trans; [|exact T1]. apply T_give. constructor.
  - rewrite <- app_assoc, <- Ev2, app_assoc, <- Ev1. unfold m0. cbn [set_events m_events]. rewrite <- app_assoc. reflexivity.
Qed.

(* ---- the handles of the directives are valid at every step ---- *)
Definition tags_ok (m : emitter) : Prop := Forall (fun td => valid_handle (fst td)) (m_tags m).
Lemma pop_state_tags m m' : pop_state m = EOk m' -> m_tags m' = m_tags m.
Proof. unfold pop_state. destruct (m_states m); [discriminate|]. intros H; injection H as <-. reflexivity. Qed.
Lemma pop_both_tags m m' : (pop_indent m >>= pop_state) = EOk m' -> m_tags m' = m_tags m.
Proof. unfold pop_indent. destruct (m_indents m); [discriminate|]. cbn [ebind]. intros H. apply pop_state_tags in H. exact H. Qed.
Lemma props_tags m : m_tags (process_tag (process_anchor m)) = m_tags m.
Proof. destruct (props_same m) as [(_ & _ & H & _) _]. exact H. Qed.
Lemma node_tags m e a b m' : emit_node m e a b = EOk m' -> m_tags m' = m_tags m.
Proof.
  unfold emit_node. destruct e; try discriminate.
  - unfold emit_alias. intros H. apply pop_state_tags in H. rewrite H. destruct (process_anchor_same (set_context m a b)) as [(_ & _ & K & _) _]. destruct (m_simple _); exact K.
  - unfold emit_scalar. destruct (select_style _ _ _ _) as [[h s]|]; [|discriminate]. cbv zeta. intros H. apply pop_both_tags in H. rewrite H.
    match goal with |- m_tags (process_scalar (increase_indent ?x true false) s) = _ => change (m_tags x = m_tags m) end. rewrite props_tags. reflexivity.
  - unfold emit_sequence_start. cbv zeta. intros H. injection H as <-. cbn [set_state m_tags]. rewrite props_tags. reflexivity.
  - unfold emit_mapping_start. cbv zeta. intros H. injection H as <-. cbn [set_state m_tags]. rewrite props_tags. reflexivity.
Qed.
Lemma close_tags c first m m' : close_flow c first m = EOk m' -> m_tags m' = m_tags m.
Proof.
  unfold close_flow, pop_indent. destruct (m_indents _); [discriminate|]. cbn [ebind]. intros H. apply pop_state_tags in H. rewrite H. destruct (g_canonical _ && negb first); reflexivity.
Qed.
Lemma each_tag_ok f l : (forall t m m', In t l -> tags_ok m -> f t m = EOk m' -> tags_ok m') -> forall m m', tags_ok m -> each_tag f l m = EOk m' -> tags_ok m'.
Proof.
  induction l as [|t l IH]; intros F m m' O H; cbn [each_tag] in H; [injection H as <-; exact O|].
  destruct (f t m) as [m1|x m1|] eqn:E; cbn [ebind] in H; try discriminate. apply (IH (fun t' a b I => F t' a b (or_intror I)) m1 m'); [exact (F t m m1 (or_introl eq_refl) O E)|exact H].
Qed.
Lemma append_ok t b m m' : valid_handle (fst t) -> tags_ok m -> append_tag m t b = EOk m' -> tags_ok m'.
Proof.
  intros V O. unfold append_tag. destruct (existsb _ _); [destruct b; [intros H; injection H as <-; exact O|discriminate]|]. intros H; injection H as <-. unfold tags_ok. cbn [set_tags m_tags]. apply Forall_app. split; [exact O|]. constructor; [exact V|constructor].
Qed.
Lemma node_ok m0 m e a b m' : tags_ok m0 -> m_tags m = m_tags m0 -> emit_node m e a b = EOk m' -> tags_ok m'.
Proof. intros O E H. apply node_tags in H. unfold tags_ok in *. rewrite H, E. exact O. Qed.
Lemma fold_tags l : forall m, m_tags (fold_left (fun m t => indent_ (on_pen (write_tag_content (snd t) true) (on_pen (write_tag_handle (fst t)) (indicator s_tag true false false m)))) l m) = m_tags m.
Proof. induction l as [|t l IH]; intros m; cbn [fold_left]; [reflexivity|]. rewrite IH. reflexivity. Qed.
Lemma docstart_tags m e first m' : tags_ok m -> emit_document_start m e first = EOk m' -> tags_ok m'.
Proof.
  intros O. unfold emit_document_start. destruct e; try discriminate.
  - cbv zeta. intros H; injection H as <-. destruct (p_open (m_pen m) =? 2); exact O.
  - destruct (fail_if _ m) as [m1|x m1|] eqn:E1; cbn [ebind]; try discriminate.
    assert (m1 = m) as -> by (unfold fail_if in E1; destruct (match v with Some v0 => analyze_version v0 | None => None end); [discriminate|injection E1 as <-; reflexivity]).
    match goal with |- context [each_tag ?f tags m] => destruct (each_tag f tags m) as [m2|x m2|] eqn:E2 end; cbn [ebind]; try discriminate.
    assert (O2 : tags_ok m2).
    { eapply each_tag_ok; [|exact O|exact E2]. cbn. intros t a b _ Oa. destruct (analyze_tag_directive t) eqn:A; cbn [fail_if ebind]; [discriminate|]. destruct t as [h p]. apply handle_valid in A as [A _]. apply append_ok; assumption. }
    match goal with |- context [each_tag ?f default_tags m2] => destruct (each_tag f default_tags m2) as [m3|x m3|] eqn:E3 end; cbn [ebind]; try discriminate.
    assert (O3 : tags_ok m3).
    { eapply each_tag_ok; [|exact O2|exact E3]. cbn. intros t a b I Oa. apply append_ok; [|exact Oa]. destruct I as [<-|[<-|[]]]; [left; reflexivity|right; exists []; split; [reflexivity|constructor]]. }
    cbv zeta. intros H; injection H as <-. unfold tags_ok. cbn [on_pen set_pen set_state m_tags].
    match goal with |- Forall _ (m_tags (if _ then _ else ?x)) => assert (K : m_tags x = m_tags m3) end.
    { rewrite fold_tags. destruct v as [v|], (has_directives _ tags && _); reflexivity. }
    match goal with |- Forall _ ?l => assert (K2 : l = m_tags m3) end; [|rewrite K2; exact O3]. rewrite <- K. match goal with |- m_tags (if ?b then _ else _) = _ => destruct b end; [|reflexivity]. match goal with |- m_tags (if ?b then _ else _) = _ => destruct b end; reflexivity.
Qed.
Lemma machine_tags m e m' : tags_ok m -> state_machine m e = EOk m' -> tags_ok m'.
Proof.
  intros O. assert (Oeq : forall x, m_tags x = m_tags m -> tags_ok x) by (intros x E; unfold tags_ok; rewrite E; exact O). unfold state_machine. destruct (m_state m).
  - unfold emit_stream_start. destruct e; try discriminate. cbv zeta. intros H; injection H as <-. apply Oeq. destruct (encoding_eqb _ _); reflexivity.
  - apply docstart_tags. exact O.
  - apply docstart_tags. exact O.
  - apply node_ok with (m0 := m); [exact O|reflexivity].
  - unfold emit_document_end. destruct e; try discriminate. cbv zeta. intros H; injection H as <-. constructor.
  - unfold emit_flow_sequence_item. destruct e; try (apply node_ok with (m0 := m); [exact O|]; unfold indent_if; destruct (wide _); reflexivity). intros H. apply close_tags in H. apply Oeq. rewrite H. reflexivity.
  - unfold emit_flow_sequence_item. destruct e; try (apply node_ok with (m0 := m); [exact O|]; unfold indent_if; destruct (wide _); reflexivity). intros H. apply close_tags in H. apply Oeq. rewrite H. reflexivity.
  - unfold emit_flow_mapping_key. destruct e; try (cbv zeta; destruct (negb _ && check_simple_key _); apply node_ok with (m0 := m); [exact O| |exact O|]; unfold indent_if; destruct (wide _); reflexivity). intros H. apply close_tags in H. apply Oeq. rewrite H. reflexivity.
  - unfold emit_flow_mapping_key. destruct e; try (cbv zeta; destruct (negb _ && check_simple_key _); apply node_ok with (m0 := m); [exact O| |exact O|]; unfold indent_if; destruct (wide _); reflexivity). intros H. apply close_tags in H. apply Oeq. rewrite H. reflexivity.
  - unfold emit_flow_mapping_value. cbv zeta. apply node_ok with (m0 := m); [exact O|reflexivity].
  - unfold emit_flow_mapping_value. cbv zeta. apply node_ok with (m0 := m); [exact O|]. unfold indent_if; destruct (wide _); reflexivity.
  - unfold emit_block_sequence_item. cbv zeta. destruct e; try (apply node_ok with (m0 := m); [exact O|reflexivity]). intros H. apply pop_both_tags in H. apply Oeq. rewrite H. reflexivity.
  - unfold emit_block_sequence_item. cbv zeta. destruct e; try (apply node_ok with (m0 := m); [exact O|reflexivity]). intros H. apply pop_both_tags in H. apply Oeq. rewrite H. reflexivity.
  - unfold emit_block_mapping_key. cbv zeta. destruct e; try (destruct (check_simple_key _); apply node_ok with (m0 := m); [exact O|reflexivity|exact O|reflexivity]). intros H. apply pop_both_tags in H. apply Oeq. rewrite H. reflexivity.
  - unfold emit_block_mapping_key. cbv zeta. destruct e; try (destruct (check_simple_key _); apply node_ok with (m0 := m); [exact O|reflexivity|exact O|reflexivity]). intros H. apply pop_both_tags in H. apply Oeq. rewrite H. reflexivity.
  - unfold emit_block_mapping_value. cbv zeta. apply node_ok with (m0 := m); [exact O|reflexivity].
  - unfold emit_block_mapping_value. cbv zeta. apply node_ok with (m0 := m); [exact O|reflexivity].
  - discriminate.
Qed.
Lemma one_tags m e m' : tags_ok m -> emit_one m e = EOk m' -> tags_ok m'.
Proof.
  intros O. unfold emit_one. destruct (analyze_event _ _ e) as [x|d]; [discriminate|]. destruct (state_machine (set_data m d) e) as [m2|x m2|] eqn:S; cbn [ebind]; try discriminate. intros H; injection H as <-. exact (machine_tags (set_data m d) e m2 O S).
Qed.
Lemma takes_tags m es m' : takes m es m' -> tags_ok m -> tags_ok m'.
Proof. induction 1 as [|es m1 e H IH|es m1 e q m2 H IH Q N E]; intros O; [exact O|exact (IH O)|exact (one_tags _ _ _ (IH O) E)]. Qed.

(* ---- the state after a node ---- *)
Lemma one_inv m e m' : emit_one m e = EOk m' -> exists d m2, analyze_event (m_cfg m) (m_tags m) e = inr d /\ state_machine (set_data m d) e = EOk m2 /\ m' = set_events m2 (tl (m_events m)).
Proof.
  unfold emit_one. destruct (analyze_event _ _ e) as [x|d] eqn:A; [discriminate|]. destruct (state_machine (set_data m d) e) as [m2|x m2|] eqn:S; cbn [ebind]; try discriminate. intros H; injection H as <-.
  exists d, m2. split; [reflexivity|]. split; [exact S|].
  assert (K : m_events m2 = m_events m); [|rewrite K; reflexivity]. pose proof (EmitRun.machine_frame (set_data m d) (m_events m) e) as F. cbn [set_data m_events] in F.
  assert (L : EmitRun.look (m_events m) (m_events m)) by (repeat split). specialize (F L). replace (set_events (set_data m d) (m_events m)) with (set_data m d) in F by reflexivity. rewrite S in F. cbn [EmitRun.reframe] in F. injection F as F. rewrite F. reflexivity.
Qed.
Lemma node_stack m e a b m' s l : m_states m = s :: l -> analyze_event (m_cfg m) (m_tags m) e = inr (m_data m) -> emit_node m e a b = EOk m' -> node_next e s l (m_state m') (m_states m').
Proof.
  intros S A E. destruct (emit_node_step m e a b s l S A) as [(_ & _ & m1 & E1 & _ & N)|(_ & x & m1 & E1 & _)]; [|congruence]. replace m' with m1 by congruence. exact N.
Qed.
(* [m] differs from [m0] in what does not matter here *)
Definition like (m0 m : emitter) : Prop := m_cfg m = m_cfg m0 /\ m_tags m = m_tags m0 /\ m_data m = m_data m0.
Lemma machine_node m x m1 f f' : node_event x = true -> frame (m_state m) = Some f -> after_node f = Some f' -> state_machine m x = EOk m1 ->
  exists m0 a b s, emit_node m0 x a b = EOk m1 /\ m_states m0 = s :: m_states m /\ frame s = Some f' /\ like m m0.
Proof.
  intros Nx F A. unfold state_machine. destruct (m_state m); cbn [frame] in F; try discriminate; injection F as <-; cbn in A; try discriminate; injection A as <-.
  - intros H. eexists _, _, _, _. split; [exact H|]. repeat split.
  - unfold emit_flow_sequence_item. cbv zeta. destruct x; try discriminate; intros H; eexists _, _, _, _; (split; [exact H|]); unfold indent_if; destruct (wide _); repeat split.
  - unfold emit_flow_sequence_item. cbv zeta. destruct x; try discriminate; intros H; eexists _, _, _, _; (split; [exact H|]); unfold indent_if; destruct (wide _); repeat split.
  - unfold emit_flow_mapping_key. cbv zeta. destruct x; try discriminate; (destruct (negb _ && check_simple_key _); intros H; eexists _, _, _, _; (split; [exact H|]); unfold indent_if; destruct (wide _); repeat split).
  - unfold emit_flow_mapping_key. cbv zeta. destruct x; try discriminate; (destruct (negb _ && check_simple_key _); intros H; eexists _, _, _, _; (split; [exact H|]); unfold indent_if; destruct (wide _); repeat split).
  - intros H. eexists _, _, _, _. split; [exact H|]. repeat split.
  - unfold emit_flow_mapping_value. cbv zeta. intros H. eexists _, _, _, _. split; [exact H|]. unfold indent_if; destruct (wide _); repeat split.
  - unfold emit_block_sequence_item. cbv zeta. destruct x; try discriminate; intros H; eexists _, _, _, _; (split; [exact H|]); repeat split.
  - unfold emit_block_sequence_item. cbv zeta. destruct x; try discriminate; intros H; eexists _, _, _, _; (split; [exact H|]); repeat split.
  - unfold emit_block_mapping_key. cbv zeta. destruct x; try discriminate; (destruct (check_simple_key _); intros H; eexists _, _, _, _; (split; [exact H|]); repeat split).
  - unfold emit_block_mapping_key. cbv zeta. destruct x; try discriminate; (destruct (check_simple_key _); intros H; eexists _, _, _, _; (split; [exact H|]); repeat split).
  - intros H. eexists _, _, _, _. split; [exact H|]. repeat split.
  - intros H. eexists _, _, _, _. split; [exact H|]. repeat split.
Qed.
Lemma pop_stack m s l m1 : m_states m = s :: l -> pop_state m = EOk m1 -> m_state m1 = s /\ m_states m1 = l.
Proof. intros E H. rewrite (pop_state_eq _ _ _ E) in H. injection H as <-. auto. Qed.
Lemma pop_both_stack m s l m1 : m_states m = s :: l -> (pop_indent m >>= pop_state) = EOk m1 -> m_state m1 = s /\ m_states m1 = l.
Proof. intros E. unfold pop_indent. destruct (m_indents m); [discriminate|]. cbn [ebind]. apply pop_stack. exact E. Qed.
Lemma close_stack c first m s l m1 : m_states m = s :: l -> close_flow c first m = EOk m1 -> m_state m1 = s /\ m_states m1 = l.
Proof.
  intros E. unfold close_flow, pop_indent. destruct (m_indents _); [discriminate|]. cbn [ebind]. apply pop_stack. destruct (g_canonical _ && negb first); exact E.
Qed.
Lemma machine_seq_end m s l m1 : frame (m_state m) = Some FSeq -> m_states m = s :: l -> state_machine m ESeqEnd = EOk m1 -> m_state m1 = s /\ m_states m1 = l.
Proof.
  intros F E. unfold state_machine. destruct (m_state m); cbn [frame] in F; try discriminate.
  - apply close_stack. exact E.
  - apply close_stack. exact E.
  - apply pop_both_stack. exact E.
  - apply pop_both_stack. exact E.
Qed.
Lemma machine_map_end m s l m1 : frame (m_state m) = Some FKey -> m_states m = s :: l -> state_machine m EMapEnd = EOk m1 -> m_state m1 = s /\ m_states m1 = l.
Proof.
  intros F E. unfold state_machine. destruct (m_state m); cbn [frame] in F; try discriminate.
  - apply close_stack. exact E.
  - apply close_stack. exact E.
  - apply pop_both_stack. exact E.
  - apply pop_both_stack. exact E.
Qed.
Lemma events_head k : exists x es, events_of k = x :: es /\ node_event x = true.
Proof. destruct k; cbn [events_of]; eexists _, _; split; reflexivity. Qed.
Lemma queued_state m m' : queued m m' -> m_state m' = m_state m /\ m_states m' = m_states m.
Proof. intros (l & ->). split; reflexivity. Qed.

Definition returns (k : tree) : Prop := forall m m1 m1' m2 x es a b s l, events_of k = x :: es -> m_states m = s :: l -> analyze_event (m_cfg m) (m_tags m) x = inr (m_data m) ->
  emit_node m x a b = EOk m1 -> m_state m1' = m_state m1 -> m_states m1' = m_states m1 -> takes m1' es m2 -> m_state m2 = s /\ m_states m2 = l.
(* a node where one may be *)
Definition passes (k : tree) : Prop := forall m f f' m2, frame (m_state m) = Some f -> after_node f = Some f' -> takes m (events_of k) m2 -> frame (m_state m2) = Some f' /\ m_states m2 = m_states m.
Lemma returns_passes k : returns k -> passes k.
Proof.
  intros R m f f' m2 F A T. destruct (events_head k) as (x & es & E & N). rewrite E in T. destruct (takes_cons _ _ _ _ T) as (ma & mb & q & Q & _ & _ & Em & T').
  destruct (queued_state _ _ Q) as [Q1 Q2]. destruct (one_inv _ _ _ Em) as (d & m1 & An & Sm & ->).
  destruct (machine_node (set_data ma d) x m1 f f' N) as (m0 & a & b & s & En & Es & Fs & L1 & L2 & L3); [cbn; rewrite Q1; exact F|exact A|exact Sm|]. cbn [set_data m_cfg m_tags m_data m_states] in *.
  destruct (R m0 m1 (set_events m1 (tl (m_events ma))) m2 x es a b s (m_states ma) E Es) as [H1 H2]; [rewrite L1, L2, L3; exact An|exact En|reflexivity|reflexivity|exact T'|]. rewrite H1, H2, Q2. auto.
Qed.
Lemma seq_passes items : Forall passes items -> forall m s l m2, frame (m_state m) = Some FSeq -> m_states m = s :: l -> takes m (items_events items ++ [ESeqEnd]) m2 -> m_state m2 = s /\ m_states m2 = l.
Proof.
  induction 1 as [|k items P _ IH]; intros m s l m2 F S T.
  - cbn [items_events flat_map app] in T. destruct (takes_cons _ _ _ _ T) as (ma & mb & q & Q & _ & _ & Em & T').
    destruct (queued_state _ _ Q) as [Q1 Q2]. destruct (one_inv _ _ _ Em) as (d & m1 & An & Sm & ->). apply takes_nil_inv in T'; [|reflexivity]. apply queued_state in T' as [-> ->].
    cbn [set_events m_state m_states]. apply (machine_seq_end (set_data ma d)); [cbn; rewrite Q1; exact F|cbn; rewrite Q2; exact S|exact Sm].
  - cbn [items_events flat_map] in T. rewrite <- app_assoc in T. destruct (takes_split _ _ _ T _ _ eq_refl) as (mm & T1 & T2). destruct (P m FSeq FSeq mm F eq_refl T1) as [F1 S1]. apply (IH mm s l m2 F1); [congruence|exact T2].
Qed.
Lemma map_passes pairs : Forall (fun kv => passes (fst kv) /\ passes (snd kv)) pairs -> forall m s l m2, frame (m_state m) = Some FKey -> m_states m = s :: l -> takes m (pairs_events pairs ++ [EMapEnd]) m2 -> m_state m2 = s /\ m_states m2 = l.
Proof.
  induction 1 as [|[k v] pairs [P1 P2] _ IH]; intros m s l m2 F S T.
  - cbn [pairs_events flat_map app] in T. destruct (takes_cons _ _ _ _ T) as (ma & mb & q & Q & _ & _ & Em & T').
    destruct (queued_state _ _ Q) as [Q1 Q2]. destruct (one_inv _ _ _ Em) as (d & m1 & An & Sm & ->). apply takes_nil_inv in T'; [|reflexivity]. apply queued_state in T' as [-> ->].
    cbn [set_events m_state m_states]. apply (machine_map_end (set_data ma d)); [cbn; rewrite Q1; exact F|cbn; rewrite Q2; exact S|exact Sm].
  - cbn [pairs_events flat_map fst snd] in *. rewrite <- !app_assoc in T. destruct (takes_split _ _ _ T _ _ eq_refl) as (mm & T1 & T2). destruct (takes_split _ _ _ T2 _ _ eq_refl) as (mv & T3 & T4).
    destruct (P1 m FKey FVal mm F eq_refl T1) as [F1 S1]. destruct (P2 mm FVal FKey mv F1 eq_refl T3) as [F2 S2]. apply (IH mv s l m2 F2); [congruence|exact T4].
Qed.
Lemma all_return k : returns k.
Proof.
  induction k using tree_induction; intros m m1 m1' m2 x es a0 b sx l E S A En H1 H2 T; cbn [events_of] in E; injection E as <- <-; pose proof (node_stack _ _ _ _ _ _ _ S A En) as N; cbn [node_next] in N; destruct N as [N1 N2].
  - apply takes_nil_inv in T; [|reflexivity]. apply queued_state in T as [-> ->]. split; congruence.
  - apply takes_nil_inv in T; [|reflexivity]. apply queued_state in T as [-> ->]. split; congruence.
  - apply (seq_passes items) with (m := m1'); [|rewrite H1; destruct N1 as [-> | ->]; reflexivity|congruence|exact T].
    eapply Forall_impl; [|eassumption]. exact returns_passes.
  - apply (map_passes pairs) with (m := m1'); [|rewrite H1; destruct N1 as [-> | ->]; reflexivity|congruence|exact T].
    eapply Forall_impl; [|eassumption]. intros kv [K1 K2]. split; apply returns_passes; assumption.
Qed.

(* ---- what is written for a node that is a simple key ---- *)
Lemma no_env : forall h s t, ParserModel.resolve_tag (utf8_tags []) h s = Some t -> GrammarSpec.resolves [] h s t.
Proof. intros [|c h] s t H; cbn in H; [injection H as <-; reflexivity|discriminate]. Qed.
Definition alpha_flat := flat_alpha [] [] no_env.
Definition chars_size := tag_chars_size [] [] no_env.
Definition neat (d : adata) : Prop := anchor_fine d /\ (forall h, a_handle d = Some h -> valid_handle h) /\ (forall s, a_suffix d = Some s -> Forall scalar_value s).
Lemma tag_neat (shown : bool) T t d d' : Forall (fun td => valid_handle (fst td)) T -> otext t -> a_handle d = None -> a_suffix d = None -> (if shown then maybe t (analyze_tag T) d else inr d) = inr d' ->
  a_anchor d' = a_anchor d /\ a_alias d' = a_alias d /\ (forall h, a_handle d' = Some h -> valid_handle h) /\ (forall s, a_suffix d' = Some s -> Forall scalar_value s).
Proof.
  intros V Tt Hh Hs. assert (K : forall d0, inr d = @inr eproblem adata d0 -> a_anchor d0 = a_anchor d /\ a_alias d0 = a_alias d /\ (forall h, a_handle d0 = Some h -> valid_handle h) /\ (forall s, a_suffix d0 = Some s -> Forall scalar_value s)).
  { intros d0 H; injection H as <-. rewrite Hh, Hs. repeat split; discriminate. }
  destruct shown; [|apply K]. destruct t as [t|]; cbn [maybe]; [|apply K]. unfold analyze_tag. destruct t as [|c t0] eqn:Et; [discriminate|]. rewrite <- Et in *.
  destruct (match_tag T t) as [[h x]|] eqn:M; intros H; injection H as <-; cbn [a_anchor a_alias a_handle a_suffix].
  - destruct (match_spec _ _ _ _ M) as (p & I & E & _). split; [reflexivity|]. split; [reflexivity|]. split; [intros h' [= <-]; rewrite Forall_forall in V; exact (V (h, p) I)|].
    intros s [= <-]. cbn [otext] in Tt. unfold text in Tt. rewrite E in Tt. apply Forall_app in Tt as [_ Tt]. exact Tt.
  - split; [reflexivity|]. split; [reflexivity|]. split; [rewrite Hh; discriminate|]. intros s [= <-]. exact Tt.
Qed.
Lemma coll_neat g T x a t i d : (exists style, x = ESeqStart a t i style \/ x = EMapStart a t i style) -> Forall (fun td => valid_handle (fst td)) T -> text_event x -> analyze_event g T x = inr d -> neat d /\ a_alias d = false.
Proof.
  intros X V Tx A. assert (E : then_ (maybe a (fun a => analyze_anchor a false) no_data) (fun d => if g_canonical g || negb i then maybe t (analyze_tag T) d else inr d) = inr d /\ otext t).
  { destruct X as [style [-> | ->]]; exact (conj A (proj2 Tx)). }
  destruct E as [E Tt]. destruct (maybe a (fun a => analyze_anchor a false) no_data) as [y|d0] eqn:E0; [discriminate|]. cbn [then_] in E.
  destruct (anchor_analysed a d0 E0) as (A1 & A2 & A3 & A4 & A5). destruct (tag_neat _ T t d0 d V Tt A3 A4 E) as (B1 & B2 & B3 & B4).
  split; [|congruence]. split; [|split; assumption]. intros y Hy. apply A5. congruence.
Qed.
Lemma scalar_neat g T a t v pi qi style d : Forall (fun td => valid_handle (fst td)) T -> text_event (EScalar a t v pi qi style) -> analyze_event g T (EScalar a t v pi qi style) = inr d ->
  neat d /\ a_alias d = false /\ a_value d = v /\ a_multiline d = existsb is_break v /\ exists d0, d = analyze_scalar (g_unicode g) v d0.
Proof.
  intros V (_ & Tt & _) A. cbn [analyze_event] in A. destruct (maybe a (fun a => analyze_anchor a false) no_data) as [y|d0] eqn:E0; [discriminate|]. cbn [then_] in A.
  destruct (anchor_analysed a d0 E0) as (A1 & A2 & A3 & A4 & A5).
  destruct (if g_canonical g || negb pi && negb qi then maybe t (analyze_tag T) d0 else inr d0) as [y|d1] eqn:E; [discriminate|]. cbn [then_] in A. injection A as <-.
  destruct (tag_neat _ T t d0 d1 V Tt A3 A4 E) as (B1 & B2 & B3 & B4). destruct (scalar_keeps (g_unicode g) v d1) as (C1 & C2 & C3 & C4 & C5 & C6).
  split; [|split; [congruence|]; split; [exact C5|]; split; [exact C6|]; exists d1; reflexivity].
  unfold neat, anchor_fine. rewrite C1, C3, C4. split; [|split; assumption]. intros y Hy. apply A5. congruence.
Qed.
(* a character a key can begin with *)
Definition key_start (w : list N) : Prop := exists c r, w = c :: r /\ c <> 0x20 /\ is_break c = false.
Lemma tag_is_neat d : neat d -> has_tag d = true -> flat (tag_written d) /\ (length (tag_written d) <= 3 + N.to_nat (olen (a_handle d)) + 3 * N.to_nat (olen (a_suffix d)))%nat /\ key_start (tag_written d).
Proof.
  intros (_ & Vh & Vs) H. unfold tag_written.
  assert (X : exists x, (match a_suffix d with Some x => x | None => [] end) = x /\ flat (flat_map tag_char x) /\ (length (flat_map tag_char x) <= 3 * N.to_nat (olen (a_suffix d)))%nat).
  { destruct (a_suffix d) as [x|]; eexists; (split; [reflexivity|]); [|split; [reflexivity|cbn; lia]]. destruct (chars_size x (Vs x eq_refl)) as [F L]. split; [exact F|]. cbn [olen]. unfold nlen. rewrite Nat2N.id. exact L. }
  destruct X as (x & Ex & Fx & Lx).
  assert (Hc : forall h, valid_handle h -> flat h /\ exists r, h = 0x21 :: r).
  { intros h [-> |(n & -> & Fn)]; [split; [reflexivity|eauto]|]. split; [|eauto]. unfold flat. cbn [existsb]. apply flat_app; [apply alpha_flat; exact Fn|reflexivity]. }
  destruct (a_handle d) as [h|] eqn:Eh.
  - destruct (Hc h (Vh h eq_refl)) as [Fh (r & Er)]. replace (match a_suffix d with Some x0 => tag_text (Some h) (match a_suffix d with Some x => x | None => [] end) | None => tag_text (Some h) (match a_suffix d with Some x => x | None => [] end) end) with (tag_text (Some h) x) by (rewrite Ex; destruct (a_suffix d); reflexivity).
    match goal with |- flat ?w /\ _ => replace w with (tag_text (Some h) x) by (rewrite <- Ex; destruct (a_suffix d); reflexivity) end.
    cbn [tag_text]. split; [apply flat_app; assumption|]. split; [rewrite app_length; cbn [olen]; unfold nlen; rewrite Nat2N.id; pose proof (utf8_longer h); lia|]. rewrite Er. eexists _, _. split; [reflexivity|]. split; [discriminate|reflexivity].
  - destruct (a_suffix d) as [y|] eqn:Es; [|unfold has_tag in H; rewrite Eh, Es in H; discriminate]. cbn in Ex. subst y. cbn [tag_text].
    split; [unfold flat; cbn [existsb]; apply flat_app; [exact Fx|reflexivity]|]. split; [cbn [length]; rewrite app_length; cbn [length]; lia|]. eexists _, _. split; [reflexivity|]. split; [discriminate|reflexivity].
Qed.
Lemma props_neat m : let m' := process_tag (process_anchor m) in let p := m_pen m in let p' := m_pen m' in
  a_alias (m_data m) = false -> neat (m_data m) ->
  m' = set_pen m p' /\ exists pw, chars p' = chars p ++ lead p pw /\ (pw = [] -> p' = p) /\ (pw <> [] -> tight p') /\ flat pw /\ (length pw <= 5 + 3 * size (m_data m))%nat /\ (pw = [] \/ key_start pw).
Proof.
  cbv zeta. intros Al Ne. pose proof (proj1 Ne) as F. destruct (anchor_written m F) as [E A]. cbv zeta in A. set (m1 := process_anchor m) in *.
  assert (D1 : m_data m1 = m_data m) by (rewrite E; reflexivity).
  pose proof (process_tag_text m1) as P. cbv zeta in P. rewrite D1 in P. rewrite Al in A.
  assert (E2 : process_tag m1 = set_pen m (m_pen (process_tag m1))) by (rewrite tag_pen, E; reflexivity).
  split; [exact E2|]. set (p' := m_pen (process_tag m1)) in *.
  assert (La : forall a, a_anchor (m_data m) = Some a -> (length a <= N.to_nat (olen (Some a)))%nat) by (intros a _; cbn [olen]; unfold nlen; rewrite Nat2N.id; apply utf8_longer).
  destruct (has_tag (m_data m)) eqn:Ht.
  - destruct P as (P1 & _ & P2 & P3). destruct (tag_is_neat _ Ne Ht) as (Fl & Le & St). set (w := tag_written (m_data m)) in *.
    destruct (a_anchor (m_data m)) as [a|] eqn:Ea.
    + destruct A as (A1 & A2 & A3). exists (0x26 :: a ++ 0x20 :: w).
      split. { rewrite P1, gap_is, A1, A2. cbn [lead gap_text app]. rewrite <- !app_assoc. cbn [app]; rewrite <- ?app_assoc; reflexivity. }
      split; [discriminate|]. split; [intros _; split; assumption|]. specialize (La a eq_refl).
      split; [unfold flat; cbn [existsb]; apply flat_app; [apply alpha_flat; exact (proj2 (F a Ea))|exact Fl]|]. split; [unfold size; rewrite Ea; cbn [length]; rewrite app_length; cbn [length]; lia|].
      right. eexists _, _. split; [reflexivity|]. split; [discriminate|reflexivity].
    + exists w. rewrite A in *. split. { rewrite P1, gap_is. destruct St as (c & r & -> & _). reflexivity. }
      split; [intros ->; destruct St as (c & r & St & _); discriminate|]. split; [intros _; split; assumption|]. split; [exact Fl|]. split; [unfold size; lia|right; exact St].
  - unfold p'. rewrite P in *.
    destruct (a_anchor (m_data m)) as [a|] eqn:Ea.
    + destruct A as (A1 & A2). exists (0x26 :: a). split; [exact A1|]. split; [discriminate|]. split; [auto|]. specialize (La a eq_refl).
      split; [unfold flat; cbn [existsb]; apply alpha_flat; exact (proj2 (F a Ea))|]. split; [unfold size; rewrite Ea; cbn [length]; lia|]. right. eexists _, _. split; [reflexivity|]. split; [discriminate|reflexivity].
    + exists []. cbn [lead]. rewrite app_nil_r, A. repeat split; try contradiction; [cbn; lia|left; reflexivity].
Qed.
Lemma double_key g i s p : exists w, chars (write_double g i s false p) = chars p ++ gap_text (p_white p) ++ w /\ flat w /\ (length w <= 2 + 4 * length (utf8 s))%nat /\ key_start w.
Proof.
  unfold write_double. destruct (indicator_is [0x22] true false false p) as (E1 & _). destruct (double_flat g i s true false (write_indicator [0x22] true false false p)) as (w & E & F & L).
  exists (0x22 :: w ++ [0x22]). rewrite chars_white, (proj1 (indicator_is [0x22] false false false _)), E, E1. split; [cbn [app]; rewrite <- !app_assoc; reflexivity|].
  split; [unfold flat; cbn [existsb]; apply flat_app; [exact F|reflexivity]|]. split; [cbn [length]; rewrite app_length; cbn [length]; lia|]. eexists _, _. split; [reflexivity|]. split; [discriminate|reflexivity].
Qed.
Lemma single_key g i s p : flat s -> exists w, chars (write_single g i s false p) = chars p ++ gap_text (p_white p) ++ w /\ flat w /\ (length w <= 2 + 4 * length (utf8 s))%nat /\ key_start w.
Proof.
  intros Fs. unfold write_single. destruct (indicator_is [0x27] true false false p) as (E1 & _). destruct (single_flat g i s Fs true false (write_indicator [0x27] true false false p)) as (w & q & Q & E & F & L). rewrite Q. pose proof (utf8_longer s).
  exists (0x27 :: w ++ [0x27]). rewrite chars_white, (proj1 (indicator_is [0x27] false false false _)), E, E1. split; [cbn [app]; rewrite <- !app_assoc; reflexivity|].
  split; [unfold flat; cbn [existsb]; apply flat_app; [exact F|reflexivity]|]. split; [cbn [length]; rewrite app_length; cbn [length]; lia|]. eexists _, _. split; [reflexivity|]. split; [discriminate|reflexivity].
Qed.
Lemma plain_key g i fl s p flow d : flat s -> s <> [] -> plain_allowed flow (analyze_scalar (g_unicode g) s d) = true ->
  exists w, chars (write_plain g i fl s false p) = chars p ++ gap_text (p_white p) ++ w /\ flat w /\ (length w <= 2 + 4 * length (utf8 s))%nat /\ key_start w.
Proof.
  intros Fs Ns A. exists s. pose proof (utf8_longer s). unfold write_plain. rewrite chars_white, plain_flat by exact Fs. unfold space_if.
  replace (nlen s =? 0) with false by (symmetry; apply N.eqb_neq; unfold nlen; destruct s; [contradiction|]; cbn [length]; lia). cbn [negb orb]. rewrite andb_true_r.
  split; [destruct (p_white p); cbn [negb app gap_text]; [reflexivity|rewrite chars_put, <- app_assoc; reflexivity]|]. split; [exact Fs|]. split; [lia|].
  destruct (plain_facts _ _ _ _ Ns A) as (_ & Sp & _ & S1 & _). destruct s as [|c r]; [contradiction|]. exists c, r. split; [reflexivity|].
  unfold flat in Fs. cbn [existsb next nth] in *. apply orb_false_iff in Fs as [Bc _]. split; [|exact Bc]. intros ->. cbn in S1. discriminate.
Qed.
Lemma start_app w r : key_start w -> key_start (w ++ r).
Proof. intros (c & x & -> & H). exists c, (x ++ r). split; [reflexivity|exact H]. Qed.
Lemma flat_sep pw : flat (sep pw).
Proof. destruct pw; reflexivity. Qed.
Lemma sep_size pw : (length (sep pw) <= 1)%nat.
Proof. destruct pw; cbn; lia. Qed.
Lemma pop_both_pen m m' : (pop_indent m >>= pop_state) = EOk m' -> m_pen m' = m_pen m.
Proof. unfold pop_indent. destruct (m_indents m); [discriminate|]. cbn [ebind]. unfold pop_state. destruct (m_states _); [discriminate|]. intros H; injection H as <-. reflexivity. Qed.
Lemma scalar_key m a t v pi qi style m1 : tags_ok m -> text_event (EScalar a t v pi qi style) -> analyze_event (m_cfg m) (m_tags m) (EScalar a t v pi qi style) = inr (m_data m) ->
  a_multiline (m_data m) = false -> (size (m_data m) + length (utf8 (a_value (m_data m))) <= 128)%nat -> emit_node m (EScalar a t v pi qi style) true true = EOk m1 ->
  exists w, chars (m_pen m1) = chars (m_pen m) ++ gap_text (p_white (m_pen m)) ++ w /\ key_text w.
Proof.
  intros O Tx A Ml Sz E. set (d := m_data m) in *. destruct (scalar_neat _ _ _ _ _ _ _ _ _ O Tx A) as (Ne & Al & Ev & Em & d0 & Ed). rewrite Ml in Em. symmetry in Em. rewrite Ev in Sz.
  cbn [emit_node] in E. unfold emit_scalar in E. set (m0 := set_context m true true) in E.
  destruct (select_style m0 pi qi style) as [[h style']|] eqn:Sel; [|discriminate]. apply selected in Sel. cbv zeta in Sel. change (m_data m0) with d in Sel. change (m_simple m0) with true in Sel.
  destruct Sel as (_ & S2 & S3). cbv zeta in E. change (m_data m0) with d in E.
  set (dh := mkAdata (a_anchor d) (a_alias d) h (a_suffix d) (a_value d) (a_multiline d) (a_flow_plain d) (a_block_plain d) (a_single d) (a_block d)) in *.
  set (m2 := set_data m0 dh) in *.
  assert (Nh : neat dh /\ (size dh <= 1 + size d)%nat).
  { destruct Ne as (N1 & N2 & N3). unfold neat, anchor_fine, size, dh. cbn [a_anchor a_handle a_suffix]. rewrite S2. destruct (negb (has_tag d) && negb qi && negb (sstyle_eqb style' Plain)) eqn:Q.
    - split; [split; [exact N1|split; [intros x [= <-]; left; reflexivity|exact N3]]|]. cbn [olen]. change (nlen (utf8 [0x21])) with 1. lia.
    - split; [split; [exact N1|split; [exact N2|exact N3]]|lia]. }
  destruct Nh as [Nh Sh]. destruct (props_neat m2) as (P1 & pw & P3 & P4 & P5 & P6 & P7 & P8); [exact Al|exact Nh|].
  change (m_data m2) with dh in *. change (m_pen m2) with (m_pen m) in *. set (p := m_pen m) in *. set (m3 := process_tag (process_anchor m2)) in *. set (p3 := m_pen m3) in *.
  assert (G : chars p3 ++ gap_text (p_white p3) = chars p ++ gap_text (p_white p) ++ pw ++ sep pw) by (rewrite P3, <- app_assoc, (lead_gap p pw p3 P4 P5); reflexivity).
  rewrite P1 in E. apply pop_both_pen in E. rewrite E. clear E.
  set (i := m_indent (increase_indent (set_pen m2 p3) true false)).
  assert (V : exists w, chars (m_pen (process_scalar (increase_indent (set_pen m2 p3) true false) style')) = chars p3 ++ gap_text (p_white p3) ++ w /\ flat w /\ (length w <= 2 + 4 * length (utf8 v))%nat /\ key_start w).
  { unfold process_scalar. cbn [on_pen m_pen set_pen]. change (m_pen (increase_indent (set_pen m2 p3) true false)) with p3. change (m_simple (increase_indent (set_pen m2 p3) true false)) with true. cbn [negb]. change (a_value (m_data (increase_indent (set_pen m2 p3) true false))) with (a_value d). rewrite Ev.
    change (m_cfg (increase_indent (set_pen m2 p3) true false)) with (m_cfg m). destruct style'.
    - contradiction.
    - destruct S3 as (S3 & S4 & _). rewrite Ed in S3. eapply plain_key; [exact Em| |exact S3]. intros ->. rewrite Ev in S4. destruct (S4 eq_refl) as [_ S5]. discriminate.
    - apply single_key. exact Em.
    - apply double_key.
    - destruct S3 as (_ & _ & S3). discriminate.
    - destruct S3 as (_ & _ & S3 & _). discriminate. }
  destruct V as (w & W1 & W2 & W3 & W4). exists (pw ++ sep pw ++ w). split; [rewrite W1, app_assoc, G, <- !app_assoc; reflexivity|].
  pose proof (sep_size pw). split; [|split; [|rewrite !app_length; lia]].
  - destruct P8 as [-> |P8]; [exact W4|exact (start_app _ _ P8)].
  - apply flat_app; [exact P6|]. apply flat_app; [apply flat_sep|exact W2].
Qed.
Lemma alias_key m a m1 : analyze_event (m_cfg m) (m_tags m) (EAlias a) = inr (m_data m) -> olen (a_anchor (m_data m)) <= 128 -> emit_node m (EAlias a) true true = EOk m1 ->
  exists w, chars (m_pen m1) = chars (m_pen m) ++ gap_text (p_white (m_pen m)) ++ w /\ key_text w.
Proof.
  intros A Sz E. cbn [analyze_event] in A. unfold analyze_anchor in A. destruct a as [|c a'] eqn:Ha; [discriminate|]. rewrite <- Ha in *. destruct (forallb is_alpha a) eqn:F; [|discriminate]. injection A as A.
  assert (Ok : anchor_ok a) by (split; [rewrite Ha; discriminate|apply EmitInv.forallb_Forall; exact F]). cbn [emit_node] in E. unfold emit_alias in E. set (m0 := set_context m true true) in E.
  assert (An : a_anchor (m_data m) = Some a) by (rewrite <- A; reflexivity). assert (Al : a_alias (m_data m) = true) by (rewrite <- A; reflexivity).
  destruct (anchor_written m0) as [E1 E2]; [intros x Hx; change (m_data m0) with (m_data m) in Hx; rewrite An in Hx; injection Hx as <-; exact Ok|]. cbv zeta in E2. change (m_data m0) with (m_data m) in E2. rewrite An, Al in E2. destruct E2 as [E2 _].
  assert (Si : m_simple (process_anchor m0) = true) by (rewrite E1; reflexivity). rewrite Si in E. unfold pop_state in E. cbn [on_pen set_pen m_states] in E. destruct (m_states (process_anchor m0)); [discriminate|]. injection E as <-.
  match goal with |- context [chars (m_pen ?x)] => change (m_pen x) with (pput 0x20 (m_pen (process_anchor m0))) end. exists (0x2A :: a ++ [0x20]). rewrite chars_put, E2. split; [rewrite <- !app_assoc; reflexivity|]. rewrite An in Sz. cbn [olen] in Sz. unfold nlen in Sz. pose proof (utf8_longer a).
  split; [eexists _, _; split; [reflexivity|]; split; [discriminate|reflexivity]|]. split; [cbn [existsb]; apply flat_app; [apply alpha_flat; exact (proj2 Ok)|reflexivity]|]. cbn [length]. rewrite app_length. cbn [length]. lia.
Qed.
(* an empty collection: its two events, and what is written for them *)
Lemma open_close c c' m m1 : close_flow c' true (open_flow c m) = EOk m1 -> chars (m_pen m1) = chars (m_pen m) ++ gap_text (p_white (m_pen m)) ++ [c; c'].
Proof.
  intros E. unfold close_flow in E. change (pop_indent (set_flow (open_flow c m) (m_flow (open_flow c m) - 1))) with (EOk (set_indents (set_flow (open_flow c m) (m_flow (open_flow c m) - 1)) (m_indent m) (m_indents m))) in E.
  cbn [ebind negb] in E. rewrite andb_false_r in E. unfold pop_state in E. match type of E with match ?l with _ => _ end = _ => destruct l; [discriminate|] end. injection E as <-.
  cbn [set_states m_pen indicator on_pen set_pen]. rewrite (proj1 (indicator_is [c'] false false false _)). cbn [set_indents set_flow m_pen open_flow increase_indent indicator on_pen set_pen].
  rewrite (proj1 (indicator_is [c] true true false _)). cbn [app]. rewrite <- !app_assoc. reflexivity.
Qed.
Lemma coll_key m x a t i m1 c c' m2 p : (exists style, x = ESeqStart a t i style \/ x = EMapStart a t i style) -> tags_ok m -> text_event x -> analyze_event (m_cfg m) (m_tags m) x = inr (m_data m) ->
  (size (m_data m) <= 128)%nat -> p = m_pen m -> m_pen m1 = m_pen (process_tag (process_anchor (set_context m true true))) -> c <> 0x20 -> is_break c = false -> is_break c' = false ->
  close_flow c' true (open_flow c m1) = EOk m2 ->
  exists w, chars (m_pen m2) = chars p ++ gap_text (p_white p) ++ w /\ key_text w.
Proof.
  intros X O Tx A Sz -> P C1 C2 C3 E. destruct (coll_neat _ _ _ _ _ _ _ X O Tx A) as [Ne Al].
  destruct (props_neat (set_context m true true) Al Ne) as (P1 & pw & P3 & P4 & P5 & P6 & P7 & P8). rewrite <- P in *. change (m_pen (set_context m true true)) with (m_pen m) in *. change (m_data (set_context m true true)) with (m_data m) in *.
  exists (pw ++ sep pw ++ [c; c']). rewrite (open_close _ _ _ _ E). split; [rewrite app_assoc, P3, <- (app_assoc (chars _)), (lead_gap _ pw _ P4 P5), <- !app_assoc; reflexivity|].
  pose proof (sep_size pw). split; [|split; [|rewrite !app_length; cbn [length]; lia]].
  - destruct P8 as [-> |P8]; [eexists _, _; split; [reflexivity|]; auto|exact (start_app _ _ P8)].
  - apply flat_app; [exact P6|]. apply flat_app; [apply flat_sep|]. unfold flat. cbn [existsb]. rewrite C2, C3. reflexivity.
Qed.
Lemma key_step m x m1 : before_key (m_state m) = true -> node_event x = true -> state_machine m x = EOk m1 ->
  (exists m0 s op ws, chars (m_pen m0) = chars (m_pen m) ++ op ++ ws /\ opening (m_state m) op /\ white_text ws /\ like m m0 /\ m_events m0 = m_events m /\
     check_simple_key m0 = true /\ m_states m0 = s :: m_states m /\ emit_node m0 x true true = EOk m1) \/
  (exists m0 s, after_simple_key s = false /\ like m m0 /\ m_states m0 = s :: m_states m /\ emit_node m0 x true false = EOk m1).
Proof.
  assert (W : forall m', exists ws, chars (m_pen (indent_ m')) = chars (m_pen m') ++ ws /\ white_text ws) by (intros m'; destruct (indent_any (m_cfg m') (m_indent m') (m_pen m')) as (ws & E & Hw & _); exists ws; split; assumption).
  assert (Wi : forall b m', exists ws, chars (m_pen (indent_if b m')) = chars (m_pen m') ++ ws /\ white_text ws) by (intros [] m'; [apply W|exists []; rewrite app_nil_r; split; [reflexivity|constructor]]).
  intros B Nx. unfold state_machine. destruct (m_state m) eqn:St; try discriminate.
  - unfold emit_flow_mapping_key. cbv zeta. set (mo := open_flow 0x7B m).
    assert (K : forall r, (if negb (g_canonical (m_cfg (indent_if (wide mo) mo))) && check_simple_key (indent_if (wide mo) mo) then emit_node (push_state (indent_if (wide mo) mo) FlowMapSimple) x true true
       else emit_node (push_state (indicator [0x3F] true false false (indent_if (wide mo) mo)) FlowMapValue) x true false) = EOk r -> r = m1 -> 
       (exists m0 s op ws, chars (m_pen m0) = chars (m_pen m) ++ op ++ ws /\ opening FlowMapFirst op /\ white_text ws /\ like m m0 /\ m_events m0 = m_events m /\
     check_simple_key m0 = true /\ m_states m0 = s :: m_states m /\ emit_node m0 x true true = EOk m1) \/
  (exists m0 s, after_simple_key s = false /\ like m m0 /\ m_states m0 = s :: m_states m /\ emit_node m0 x true false = EOk m1)).
    { intros r H ->. destruct (negb _ && check_simple_key _) eqn:C.
      - left. apply andb_true_iff in C as [_ C]. destruct (Wi (wide mo) mo) as (ws & E & Hw). eexists (push_state (indent_if (wide mo) mo) FlowMapSimple), FlowMapSimple, (gap_text (p_white (m_pen m)) ++ [0x7B]), ws.
        split. { cbn [push_state set_states m_pen]. rewrite E. unfold mo. cbn [open_flow set_flow increase_indent set_indents indicator on_pen set_pen m_pen]. rewrite (proj1 (indicator_is [0x7B] true true false (m_pen m))), <- !app_assoc. reflexivity. }
        split; [destruct (p_white (m_pen m)); cbn; auto|]. split; [exact Hw|]. unfold indent_if in *. destruct (wide mo); (split; [repeat split|]; split; [reflexivity|]; split; [exact C|]; split; [reflexivity|exact H]).
      - right. eexists (push_state (indicator [0x3F] true false false (indent_if (wide mo) mo)) FlowMapValue), FlowMapValue. split; [reflexivity|]. unfold indent_if in *. destruct (wide mo); (split; [repeat split|]; split; [reflexivity|exact H]). }
    destruct x; try discriminate; intros H; exact (K _ H eq_refl).
  - unfold emit_flow_mapping_key. cbv zeta. set (mo := indicator [0x2C] false false false m).
    assert (K : forall r, (if negb (g_canonical (m_cfg (indent_if (wide mo) mo))) && check_simple_key (indent_if (wide mo) mo) then emit_node (push_state (indent_if (wide mo) mo) FlowMapSimple) x true true
       else emit_node (push_state (indicator [0x3F] true false false (indent_if (wide mo) mo)) FlowMapValue) x true false) = EOk r -> r = m1 -> 
       (exists m0 s op ws, chars (m_pen m0) = chars (m_pen m) ++ op ++ ws /\ opening FlowMapKey op /\ white_text ws /\ like m m0 /\ m_events m0 = m_events m /\
     check_simple_key m0 = true /\ m_states m0 = s :: m_states m /\ emit_node m0 x true true = EOk m1) \/
  (exists m0 s, after_simple_key s = false /\ like m m0 /\ m_states m0 = s :: m_states m /\ emit_node m0 x true false = EOk m1)).
    { intros r H ->. destruct (negb _ && check_simple_key _) eqn:C.
      - left. apply andb_true_iff in C as [_ C]. destruct (Wi (wide mo) mo) as (ws & E & Hw). eexists (push_state (indent_if (wide mo) mo) FlowMapSimple), FlowMapSimple, [0x2C], ws.
        split. { cbn [push_state set_states m_pen]. rewrite E. unfold mo. cbn [indicator on_pen set_pen m_pen]. rewrite (proj1 (indicator_is [0x2C] false false false (m_pen m))), <- !app_assoc. reflexivity. }
        split; [reflexivity|]. split; [exact Hw|]. unfold indent_if in *. destruct (wide mo); (split; [repeat split|]; split; [reflexivity|]; split; [exact C|]; split; [reflexivity|exact H]).
      - right. eexists (push_state (indicator [0x3F] true false false (indent_if (wide mo) mo)) FlowMapValue), FlowMapValue. split; [reflexivity|]. unfold indent_if in *. destruct (wide mo); (split; [repeat split|]; split; [reflexivity|exact H]). }
    destruct x; try discriminate; intros H; exact (K _ H eq_refl).
  - unfold emit_block_mapping_key. cbv zeta. set (mo := increase_indent m false false).
    assert (K : forall r, (if check_simple_key (indent_ mo) then emit_node (push_state (indent_ mo) BlockMapSimple) x true true
       else emit_node (push_state (indicator [0x3F] true false true (indent_ mo)) BlockMapValue) x true false) = EOk r -> r = m1 -> 
       (exists m0 s op ws, chars (m_pen m0) = chars (m_pen m) ++ op ++ ws /\ opening BlockMapFirst op /\ white_text ws /\ like m m0 /\ m_events m0 = m_events m /\
     check_simple_key m0 = true /\ m_states m0 = s :: m_states m /\ emit_node m0 x true true = EOk m1) \/
  (exists m0 s, after_simple_key s = false /\ like m m0 /\ m_states m0 = s :: m_states m /\ emit_node m0 x true false = EOk m1)).
    { intros r H ->. destruct (check_simple_key _) eqn:C.
      - left. destruct (W mo) as (ws & E & Hw). eexists (push_state (indent_ mo) BlockMapSimple), BlockMapSimple, [], ws.
        split; [exact E|]. split; [reflexivity|]. split; [exact Hw|]. (split; [repeat split|]; split; [reflexivity|]; split; [exact C|]; split; [reflexivity|exact H]).
      - right. eexists _, BlockMapValue. split; [reflexivity|]. split; [|split; [|exact H]]; repeat split. }
    destruct x; try discriminate; intros H; exact (K _ H eq_refl).
  - unfold emit_block_mapping_key. cbv zeta.
    assert (K : forall r, (if check_simple_key (indent_ m) then emit_node (push_state (indent_ m) BlockMapSimple) x true true
       else emit_node (push_state (indicator [0x3F] true false true (indent_ m)) BlockMapValue) x true false) = EOk r -> r = m1 -> 
       (exists m0 s op ws, chars (m_pen m0) = chars (m_pen m) ++ op ++ ws /\ opening BlockMapKey op /\ white_text ws /\ like m m0 /\ m_events m0 = m_events m /\
     check_simple_key m0 = true /\ m_states m0 = s :: m_states m /\ emit_node m0 x true true = EOk m1) \/
  (exists m0 s, after_simple_key s = false /\ like m m0 /\ m_states m0 = s :: m_states m /\ emit_node m0 x true false = EOk m1)).
    { intros r H ->. destruct (check_simple_key _) eqn:C.
      - left. destruct (W m) as (ws & E & Hw). eexists (push_state (indent_ m) BlockMapSimple), BlockMapSimple, [], ws.
        split; [exact E|]. split; [reflexivity|]. split; [exact Hw|]. (split; [repeat split|]; split; [reflexivity|]; split; [exact C|]; split; [reflexivity|exact H]).
      - right. eexists _, BlockMapValue. split; [reflexivity|]. split; [|split; [|exact H]]; repeat split. }
    destruct x; try discriminate; intros H; exact (K _ H eq_refl).
Qed.
Lemma size_le d n : olen (a_anchor d) + olen (a_handle d) + olen (a_suffix d) + n <= 128 -> (size d + N.to_nat n <= 128)%nat.
Proof. unfold size. lia. Qed.
Lemma seq_end_step m m3 : m_state m = FlowSeqFirst -> state_machine m ESeqEnd = EOk m3 -> close_flow 0x5D true (open_flow 0x5B m) = EOk m3.
Proof. intros S. unfold state_machine. rewrite S. intros H. exact H. Qed.
Lemma map_end_step m m3 : m_state m = FlowMapFirst -> state_machine m EMapEnd = EOk m3 -> close_flow 0x7D true (open_flow 0x7B m) = EOk m3.
Proof. intros S. unfold state_machine. rewrite S. intros H. exact H. Qed.
Lemma seq_start_empty m style m1 : emit_sequence_start m style = EOk m1 -> check_empty_sequence (m_events m) = true -> m_pen m1 = m_pen (process_tag (process_anchor m)) /\ m_state m1 = FlowSeqFirst.
Proof.
  unfold emit_sequence_start. cbv zeta. intros H C. destruct (props_same m) as [(_ & Eq & _) _]. rewrite Eq, C, orb_true_r in H. assert (Inj : forall a b, EOk a = EOk b -> a = b) by congruence. apply Inj in H. rewrite <- H. split; reflexivity.
Qed.
Lemma map_start_empty m style m1 : emit_mapping_start m style = EOk m1 -> check_empty_mapping (m_events m) = true -> m_pen m1 = m_pen (process_tag (process_anchor m)) /\ m_state m1 = FlowMapFirst.
Proof.
  unfold emit_mapping_start. cbv zeta. intros H C. destruct (props_same m) as [(_ & Eq & _) _]. rewrite Eq, C, orb_true_r in H. assert (Inj : forall a b, EOk a = EOk b -> a = b) by congruence. apply Inj in H. rewrite <- H. split; reflexivity.
Qed.
Theorem simple_key_text g es m0 k m1 : takes (init_emitter g) es m0 -> before_key (m_state m0) = true -> Forall text_event (events_of k) -> takes m0 (events_of k) m1 ->
  after_simple_key (m_state m1) = true ->
  exists o white w, written (m_pen m1) = written (m_pen m0) ++ o ++ white ++ w /\ opening (m_state m0) o /\ white_text white /\ key_text w.
Proof.
  intros T0 B Tx T St. assert (O : tags_ok m0) by (apply (takes_tags _ _ _ T0); constructor). clear T0 g es.
  destruct (events_head k) as (x & es & E & Nx). rewrite E in T, Tx. destruct (takes_cons _ _ _ _ T) as (ma & mb & q & Q & Ev & _ & Em & T').
  destruct (queued_state _ _ Q) as [Q1 Q2]. assert (Oa : tags_ok ma) by (destruct Q as (l & ->); exact O). assert (Pa : m_pen ma = m_pen m0) by (destruct Q as (l & ->); reflexivity).
  destruct (one_inv _ _ _ Em) as (d & m2 & An & Sm & ->). inversion Tx as [|? ? Tx1 Tx2]; subst.
  destruct (key_step (set_data ma d) x m2) as [(mk & s & o & ws & C & Op & Hw & (L1 & L2 & L3) & Ek & Ck & Sk & En)|(mk & s & As & (L1 & L2 & L3) & Sk & En)]; [cbn; rewrite Q1; exact B|exact Nx|exact Sm| |].
  2: { destruct (all_return k mk m2 (set_events m2 (tl (m_events ma))) m1 x es true false s (m_states ma) E Sk) as [H _]; [rewrite L1, L2, L3; exact An|exact En|reflexivity|reflexivity|exact T'|]. congruence. }
  cbn [set_data m_cfg m_tags m_data m_states m_state m_events m_pen] in *. rewrite Q1 in Op.
  assert (Ank : analyze_event (m_cfg mk) (m_tags mk) x = inr (m_data mk)) by (rewrite L1, L2, L3; exact An). assert (Ok : tags_ok mk) by (unfold tags_ok; rewrite L2; exact Oa).
  change written with chars.
  assert (Fin : forall m3, (exists w, chars (m_pen m3) = chars (m_pen mk) ++ gap_text (p_white (m_pen mk)) ++ w /\ key_text w) -> m_pen m1 = m_pen m3 ->
     exists o white w, chars (m_pen m1) = chars (m_pen m0) ++ o ++ white ++ w /\ opening (m_state m0) o /\ white_text white /\ key_text w).
  { intros m3 (w & W & Kw) P. exists o, (ws ++ gap_text (p_white (m_pen mk))), w. split; [rewrite P, W, C, Pa, <- !app_assoc; reflexivity|]. split; [exact Op|]. split; [apply white_app; [exact Hw|apply white_gap]|exact Kw]. }
  assert (Pn : forall m, takes m [] m1 -> m_pen m1 = m_pen m) by (intros m X; destruct (takes_nil_inv _ _ _ X eq_refl) as (l & ->); reflexivity).
  unfold check_simple_key in Ck. rewrite Ek, Ev in Ck. destruct x; try discriminate.
  - assert (es = []) as -> by (destruct k; cbn [events_of] in E; congruence). apply (Fin m2); [|apply (Pn _ T')]. apply N.leb_le in Ck. eapply alias_key; eassumption.
  - assert (es = []) as -> by (destruct k; cbn [events_of] in E; congruence). apply (Fin m2); [|apply (Pn _ T')]. apply andb_true_iff in Ck as [C1 C2]. apply negb_true_iff in C1. apply N.leb_le, size_le in C2. unfold nlen in C2. rewrite Nat2N.id in C2. eapply scalar_key; eassumption.
  - apply andb_true_iff in Ck as [C1 C2]. apply N.leb_le in C2. rewrite <- (N.add_0_r (_ + _ + _)) in C2. apply size_le in C2. cbn [N.to_nat] in C2. rewrite Nat.add_0_r in C2.
    unfold check_empty_sequence in C1. destruct q as [|[]]; try discriminate.
    assert (Es : es = [ESeqEnd]).
    { destruct k as [| |a0 t0 i0 s0 items|]; cbn [events_of] in E; try discriminate. injection E as _ _ _ _ E. rewrite <- E. destruct items as [|k items]; [reflexivity|]. exfalso. rewrite <- E in T'. cbn [flat_map] in T'. destruct (events_head k) as (y & r & Ey & Ny). rewrite Ey in T'. cbn [app] in T'.
      destruct (takes_cons _ _ _ _ T') as (mc & md & q' & (l & Qc) & Evc & _). rewrite Qc in Evc. cbn [set_events m_events] in Evc. rewrite Ev in Evc. cbn [tl app] in Evc. injection Evc as <- _. discriminate. }
    subst es. destruct (takes_cons _ _ _ _ T') as (mc & md & q' & (l & Qc) & Evc & _ & Emc & T2). destruct (one_inv _ _ _ Emc) as (dc & m3 & Anc & Smc & ->). apply (Fin m3); [|apply (Pn _ T2)].
    destruct (seq_start_empty (set_context mk true true) _ m2 En) as [Pm Sm2]; [cbn [set_context m_events]; rewrite Ek, Ev; reflexivity|].
    apply seq_end_step in Smc; [|rewrite Qc; exact Sm2]. assert (Pc : m_pen (set_data mc dc) = m_pen (process_tag (process_anchor (set_context mk true true)))) by (rewrite Qc; exact Pm).
    eapply (coll_key mk); [eexists; left; reflexivity|exact Ok|exact Tx1|exact Ank|exact C2|reflexivity|exact Pc| | | |exact Smc]; [discriminate|reflexivity|reflexivity].
  - apply andb_true_iff in Ck as [C1 C2]. apply N.leb_le in C2. rewrite <- (N.add_0_r (_ + _ + _)) in C2. apply size_le in C2. cbn [N.to_nat] in C2. rewrite Nat.add_0_r in C2.
    unfold check_empty_mapping in C1. destruct q as [|[]]; try discriminate.
    assert (Es : es = [EMapEnd]).
    { destruct k as [| | |a0 t0 i0 s0 pairs]; cbn [events_of] in E; try discriminate. injection E as _ _ _ _ E. rewrite <- E. destruct pairs as [|[k v] pairs]; [reflexivity|]. exfalso. rewrite <- E in T'. cbn [flat_map] in T'. destruct (events_head k) as (y & r & Ey & Ny). rewrite Ey in T'. cbn [app] in T'.
      destruct (takes_cons _ _ _ _ T') as (mc & md & q' & (l & Qc) & Evc & _). rewrite Qc in Evc. cbn [set_events m_events] in Evc. rewrite Ev in Evc. cbn [tl app] in Evc. injection Evc as <- _. discriminate. }
    subst es. destruct (takes_cons _ _ _ _ T') as (mc & md & q' & (l & Qc) & Evc & _ & Emc & T2). destruct (one_inv _ _ _ Emc) as (dc & m3 & Anc & Smc & ->). apply (Fin m3); [|apply (Pn _ T2)].
    destruct (map_start_empty (set_context mk true true) _ m2 En) as [Pm Sm2]; [cbn [set_context m_events]; rewrite Ek, Ev; reflexivity|].
    apply map_end_step in Smc; [|rewrite Qc; exact Sm2]. assert (Pc : m_pen (set_data mc dc) = m_pen (process_tag (process_anchor (set_context mk true true)))) by (rewrite Qc; exact Pm).
    eapply (coll_key mk); [eexists; right; reflexivity|exact Ok|exact Tx1|exact Ank|exact C2|reflexivity|exact Pc| | | |exact Smc]; [discriminate|reflexivity|reflexivity].
Qed.
(* for concrete runs *)
Lemma computed_takes n m m' : emit_loop n m = EOk m' -> takes m (firstn (length (m_events m) - length (m_events m')) (m_events m)) m'.
Proof.
  intros H. destruct (loop_takes _ _ _ H) as (es & T & E). rewrite E, app_length. replace (length es + length (m_events m') - length (m_events m'))%nat with (length es + 0)%nat by lia. rewrite firstn_app_2. cbn [firstn]. rewrite app_nil_r. exact T.
Qed.
Lemma all_given g es : takes (init_emitter g) [] (set_events (init_emitter g) es).
Proof.
  induction es as [|e es IH] using rev_ind; [constructor|]. exact (T_give _ _ _ e IH).
Qed.
