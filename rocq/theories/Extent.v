(* The marks of events in terms of the tokens they are made from (C76). *)
From Verif Require Import Base Types ReaderModel ParserModel ExtentSpec.

Section Extent.
Variable L : list token.
Definition at_ (used : list token) (p : parser) : Prop := L = used ++ p_in p.
Definition good (o : pout) : Prop :=
  match o with PEvent e p' => exists used, at_ used p' /\ spans e used (p_in p') | _ => True end.

Lemma at_skip u p t r : at_ u p -> p_in p = t :: r -> at_ (u ++ [t]) (skip p).
Proof. unfold at_, skip. intros A E. rewrite E in *. cbn [p_in]. rewrite <- app_assoc. exact A. Qed.
Lemma in_skip p t r : p_in p = t :: r -> p_in (skip p) = r.
Proof. unfold skip. intros ->. reflexivity. Qed.
Lemma good_pop_state p k : (forall s ss, good (k (mkParser (p_in p) (p_end p) (p_error p) s ss (p_marks p) (p_tags p)))) -> good (pop_state p k).
Proof. intros H. unfold pop_state. destruct (p_states p); [exact I|]. apply H. Qed.
Lemma good_pop_mark p k : (forall m ms, good (k m (mkParser (p_in p) (p_end p) (p_error p) (p_state p) (p_states p) ms (p_tags p)))) -> good (pop_mark p k).
Proof. intros H. unfold pop_mark. destruct (p_marks p); [exact I|]. apply H. Qed.
Lemma good_peek p k : (forall t r, p_in p = t :: r -> good (k t)) -> good (peek p k).
Proof. intros H. unfold peek. destruct (p_in p); [exact I|]. exact (H _ _ eq_refl). Qed.
Lemma good_ret u e s m p : at_ u p -> spans (mkEvent e s m) u (p_in p) -> good (ret e s m p).
Proof. intros A S. exists u. split; assumption. Qed.
Lemma toks_snoc P l x : toks P l -> P (t_tok x) -> toks P (l ++ [x]).
Proof. intros A B. apply Forall_app. split; [exact A|]. constructor; [exact B|constructor]. Qed.

Definition pstart (ps : list token) (t : token) : mark := from ps t.
Lemma from_snoc ps x y : from (ps ++ [x]) y = from ps x.
Proof. destruct ps; reflexivity. Qed.

(* the content of a node behind its properties [ps] *)
Lemma good_content p block indentless anchor tag t r ls ps m :
  at_ (ls ++ ps) p -> p_in p = t :: r -> toks leads ls -> toks property ps -> carried ps anchor tag ->
  (anchor = None /\ tag = None \/ exists qs x, ps = qs ++ [x] /\ m = t_end x) ->
  good (parse_content p block indentless anchor tag (from ps t) m t).
Proof.
  intros A E Hl Hp Hc Hm. unfold parse_content.
  assert (Op : forall e st, carried_by ps e -> opens (t_tok t) e -> good (ret e (from ps t) (t_end t) (set_state p st))).
  { intros e st Ce O. apply (good_ret (ls ++ ps)); [exact A|]. cbn [set_state p_in]. rewrite E. exact (sp_open ls ps t e r Hl Hp Ce O). }
  destruct (indentless && _) eqn:B.
  { apply andb_prop in B as [_ B]. apply Op; [exact Hc|]. destruct (t_tok t); try discriminate. exact I. }
  assert (F : good (match anchor, tag with None, None => error_context p (NoNodeContent block) (from ps t) (t_start t)
     | _, _ => pop_state p (fun p => ret (EScalar anchor tag [] (match tag with None => true | Some [] => true | Some _ => false end) false Plain) (from ps t) m p) end)).
  { assert (G : anchor = None /\ tag = None \/ good (pop_state p (fun p => ret (EScalar anchor tag [] (match tag with None => true | Some [] => true | Some _ => false end) false Plain) (from ps t) m p))).
    { destruct Hm as [Hm|(qs & x & Eq & Em)]; [left; exact Hm|right]. apply good_pop_state. intros s ss. apply (good_ret (ls ++ ps)); [exact A|]. subst ps m. rewrite from_snoc.
      exact (sp_properties ls qs x anchor tag _ _ Hl Hp Hc). }
    destruct G as [[Ga Gt]|G]; [subst; exact I|]. destruct anchor; [exact G|]. destruct tag; [exact G|exact I]. }
  assert (C : forall e st, carried_by ps e -> opens (t_tok t) e -> good (if t_deep t then error_context p MaxNesting (from ps t) (t_start t) else ret e (from ps t) (t_end t) (set_state p st))).
  { intros e st Ce O. destruct (t_deep t); [exact I|exact (Op e st Ce O)]. }
  clear Op. destruct (t_tok t) eqn:Et; destruct block; try exact F; try (apply C; [exact Hc|exact I]).
  all: apply good_pop_state; intros s ss; apply (good_ret ((ls ++ ps) ++ [t])); [apply (at_skip _ _ t r); [exact A|exact E]|rewrite <- app_assoc; apply sp_scalar; assumption].
Qed.
Lemma good_with_tag p tag s k : (forall t, good (k (Some t))) -> good (with_tag p (Some tag) s k).
Proof. intros K. unfold with_tag. destruct tag as [[h u] m]. destruct (resolve_tag _ _ _); [apply K|exact I]. Qed.

Lemma good_node p block indentless ls : at_ ls p -> toks leads ls -> good (parse_node p block indentless).
Proof.
  intros A Hl. unfold parse_node. apply good_peek. intros t r E.
  assert (Z : good (parse_content p block indentless None None (t_start t) (t_start t) t)).
  { change (t_start t) with (from [] t) at 1. apply (good_content _ _ _ _ _ _ r ls []); auto; [rewrite app_nil_r; exact A|constructor|split; reflexivity]. }
  destruct (t_tok t) eqn:Et; try exact Z; clear Z.
  - apply good_pop_state. intros s ss. apply (good_ret (ls ++ [t])); [apply (at_skip _ _ t r); [exact A|exact E]|]. apply sp_alias; assumption.
  - cbv zeta. pose proof (at_skip _ _ _ _ A E) as A2. apply good_peek. intros t2 r2 E2.
    assert (P1 : toks property [t]) by (constructor; [rewrite Et; exact I|constructor]).
    assert (Z : good (parse_content (skip p) block indentless (Some name) None (t_start t) (t_end t) t2)).
    { change (t_start t) with (from [t] t2). apply (good_content _ _ _ _ _ _ r2 ls [t]); auto; [unfold carried; cbn; rewrite Et; split; reflexivity|]. right. exists [], t. auto. }
    destruct (t_tok t2) eqn:Et2; try exact Z; clear Z. apply good_peek. intros t3 r3 E3. apply good_with_tag. intros tg.
    change (t_start t) with (from [t; t2] t3). apply (good_content _ _ _ _ _ _ r3 ls [t; t2]); auto.
    + pose proof (at_skip _ _ _ _ A2 E2) as A3. rewrite <- app_assoc in A3. exact A3.
    + constructor; [rewrite Et; exact I|]. constructor; [rewrite Et2; exact I|constructor].
    + unfold carried; cbn; rewrite Et, Et2; split; reflexivity.
    + right. exists [t], t2. auto.
  - cbv zeta. pose proof (at_skip _ _ _ _ A E) as A2. apply good_peek. intros t2 r2 E2.
    assert (P1 : toks property [t]) by (constructor; [rewrite Et; exact I|constructor]).
    assert (Z : good (with_tag (skip p) (Some (handle, suffix, t_start t)) (t_start t) (fun tag => parse_content (skip p) block indentless None tag (t_start t) (t_end t) t2))).
    { apply good_with_tag. intros tg. change (t_start t) with (from [t] t2). apply (good_content _ _ _ _ _ _ r2 ls [t]); auto; [unfold carried; cbn; rewrite Et; split; reflexivity|]. right. exists [], t. auto. }
    destruct (t_tok t2) eqn:Et2; try exact Z; clear Z. apply good_peek. intros t3 r3 E3. apply good_with_tag. intros tg.
    change (t_start t) with (from [t; t2] t3) at 1. apply (good_content _ _ _ _ _ _ r3 ls [t; t2]); auto.
    + pose proof (at_skip _ _ _ _ A2 E2) as A3. rewrite <- app_assoc in A3. exact A3.
    + constructor; [rewrite Et; exact I|]. constructor; [rewrite Et2; exact I|constructor].
    + unfold carried; cbn; rewrite Et, Et2; split; reflexivity.
    + right. exists [t], t2. auto.
Qed.

Lemma good_enter p (first : bool) k : at_ [] p ->
  (first = true -> match p_in p with t :: _ => leads (t_tok t) | [] => True end) ->
  (forall p' ls, at_ ls p' -> toks leads ls -> (first = false -> ls = []) -> good (k p')) -> good (enter p first k).
Proof.
  intros A F K. unfold enter. destruct first; [|apply (K p []); [exact A|constructor|reflexivity]].
  unfold peek_unchecked. destruct (p_in p) as [|t r] eqn:E; [exact I|]. apply (K _ [t]); [|constructor; [exact (F eq_refl)|constructor]|discriminate].
  unfold at_, skip, push_mark. cbn [p_in]. rewrite E. cbn [p_in]. unfold at_ in A. rewrite E in A. exact A.
Qed.
Lemma good_end p e ls t r : at_ ls p -> p_in p = t :: r -> toks leads ls -> closes (t_tok t) e -> good (end_collection p e t).
Proof.
  intros A E Hl C. unfold end_collection. apply good_pop_state. intros s ss. apply good_pop_mark. intros m ms.
  apply (good_ret (ls ++ [t])); [apply (at_skip _ _ t r); [exact A|exact E]|]. apply sp_close; assumption.
Qed.
Lemma good_behind p s ls t r : at_ ls p -> p_in p = t :: r -> toks leads ls -> marker (t_tok t) -> good (process_empty_scalar (set_state (skip p) s) (t_end t)).
Proof. intros A E Hl M. apply (good_ret (ls ++ [t])); [exact (at_skip _ _ _ _ A E)|]. apply sp_missing_behind; assumption. Qed.
Lemma good_before p s ls t r : at_ ls p -> p_in p = t :: r -> toks leads ls -> ls = [] \/ flow_stop (t_tok t) -> good (process_empty_scalar (set_state p s) (t_start t)).
Proof. intros A E Hl M. apply (good_ret ls); [exact A|]. cbn [set_state p_in]. rewrite E. apply sp_missing_before; assumption. Qed.
Lemma good_node_skip p s block indentless ls t r : at_ ls p -> p_in p = t :: r -> toks leads ls -> leads (t_tok t) -> good (parse_node (push_state (skip p) s) block indentless).
Proof. intros A E Hl M. apply (good_node _ _ _ (ls ++ [t])); [exact (at_skip _ _ _ _ A E)|]. apply toks_snoc; assumption. Qed.
Lemma good_node_push p s block indentless ls : at_ ls p -> toks leads ls -> good (parse_node (push_state p s) block indentless).
Proof. intros A Hl. apply (good_node _ _ _ ls); [exact A|exact Hl]. Qed.

Ltac lead Et := rewrite Et; exact I.
Lemma good_block_sequence p (first : bool) : at_ [] p -> (first = true -> match p_in p with t :: _ => leads (t_tok t) | [] => True end) -> good (parse_block_sequence_entry p first).
Proof.
  intros A F. apply good_enter; [exact A|exact F|]. clear p A F. intros p ls A Hl _. apply good_peek. intros t r E.
  assert (Z : good (pop_mark p (fun m p0 => error_context p0 NoBlockEntry m (t_start t)))) by (apply good_pop_mark; intros; exact I).
  destruct (t_tok t) eqn:Et; try exact Z; clear Z.
  - apply (good_end p ESeqEnd ls t r A E Hl). lead Et.
  - cbv zeta. apply good_peek. intros t2 r2 E2.
    assert (Z1 : good (process_empty_scalar (set_state (skip p) PS_BSeqEntry) (t_end t))) by (apply (good_behind p _ ls t r A E Hl); lead Et).
    assert (Z2 : good (parse_node (push_state (skip p) PS_BSeqEntry) true false)) by (apply (good_node_skip p _ _ _ ls t r A E Hl); lead Et).
    destruct (t_tok t2); first [exact Z1|exact Z2].
Qed.
Lemma good_indentless p : at_ [] p -> good (parse_indentless_sequence_entry p).
Proof.
  intros A. unfold parse_indentless_sequence_entry. apply good_peek. intros t r E.
  assert (Z : good (pop_state p (fun p0 => ret ESeqEnd (t_start t) (t_start t) p0))).
  { apply good_pop_state. intros s ss. apply (good_ret []); [exact A|]. cbn [p_in]. rewrite E. apply sp_bare_close. auto. }
  destruct (t_tok t) eqn:Et; try exact Z; clear Z.
  cbv zeta. apply good_peek. intros t2 r2 E2.
  assert (Z1 : good (process_empty_scalar (set_state (skip p) PS_Indentless) (t_end t))) by (apply (good_behind p _ [] t r A E (Forall_nil _)); lead Et).
  assert (Z2 : good (parse_node (push_state (skip p) PS_Indentless) true false)) by (apply (good_node_skip p _ _ _ [] t r A E (Forall_nil _)); lead Et).
  destruct (t_tok t2); first [exact Z1|exact Z2].
Qed.
Lemma good_block_key p (first : bool) : at_ [] p -> (first = true -> match p_in p with t :: _ => leads (t_tok t) | [] => True end) -> good (parse_block_mapping_key p first).
Proof.
  intros A F. apply good_enter; [exact A|exact F|]. clear p A F. intros p ls A Hl _. apply good_peek. intros t r E.
  assert (Z : good (pop_mark p (fun m p0 => error_context p0 NoKey m (t_start t)))) by (apply good_pop_mark; intros; exact I).
  destruct (t_tok t) eqn:Et; try exact Z; clear Z.
  - apply (good_end p EMapEnd ls t r A E Hl). lead Et.
  - cbv zeta. apply good_peek. intros t2 r2 E2.
    assert (Z1 : good (process_empty_scalar (set_state (skip p) PS_BMapValue) (t_end t))) by (apply (good_behind p _ ls t r A E Hl); lead Et).
    assert (Z2 : good (parse_node (push_state (skip p) PS_BMapValue) true true)) by (apply (good_node_skip p _ _ _ ls t r A E Hl); lead Et).
    destruct (t_tok t2); first [exact Z1|exact Z2].
Qed.
Lemma good_block_value p : at_ [] p -> good (parse_block_mapping_value p).
Proof.
  intros A. unfold parse_block_mapping_value. apply good_peek. intros t r E.
  pose proof (good_before p PS_BMapKey [] t r A E (Forall_nil _) (or_introl eq_refl)) as Z. destruct (t_tok t) eqn:Et; try exact Z; clear Z.
  cbv zeta. apply good_peek. intros t2 r2 E2.
  assert (Z1 : good (process_empty_scalar (set_state (skip p) PS_BMapKey) (t_end t))) by (apply (good_behind p _ [] t r A E (Forall_nil _)); lead Et).
  assert (Z2 : good (parse_node (push_state (skip p) PS_BMapKey) true true)) by (apply (good_node_skip p _ _ _ [] t r A E (Forall_nil _)); lead Et).
  destruct (t_tok t2); first [exact Z1|exact Z2].
Qed.
Lemma good_flow_sequence p (first : bool) : at_ [] p -> (first = true -> match p_in p with t :: _ => leads (t_tok t) | [] => True end) -> good (parse_flow_sequence_entry p first).
Proof.
  intros A F. apply good_enter; [exact A|exact F|]. clear p A F. intros p ls A Hl _. apply good_peek. intros t r E.
  assert (En : forall p ls t r, at_ ls p -> toks leads ls -> p_in p = t :: r ->
    good (match t_tok t with
          | TKey => ret (EMapStart None None true FlowColl) (t_start t) (t_end t) (skip (set_state p PS_FSeqMapKey))
          | TFlowSeqEnd => end_collection p ESeqEnd t
          | _ => parse_node (push_state p PS_FSeqEntry) false false
          end)).
  { clear. intros p ls t r A Hl E. pose proof (good_node_push p PS_FSeqEntry false false ls A Hl) as N. destruct (t_tok t) eqn:Et; try exact N.
    - apply (good_end p ESeqEnd ls t r A E Hl). lead Et.
    - apply (good_ret (ls ++ [t])); [apply (at_skip _ _ t r); [exact A|exact E]|]. apply sp_pair; assumption. }
  pose proof (En p ls t r A Hl E) as EnT.
  assert (Z : good (pop_mark p (fun m p0 => error_context p0 NoFlowSeqEntry m (t_start t)))) by (apply good_pop_mark; intros; exact I).
  assert (G : t_tok t = TFlowSeqEnd -> good (end_collection p ESeqEnd t)) by (intros Et; apply (good_end p ESeqEnd ls t r A E Hl); lead Et).
  cbv zeta. destruct first.
  - destruct (t_tok t); first [exact (G eq_refl)|exact EnT].
  - clear EnT. destruct (t_tok t) eqn:Et; try exact (G eq_refl); try exact Z. apply good_peek. intros t2 r2 E2. apply (En _ (ls ++ [t]) _ r2); [exact (at_skip _ _ _ _ A E)|apply toks_snoc; [exact Hl|lead Et]|exact E2].
Qed.
Lemma good_pair_key p : at_ [] p -> good (parse_flow_sequence_entry_mapping_key p).
Proof.
  intros A. unfold parse_flow_sequence_entry_mapping_key. apply good_peek. intros t r E.
  pose proof (good_node_push p PS_FSeqMapValue false false [] A (Forall_nil _)) as N.
  destruct (t_tok t) eqn:Et; try exact N; first [apply (good_before p _ [] t r A E (Forall_nil _)); auto|apply (good_behind p _ [] t r A E (Forall_nil _)); lead Et].
Qed.
Lemma good_pair_value p : at_ [] p -> good (parse_flow_sequence_entry_mapping_value p).
Proof.
  intros A. unfold parse_flow_sequence_entry_mapping_value. apply good_peek. intros t r E.
  pose proof (good_before p PS_FSeqMapEnd [] t r A E (Forall_nil _) (or_introl eq_refl)) as Z. destruct (t_tok t) eqn:Et; try exact Z; clear Z.
  cbv zeta. pose proof (at_skip _ _ _ _ A E) as A2. assert (H2 : toks leads ([] ++ [t])) by (constructor; [lead Et|constructor]). apply good_peek. intros t2 r2 E2.
  pose proof (good_node_push (skip p) PS_FSeqMapEnd false false _ A2 H2) as N. pose proof (good_before (skip p) PS_FSeqMapEnd _ t2 r2 A2 E2 H2) as B.
  destruct (t_tok t2); try exact N; apply B; right; exact I.
Qed.
Lemma good_pair_end p : at_ [] p -> good (parse_flow_sequence_entry_mapping_end p).
Proof.
  intros A. unfold parse_flow_sequence_entry_mapping_end. apply good_peek. intros t r E. apply (good_ret []); [exact A|]. cbn [set_state p_in]. rewrite E. apply sp_bare_close. auto.
Qed.
Lemma good_flow_key p (first : bool) : at_ [] p -> (first = true -> match p_in p with t :: _ => leads (t_tok t) | [] => True end) -> good (parse_flow_mapping_key p first).
Proof.
  intros A F. apply good_enter; [exact A|exact F|]. clear p A F. intros p ls A Hl _. apply good_peek. intros t r E.
  assert (En : forall p ls t r, at_ ls p -> toks leads ls -> p_in p = t :: r ->
    good (match t_tok t with
          | TKey =>
              let p := skip p in
              peek p (fun token2 =>
                match t_tok token2 with
                | TValue | TFlowEntry | TFlowMapEnd =>
                    process_empty_scalar (set_state p PS_FMapValue) (t_start token2)
                | _ => parse_node (push_state p PS_FMapValue) false false
                end)
          | TFlowMapEnd => end_collection p EMapEnd t
          | _ => parse_node (push_state p PS_FMapEmptyValue) false false
          end)).
  { clear. intros p ls t r A Hl E. pose proof (good_node_push p PS_FMapEmptyValue false false ls A Hl) as N. destruct (t_tok t) eqn:Et; try exact N; clear N.
    - apply (good_end p EMapEnd ls t r A E Hl). lead Et.
    - cbv zeta. pose proof (at_skip _ _ _ _ A E) as A2. assert (H2 : toks leads (ls ++ [t])) by (apply toks_snoc; [exact Hl|lead Et]). apply good_peek. intros t2 r2 E2.
      pose proof (good_node_push (skip p) PS_FMapValue false false _ A2 H2) as N. pose proof (good_before (skip p) PS_FMapValue _ t2 r2 A2 E2 H2) as B.
      destruct (t_tok t2); try exact N; apply B; right; exact I. }
  pose proof (En p ls t r A Hl E) as EnT.
  assert (Z : good (pop_mark p (fun m p0 => error_context p0 NoFlowMapEntry m (t_start t)))) by (apply good_pop_mark; intros; exact I).
  assert (G : t_tok t = TFlowMapEnd -> good (end_collection p EMapEnd t)) by (intros Et; apply (good_end p EMapEnd ls t r A E Hl); lead Et).
  cbv zeta. destruct first.
  - destruct (t_tok t); first [exact (G eq_refl)|exact EnT].
  - clear EnT. destruct (t_tok t) eqn:Et; try exact (G eq_refl); try exact Z. apply good_peek. intros t2 r2 E2. apply (En _ (ls ++ [t]) _ r2); [exact (at_skip _ _ _ _ A E)|apply toks_snoc; [exact Hl|lead Et]|exact E2].
Qed.
Lemma good_flow_value p empty : at_ [] p -> good (parse_flow_mapping_value p empty).
Proof.
  intros A. unfold parse_flow_mapping_value. apply good_peek. intros t r E.
  pose proof (good_before p PS_FMapKey [] t r A E (Forall_nil _) (or_introl eq_refl)) as Z. destruct empty; [exact Z|]. destruct (t_tok t) eqn:Et; try exact Z; clear Z.
  cbv zeta. pose proof (at_skip _ _ _ _ A E) as A2. assert (H2 : toks leads ([] ++ [t])) by (constructor; [lead Et|constructor]). apply good_peek. intros t2 r2 E2.
  pose proof (good_node_push (skip p) PS_FMapKey false false _ A2 H2) as N. pose proof (good_before (skip p) PS_FMapKey _ t2 r2 A2 E2 H2) as B.
  destruct (t_tok t2); try exact N; apply B; right; exact I.
Qed.
Lemma good_doc_content p : at_ [] p -> good (parse_document_content p).
Proof.
  intros A. unfold parse_document_content. apply good_peek. intros t r E.
  assert (Z : good (pop_state p (fun p => process_empty_scalar p (t_start t)))).
  { apply good_pop_state. intros s ss. apply (good_ret []); [exact A|]. cbn [p_in]. rewrite E. apply sp_missing_before; [constructor|auto]. }
  pose proof (good_node p true false [] A (Forall_nil _)) as N. destruct (t_tok t); first [exact Z|exact N].
Qed.
Lemma good_doc_end p : at_ [] p -> good (parse_document_end p).
Proof.
  intros A. unfold parse_document_end. apply good_peek. intros t r E.
  assert (Z : t_tok t <> TDocEnd -> good (ret (EDocEnd true) (t_start t) (t_start t) (set_state (set_tags p []) PS_DocStart))).
  { intros H. apply (good_ret []); [exact A|]. cbn [set_state set_tags p_in]. rewrite E. apply sp_bare_document_end. exact H. }
  destruct (t_tok t) eqn:Et; try (apply Z; discriminate). apply (good_ret [t]); [exact (at_skip _ _ _ _ A E)|]. apply sp_document_end. exact Et.
Qed.
Lemma good_stream_start p : at_ [] p -> good (parse_stream_start p).
Proof.
  intros A. unfold parse_stream_start. apply good_peek. intros t r E. destruct (t_tok t) eqn:Et; try exact I.
  apply (good_ret [t]); [apply (at_skip [] _ t r); [exact A|exact E]|]. apply sp_stream_start. exact Et.
Qed.

Lemma directive_loop_at fuel : forall ver dirs p u v ds p', at_ u p -> directive_loop fuel ver dirs p = DirsOk v ds p' ->
  exists us, toks directive us /\ at_ (u ++ us) p' /\ p_in p = us ++ p_in p'.
Proof.
  induction fuel as [|x fuel IH]; intros ver dirs p u v ds p' A H; cbn [directive_loop] in H; [discriminate|].
  destruct (p_in p) as [|t r] eqn:E; [discriminate|].
  assert (Z : forall w y, DirsOk w y p = DirsOk v ds p' -> exists us, toks directive us /\ at_ (u ++ us) p' /\ t :: r = us ++ p_in p').
  { intros w y K. injection K as _ _ K. subst p'. exists []. rewrite app_nil_r. split; [constructor|]. split; [exact A|]. symmetry. exact E. }
  assert (S : forall p2, at_ (u ++ [t]) p2 -> p_in p2 = r -> directive (t_tok t) -> forall w y, directive_loop fuel w y p2 = DirsOk v ds p' ->
     exists us, toks directive us /\ at_ (u ++ us) p' /\ t :: r = us ++ p_in p').
  { intros p2 A2 E2 D w y K. destruct (IH _ _ _ _ _ _ _ A2 K) as (us & U1 & U2 & U3). exists (t :: us). split; [constructor; assumption|].
    split; [rewrite <- app_assoc in U2; exact U2|]. rewrite E2 in U3. rewrite U3. reflexivity. }
  destruct (t_tok t) eqn:Et; try exact (Z _ _ H); clear Z.
  - destruct ver; [discriminate|]. destruct (_ || _); [discriminate|]. apply (S (skip p)) in H; [exact H|exact (at_skip _ _ _ _ A E)|exact (in_skip _ _ _ E)|exact I].
  - destruct (append_tag_directive _ _ _) as [tags|]; [|discriminate]. apply (S (skip (set_tags p tags))) in H; [exact H|apply (at_skip _ _ t r); [exact A|exact E]|exact (in_skip (set_tags p tags) _ _ E)|exact I].
Qed.
Lemma process_directives_at p u v ds p' : at_ u p -> process_directives p = DirsOk v ds p' ->
  exists us, toks directive us /\ at_ (u ++ us) p' /\ p_in p = us ++ p_in p'.
Proof.
  intros A. unfold process_directives. destruct (directive_loop _ _ _ _) as [v1 d1 p1|] eqn:D; [|discriminate]. intros H. injection H as _ _ H. subst p'.
  exact (directive_loop_at _ _ _ _ _ _ _ _ A D).
Qed.
Lemma skip_doc_ends_at fuel : forall p u, at_ u p -> toks (eq TDocEnd) u -> exists us, toks (eq TDocEnd) us /\ at_ us (skip_doc_ends fuel p).
Proof.
  induction fuel as [|x fuel IH]; intros p u A U; cbn [skip_doc_ends]; [exists u; auto|]. destruct (p_in p) as [|t r] eqn:E; [exists u; auto|].
  assert (Z : exists us, toks (eq TDocEnd) us /\ at_ us p) by (exists u; auto). destruct (t_tok t) eqn:Et; try exact Z.
  apply (IH _ (u ++ [t])); [exact (at_skip _ _ _ _ A E)|]. apply toks_snoc; [exact U|symmetry; exact Et].
Qed.
Lemma good_doc_start p implicit : at_ [] p -> good (parse_document_start p implicit).
Proof.
  intros A. unfold parse_document_start. apply good_peek. intros t0 r0 _. cbv zeta.
  assert (K : exists us, toks (eq TDocEnd) us /\ at_ us (if implicit then p else skip_doc_ends (p_in p) p) /\ (implicit = true -> us = [])).
  { destruct implicit; [exists []; split; [constructor|auto]|]. destruct (skip_doc_ends_at (p_in p) p [] A (Forall_nil _)) as (us & U1 & U2). exists us. split; [exact U1|]. split; [exact U2|discriminate]. }
  revert K. generalize (if implicit then p else skip_doc_ends (p_in p) p). clear p A. intros p (us & U & A & U0). apply good_peek. intros t r E.
  destruct (implicit && _ && _) eqn:B.
  - apply andb_prop in B as [B B2]. apply andb_prop in B as [B B1]. specialize (U0 B). subst us.
    destruct (process_directives p) as [ver dirs p'|p'] eqn:D; [|exact I]. destruct (process_directives_at _ _ _ _ _ A D) as (ds & D1 & D2 & D3).
    assert (ds = []).
    { destruct ds as [|d ds]; [reflexivity|]. rewrite E in D3. injection D3 as D3 _. subst d. inversion D1 as [|dx dr Hd _]. destruct (t_tok t); try contradiction; discriminate. }
    subst ds. apply (good_ret []); [exact D2|]. cbn [set_state push_state p_in]. cbn [app] in D3. rewrite <- D3, E. apply sp_bare_document.
  - destruct (is_stream_end (t_tok t)) eqn:SE; cbn [negb].
    + apply (good_ret (us ++ [t])); [apply (at_skip _ _ t r); [exact A|exact E]|]. apply sp_stream_end; [exact U|]. destruct (t_tok t); try discriminate. reflexivity.
    + destruct (process_directives p) as [ver dirs p'|p'] eqn:D; [|exact I]. destruct (process_directives_at _ _ _ _ _ A D) as (ds & D1 & D2 & D3).
      apply good_peek. intros t2 r2 E2. destruct (t_tok t2) eqn:Et2; try exact I.
      assert (Fr : t_start t = from ds t2).
      { destruct ds as [|d ds]; cbn [app] in D3; rewrite E in D3; [rewrite E2 in D3|]; injection D3 as D3 _; subst; reflexivity. }
      rewrite Fr. apply (good_ret ((us ++ ds) ++ [t2])); [apply (at_skip _ _ t2 r2); [exact D2|exact E2]|]. rewrite <- app_assoc. apply sp_document; assumption.
Qed.

(* the first token of a collection has been seen when the collection is entered *)
Definition entered (p : parser) : Prop :=
  match p_state p with
  | PS_BSeqFirst | PS_BMapFirst | PS_FSeqFirst | PS_FMapFirst => match p_in p with t :: _ => leads (t_tok t) | [] => True end
  | _ => True
  end.
Theorem good_parse p : at_ [] p -> entered p -> good (parse p).
Proof.
  intros A F. unfold parse. destruct (_ || _ || _); [exact I|]. unfold state_machine. unfold entered in F. destruct (p_state p); try exact I.
  - apply good_stream_start; assumption.
  - apply good_doc_start; assumption.
  - apply good_doc_start; assumption.
  - apply good_doc_content; assumption.
  - apply good_doc_end; assumption.
  - apply (good_node _ _ _ [] A (Forall_nil _)).
  - apply (good_node _ _ _ [] A (Forall_nil _)).
  - apply (good_node _ _ _ [] A (Forall_nil _)).
  - apply good_block_sequence; auto.
  - apply good_block_sequence; [assumption|discriminate].
  - apply good_indentless; assumption.
  - apply good_block_key; auto.
  - apply good_block_key; [assumption|discriminate].
  - apply good_block_value; assumption.
  - apply good_flow_sequence; auto.
  - apply good_flow_sequence; [assumption|discriminate].
  - apply good_pair_key; assumption.
  - apply good_pair_value; assumption.
  - apply good_pair_end; assumption.
  - apply good_flow_key; auto.
  - apply good_flow_key; [assumption|discriminate].
  - apply good_flow_value; assumption.
  - apply good_flow_value; assumption.
Qed.
End Extent.
From Verif Require Import ParserInv ParserProofs.

Lemma wf_entered p : wf p -> entered p.
Proof.
  intros (_ & _ & W). unfold wf_state in W. unfold entered. destruct (p_state p); try exact I.
  all: destruct W as [_ [r W]]; unfold ParserInv.toks in W; destruct (p_in p) as [|t l]; [exact I|]; injection W as W _; rewrite W; exact I.
Qed.
Theorem made_all n : forall p, wf p \/ p_state p = PS_End -> made (fst (parse_all n p)) (p_in p).
Proof.
  induction n as [|n IH]; intros p W; cbn [parse_all]; [apply made_nil|].
  assert (F : entered p) by (destruct W as [W|W]; [exact (wf_entered p W)|unfold entered; rewrite W; exact I]).
  pose proof (good_parse (p_in p) p eq_refl F) as G.
  destruct (parse p) as [e p'|p'|p'|] eqn:E; try apply made_nil.
  assert (W' : wf p' \/ p_state p' = PS_End).
  { destruct W as [W|W].
    - pose proof (step_cases p W) as SC. rewrite E in SC. destruct SC as (TR & E1 & E2). destruct (wf_step _ _ _ W TR E1 E2) as [[W' _]|[_ W']]; auto.
    - exfalso. unfold parse in E. rewrite W in E. cbn [is_end_state] in E. rewrite orb_true_r in E. discriminate. }
  destruct G as (used & A & S). specialize (IH p' W'). destruct (parse_all n p') as [es o]. cbn [fst] in *. unfold at_ in A. rewrite A. exact (made_cons e es used _ S IH).
Qed.
Lemma made_parsed n l es o : parse_all n (init_parser l) = (es, o) -> made es l.
Proof.
  intros E. pose proof (made_all n (init_parser l)) as H. rewrite E in H. apply H. left. repeat split.
Qed.
(* every event on its own *)
Lemma made_in es l e : made es l -> In e es -> exists before used next, l = before ++ used ++ next /\ spans e used next.
Proof.
  induction 1 as [l|e0 es used next S M IH]; intros H; [destruct H|]. destruct H as [<-|H]; [exists [], used, next; auto|].
  destruct (IH H) as (b & u & x & E & Sx). exists (used ++ b), u, x. subst next. rewrite <- app_assoc. auto.
Qed.
(* a scalar that is not plain is made from a scalar token *)
Lemma no_properties ps : ExtentSpec.toks property ps -> carried ps None None -> ps = [].
Proof.
  intros H [C1 C2]. destruct ps as [|p ps]; [reflexivity|]. inversion H as [|x r Hx Hr]; subst. cbn in C1, C2. destruct (t_tok p); try contradiction; discriminate.
Qed.
Lemma spans_scalar x u nx a t v i j style : spans x u nx -> e_ev x = EScalar a t v i j style -> style <> Plain ->
  exists k, In k u /\ t_tok k = TScalar v style /\ e_end x = t_end k /\ (a = None -> t = None -> e_start x = t_start k).
Proof.
  intros S K N. destruct S; cbn [e_ev e_start e_end] in *; try discriminate K; try (injection K; intros; congruence).
  - injection K as K1 K2 K3 K4 K5 K6. subst. exists x. split; [apply in_or_app; right; apply in_or_app; right; left; reflexivity|]. split; [assumption|]. split; [reflexivity|].
    intros Ea Et. subst. rewrite (no_properties ps); [reflexivity|assumption..].
  - subst. destruct (t_tok x); contradiction.
  - subst. destruct (t_tok x); contradiction.
  - match goal with H : _ \/ _ |- _ => destruct H end; subst; discriminate.
Qed.
Lemma scalar_token n l es o x a t v i j style : parse_all n (init_parser l) = (es, o) -> In x es -> e_ev x = EScalar a t v i j style -> style <> Plain ->
  exists k, In k l /\ t_tok k = TScalar v style /\ e_end x = t_end k /\ (a = None -> t = None -> e_start x = t_start k).
Proof.
  intros P I K N. destruct (made_in _ _ _ (made_parsed _ _ _ _ P) I) as (b & u & nx & E & S).
  destruct (spans_scalar _ _ _ _ _ _ _ _ _ S K N) as (k & Ik & R). exists k. split; [|exact R]. subst l. apply in_or_app. right. apply in_or_app. left. exact Ik.
Qed.
