(* The errors of the parser (C79). *)
From Verif Require Import Base Types ReaderModel ParserModel ParserInv ParserProofs ExtentSpec BlameSpec.
From Verif Require Extent.
Notation toks := ExtentSpec.toks.

Lemma open_starts_app a : forall acc b, open_starts acc (a ++ b) = open_starts (open_starts acc a) b.
Proof. induction a as [|x a IH]; intros acc b; [reflexivity|]. cbn. apply IH. Qed.

Section Blame.
Variables B L : list token.
Definition at_ (u : list token) (p : parser) : Prop := L = u ++ p_in p /\ p_marks p = open_starts [] (B ++ u).
Definition good (o : pout) : Prop :=
  match o with
  | PEvent e p' => exists u, at_ u p'
  | PFail p' => exists u er, L = u ++ p_in p' /\ p_error p' = Some er /\ blame B u (p_in p') er
  | _ => True
  end.
Definition neutral (t : tok) : Prop := opener t = false /\ closer t = false.

Lemma in_skip p t r : p_in p = t :: r -> p_in (skip p) = r.
Proof. unfold skip. intros ->. reflexivity. Qed.
Lemma marks_skip p : p_marks (skip p) = p_marks p.
Proof. unfold skip. destruct (p_in p); reflexivity. Qed.
Lemma at_skip u p t r : at_ u p -> p_in p = t :: r -> neutral (t_tok t) -> at_ (u ++ [t]) (skip p).
Proof.
  intros [A M] E [N1 N2]. split; [rewrite (in_skip _ _ _ E), <- app_assoc, A, E; reflexivity|]. rewrite marks_skip, M, app_assoc, (open_starts_app (B ++ u)). cbn [open_starts]. rewrite N1, N2. reflexivity.
Qed.
Lemma good_fail u p er : L = u ++ p_in p -> blame B u (p_in p) er -> good (fail p er).
Proof. intros A H. exists u, er. auto. Qed.
Lemma good_pop_state p k : (forall s ss, good (k (mkParser (p_in p) (p_end p) (p_error p) s ss (p_marks p) (p_tags p)))) -> good (pop_state p k).
Proof. intros H. unfold pop_state. destruct (p_states p); [exact I|]. apply H. Qed.
Lemma good_peek u p k : at_ u p -> (forall t r, p_in p = t :: r -> good (k t)) -> good (peek p k).
Proof.
  intros [A _] H. unfold peek. destruct (p_in p) as [|t r] eqn:E; [|exact (H _ _ eq_refl)]. apply (good_fail u); [rewrite E; exact A|]. rewrite E. apply Bl_token.
Qed.
Lemma good_ret u e s m p : at_ u p -> good (ret e s m p).
Proof. intros A. exists u. exact A. Qed.
Ltac gret := match goal with A : at_ ?u _ |- _ => solve [exists u; exact A] end.
Lemma good_entry u p pr t r : at_ u p -> p_in p = t :: r -> In pr [NoBlockEntry; NoKey; NoFlowSeqEntry; NoFlowMapEntry] -> ~ expected pr (t_tok t) ->
  good (pop_mark p (fun m p0 => error_context p0 pr m (t_start t))).
Proof.
  intros [A M] E I N. unfold pop_mark. destruct (p_marks p) as [|m ms]; [exact Logic.I|]. apply (good_fail u); [exact A|]. cbn [p_in]. rewrite E. apply (Bl_entry B u pr t r m ms I N). symmetry. exact M.
Qed.
Lemma toks_snoc P l x : toks P l -> P (t_tok x) -> toks P (l ++ [x]).
Proof. intros A C. apply Forall_app. split; [exact A|]. constructor; [exact C|constructor]. Qed.

Lemma good_content p block indentless anchor tag t r ls ps m :
  at_ (ls ++ ps) p -> p_in p = t :: r -> toks leads ls -> toks property ps ->
  (anchor = None -> tag = None -> ps = [] /\ match t_tok t with TAlias _ | TAnchor _ | TTag _ _ => False | _ => True end) ->
  good (parse_content p block indentless anchor tag (from ps t) m t).
Proof.
  intros A E Hl Hp Hn. unfold parse_content.
  destruct (indentless && _); [gret|].
  assert (F : ~ begins_node (t_tok t) \/ (anchor <> None \/ tag <> None) -> good (match anchor, tag with None, None => error_context p (NoNodeContent block) (from ps t) (t_start t)
     | _, _ => pop_state p (fun p => ret (EScalar anchor tag [] (match tag with None => true | Some [] => true | Some _ => false end) false Plain) (from ps t) m p) end)).
  { intros Hb. assert (G : good (pop_state p (fun p => ret (EScalar anchor tag [] (match tag with None => true | Some [] => true | Some _ => false end) false Plain) (from ps t) m p))).
    { apply good_pop_state. intros s ss. gret. }
    destruct anchor; [exact G|]. destruct tag; [exact G|]. destruct Hb as [Hb|[Hb|Hb]]; try contradiction. destruct (Hn eq_refl eq_refl) as [-> _].
    apply (good_fail ls); [rewrite app_nil_r in A; exact (proj1 A)|]. rewrite E. exact (Bl_content B ls block t r Hl Hb). }
  assert (F' : match t_tok t with TScalar _ _ | TFlowSeqStart | TFlowMapStart => False | _ => True end -> good (match anchor, tag with None, None => error_context p (NoNodeContent block) (from ps t) (t_start t)
     | _, _ => pop_state p (fun p => ret (EScalar anchor tag [] (match tag with None => true | Some [] => true | Some _ => false end) false Plain) (from ps t) m p) end)).
  { intros Ht. apply F. destruct anchor; [right; left; discriminate|]. destruct tag; [right; right; discriminate|]. left. destruct (Hn eq_refl eq_refl) as [_ Hx].
    destruct (t_tok t); cbn; tauto. }
  clear F.
  assert (C : forall e st, opener (t_tok t) = true -> good (if t_deep t then error_context p MaxNesting (from ps t) (t_start t) else ret e (from ps t) (t_end t) (set_state p st))).
  { intros e st O. destruct (t_deep t); [|gret]. apply (good_fail (ls ++ ps)); [exact (proj1 A)|]. rewrite E. exact (Bl_nesting B _ ls ps t r eq_refl Hl Hp O). }
  destruct (t_tok t) eqn:Et; destruct block; try exact (F' I); try (apply C; reflexivity).
  all: apply good_pop_state; intros s ss; apply (good_ret ((ls ++ ps) ++ [t])); apply (at_skip _ (mkParser _ _ _ _ _ _ _) t r); [exact A|exact E|rewrite Et; split; reflexivity].
Qed.
Lemma good_with_tag p h u m c k ls ps x : at_ (ls ++ ps) p -> toks leads ls -> toks property ps -> In x ps -> t_tok x = TTag h u -> m = t_start x -> c = from ps x ->
  (forall t, good (k (Some t))) -> good (with_tag p (Some (h, u, m)) c k).
Proof.
  intros A Hl Hp Ix Et -> -> K. unfold with_tag. destruct (resolve_tag _ _ _); [apply K|]. apply (good_fail (ls ++ ps)); [exact (proj1 A)|]. exact (Bl_handle B _ ls ps x h u _ eq_refl Hl Hp Ix Et).
Qed.
Lemma neutral_property t : property t -> neutral t.
Proof. destruct t; try contradiction; split; reflexivity. Qed.

Lemma good_node p block indentless ls : at_ ls p -> toks leads ls -> good (parse_node p block indentless).
Proof.
  intros A Hl. unfold parse_node. apply (good_peek ls); [exact A|]. intros t r E.
  assert (Z : match t_tok t with TAlias _ | TAnchor _ | TTag _ _ => False | _ => True end -> good (parse_content p block indentless None None (t_start t) (t_start t) t)).
  { intros Ht. change (t_start t) with (from [] t) at 1. apply (good_content _ _ _ _ _ _ r ls []); auto; [rewrite app_nil_r; exact A|constructor]. }
  destruct (t_tok t) eqn:Et; try exact (Z I); clear Z.
  - apply good_pop_state. intros s ss. apply (good_ret (ls ++ [t])). apply (at_skip _ (mkParser _ _ _ _ _ _ _) t r); [exact A|exact E|rewrite Et; split; reflexivity].
  - cbv zeta. assert (P1 : property (t_tok t)) by (rewrite Et; exact I). pose proof (at_skip _ _ _ _ A E (neutral_property _ P1)) as A2. apply (good_peek _ _ _ A2). intros t2 r2 E2.
    assert (P : toks property [t]) by (constructor; [exact P1|constructor]).
    assert (Z : good (parse_content (skip p) block indentless (Some name) None (t_start t) (t_end t) t2)).
    { change (t_start t) with (from [t] t2). apply (good_content _ _ _ _ _ _ r2 ls [t]); auto. discriminate. }
    destruct (t_tok t2) eqn:Et2; try exact Z; clear Z. assert (P2 : property (t_tok t2)) by (rewrite Et2; exact I).
    pose proof (at_skip _ _ _ _ A2 E2 (neutral_property _ P2)) as A3. rewrite <- app_assoc in A3. apply (good_peek _ _ _ A3). intros t3 r3 E3.
    assert (P' : toks property [t; t2]) by (constructor; [exact P1|constructor; [exact P2|constructor]]).
    apply (good_with_tag _ _ _ _ _ _ ls [t; t2] t2); auto; [right; left; reflexivity|]. intros tg.
    change (t_start t) with (from [t; t2] t3). apply (good_content _ _ _ _ _ _ r3 ls [t; t2]); auto. discriminate.
  - cbv zeta. assert (P1 : property (t_tok t)) by (rewrite Et; exact I). pose proof (at_skip _ _ _ _ A E (neutral_property _ P1)) as A2. apply (good_peek _ _ _ A2). intros t2 r2 E2.
    assert (P : toks property [t]) by (constructor; [exact P1|constructor]).
    assert (Z : good (with_tag (skip p) (Some (handle, suffix, t_start t)) (t_start t) (fun tag => parse_content (skip p) block indentless None tag (t_start t) (t_end t) t2))).
    { apply (good_with_tag _ _ _ _ _ _ ls [t] t); auto; [left; reflexivity|]. intros tg. change (t_start t) with (from [t] t2). apply (good_content _ _ _ _ _ _ r2 ls [t]); auto. discriminate. }
    destruct (t_tok t2) eqn:Et2; try exact Z; clear Z. assert (P2 : property (t_tok t2)) by (rewrite Et2; exact I).
    pose proof (at_skip _ _ _ _ A2 E2 (neutral_property _ P2)) as A3. rewrite <- app_assoc in A3. apply (good_peek _ _ _ A3). intros t3 r3 E3.
    assert (P' : toks property [t; t2]) by (constructor; [exact P1|constructor; [exact P2|constructor]]).
    apply (good_with_tag _ _ _ _ _ _ ls [t; t2] t); auto; [left; reflexivity|]. intros tg.
    change (t_start t) with (from [t; t2] t3) at 1. apply (good_content _ _ _ _ _ _ r3 ls [t; t2]); auto. discriminate.
Qed.

Definition opened (p : parser) : Prop := match p_in p with t :: _ => opener (t_tok t) = true | [] => False end.
Lemma good_enter p (first : bool) k : at_ [] p -> (first = true -> opened p) ->
  (forall p' ls, at_ ls p' -> toks leads ls -> good (k p')) -> good (enter p first k).
Proof.
  intros A F K. unfold enter. destruct first; [|apply (K p []); [exact A|constructor]].
  unfold peek_unchecked. specialize (F eq_refl). unfold opened in F. destruct (p_in p) as [|t r] eqn:E; [exact I|]. apply (K _ [t]).
  - destruct A as [A M]. split; [unfold skip, push_mark; cbn [p_in]; rewrite E; rewrite E in A; exact A|].
    rewrite marks_skip. unfold push_mark. cbn [p_marks]. rewrite open_starts_app. cbn [open_starts]. rewrite F. rewrite app_nil_r in M. rewrite M. reflexivity.
  - constructor; [|constructor]. destruct (t_tok t); try discriminate; exact I.
Qed.
Lemma good_end p e u t r : at_ u p -> p_in p = t :: r -> closer (t_tok t) = true -> good (end_collection p e t).
Proof.
  intros [A M] E C. unfold end_collection. apply good_pop_state. intros s ss. unfold pop_mark. cbn [p_marks]. destruct (p_marks p) as [|m ms]; [exact I|].
  apply (good_ret (u ++ [t])). split; [unfold skip; cbn [p_in]; rewrite E; cbn [p_in]; rewrite <- app_assoc, A, E; reflexivity|].
  rewrite marks_skip. cbn [p_marks]. rewrite app_assoc, open_starts_app, <- M. cbn [open_starts]. rewrite C. destruct (t_tok t); try discriminate; reflexivity.
Qed.
Lemma good_skip p s m u t r : at_ u p -> p_in p = t :: r -> neutral (t_tok t) -> good (process_empty_scalar (set_state (skip p) s) m).
Proof. intros A E N. apply (good_ret (u ++ [t])). exact (at_skip _ _ _ _ A E N). Qed.
Lemma good_node_push p s block indentless ls : at_ ls p -> toks leads ls -> good (parse_node (push_state p s) block indentless).
Proof. intros A Hl. apply (good_node _ _ _ ls); [exact A|exact Hl]. Qed.

Ltac nt Et := rewrite Et; split; reflexivity.
Ltac ld Et := apply toks_snoc; [assumption|rewrite Et; exact I].
(* a marker, then a node or nothing *)
Lemma good_marker p u t r (f : token -> pout) s s' m2 block indentless :
  at_ u p -> toks leads u -> p_in p = t :: r -> neutral (t_tok t) -> leads (t_tok t) ->
  (forall t2, f t2 = process_empty_scalar (set_state (skip p) s) (m2 t2) \/ f t2 = parse_node (push_state (skip p) s') block indentless) ->
  good (peek (skip p) f).
Proof.
  intros A Hl E N Ld Hf. pose proof (at_skip _ _ _ _ A E N) as A2. apply (good_peek _ _ _ A2). intros t2 r2 E2. destruct (Hf t2) as [Hx|Hx]; rewrite Hx.
  - gret.
  - apply (good_node_push _ _ _ _ (u ++ [t])); [exact A2|]. apply toks_snoc; assumption.
Qed.
Ltac marker Et A Hl E := eapply (good_marker _ _ _ _ _ _ _ _ _ _ A Hl E); [nt Et|rewrite Et; exact I|let t2 := fresh in intros t2; destruct (t_tok t2); first [left; reflexivity|right; reflexivity]].

Lemma good_block_sequence p (first : bool) : at_ [] p -> (first = true -> opened p) -> good (parse_block_sequence_entry p first).
Proof.
  intros A F. apply good_enter; [exact A|exact F|]. clear p A F. intros p ls A Hl. apply (good_peek ls _ _ A). intros t r E.
  assert (Z : ~ expected NoBlockEntry (t_tok t) -> good (pop_mark p (fun m p0 => error_context p0 NoBlockEntry m (t_start t)))) by (apply (good_entry ls p _ t r A E); cbn; auto).
  destruct (t_tok t) eqn:Et; try (apply Z; intros []); clear Z.
  - apply (good_end p ESeqEnd ls t r A E). rewrite Et. reflexivity.
  - cbv zeta. apply (good_marker p ls t r _ PS_BSeqEntry PS_BSeqEntry (fun _ => t_end t) true false A Hl E); [nt Et|rewrite Et; exact I|intros t2; destruct (t_tok t2); auto].
Qed.
Lemma good_indentless p : at_ [] p -> good (parse_indentless_sequence_entry p).
Proof.
  intros A. unfold parse_indentless_sequence_entry. apply (good_peek [] _ _ A). intros t r E.
  assert (Z : good (pop_state p (fun p0 => ret ESeqEnd (t_start t) (t_start t) p0))).
  { apply good_pop_state. intros s ss. gret. }
  destruct (t_tok t) eqn:Et; try exact Z; clear Z. cbv zeta.
  apply (good_marker p [] t r _ PS_Indentless PS_Indentless (fun _ => t_end t) true false A (Forall_nil _) E); [nt Et|rewrite Et; exact I|intros t2; destruct (t_tok t2); auto].
Qed.
Lemma good_block_key p (first : bool) : at_ [] p -> (first = true -> opened p) -> good (parse_block_mapping_key p first).
Proof.
  intros A F. apply good_enter; [exact A|exact F|]. clear p A F. intros p ls A Hl. apply (good_peek ls _ _ A). intros t r E.
  assert (Z : ~ expected NoKey (t_tok t) -> good (pop_mark p (fun m p0 => error_context p0 NoKey m (t_start t)))) by (apply (good_entry ls p _ t r A E); cbn; auto).
  destruct (t_tok t) eqn:Et; try (apply Z; intros []); clear Z.
  - apply (good_end p EMapEnd ls t r A E). rewrite Et. reflexivity.
  - cbv zeta. apply (good_marker p ls t r _ PS_BMapValue PS_BMapValue (fun _ => t_end t) true true A Hl E); [nt Et|rewrite Et; exact I|intros t2; destruct (t_tok t2); auto].
Qed.
Lemma good_block_value p : at_ [] p -> good (parse_block_mapping_value p).
Proof.
  intros A. unfold parse_block_mapping_value. apply (good_peek [] _ _ A). intros t r E.
  pose proof (good_ret [] empty_scalar (t_start t) (t_start t) (set_state p PS_BMapKey) A) as Z. destruct (t_tok t) eqn:Et; try exact Z; clear Z. cbv zeta.
  apply (good_marker p [] t r _ PS_BMapKey PS_BMapKey (fun _ => t_end t) true true A (Forall_nil _) E); [nt Et|rewrite Et; exact I|intros t2; destruct (t_tok t2); auto].
Qed.
Lemma good_flow_sequence p (first : bool) : at_ [] p -> (first = true -> opened p) -> good (parse_flow_sequence_entry p first).
Proof.
  intros A F. apply good_enter; [exact A|exact F|]. clear p A F. intros p ls A Hl. apply (good_peek ls _ _ A). intros t r E.
  assert (En : forall p ls t r, at_ ls p -> toks leads ls -> p_in p = t :: r ->
    good (match t_tok t with
          | TKey => ret (EMapStart None None true FlowColl) (t_start t) (t_end t) (skip (set_state p PS_FSeqMapKey))
          | TFlowSeqEnd => end_collection p ESeqEnd t
          | _ => parse_node (push_state p PS_FSeqEntry) false false
          end)).
  { clear. intros p ls t r A Hl E. pose proof (good_node_push p PS_FSeqEntry false false ls A Hl) as N. destruct (t_tok t) eqn:Et; try exact N.
    - apply (good_end p ESeqEnd ls t r A E). rewrite Et. reflexivity.
    - apply (good_ret (ls ++ [t])). apply (at_skip _ (set_state p PS_FSeqMapKey) t r); [exact A|exact E|nt Et]. }
  pose proof (En p ls t r A Hl E) as EnT.
  assert (Z : ~ expected NoFlowSeqEntry (t_tok t) -> good (pop_mark p (fun m p0 => error_context p0 NoFlowSeqEntry m (t_start t)))) by (apply (good_entry ls p _ t r A E); cbn; auto).
  assert (G : t_tok t = TFlowSeqEnd -> good (end_collection p ESeqEnd t)) by (intros Et; apply (good_end p ESeqEnd ls t r A E); rewrite Et; reflexivity).
  cbv zeta. destruct first.
  - destruct (t_tok t); first [exact (G eq_refl)|exact EnT].
  - clear EnT. destruct (t_tok t) eqn:Et; try exact (G eq_refl); try (apply Z; intros []).
    assert (A2 : at_ (ls ++ [t]) (skip p)) by (apply (at_skip _ _ t r A E); nt Et). apply (good_peek _ _ _ A2). intros t2 r2 E2. apply (En _ (ls ++ [t]) _ r2); [exact A2|ld Et|exact E2].
Qed.
Lemma good_pair_key p : at_ [] p -> good (parse_flow_sequence_entry_mapping_key p).
Proof.
  intros A. unfold parse_flow_sequence_entry_mapping_key. apply (good_peek [] _ _ A). intros t r E.
  pose proof (good_node_push p PS_FSeqMapValue false false [] A (Forall_nil _)) as N.
  destruct (t_tok t) eqn:Et; try exact N; first [exact (good_ret [] empty_scalar (t_start t) (t_start t) (set_state p PS_FSeqMapValue) A)|apply (good_skip p _ _ [] t r A E); nt Et].
Qed.
Lemma good_pair_value p : at_ [] p -> good (parse_flow_sequence_entry_mapping_value p).
Proof.
  intros A. unfold parse_flow_sequence_entry_mapping_value. apply (good_peek [] _ _ A). intros t r E.
  pose proof (good_ret [] empty_scalar (t_start t) (t_start t) (set_state p PS_FSeqMapEnd) A) as Z. destruct (t_tok t) eqn:Et; try exact Z; clear Z. cbv zeta.
  apply (good_marker p [] t r _ PS_FSeqMapEnd PS_FSeqMapEnd t_start false false A (Forall_nil _) E); [nt Et|rewrite Et; exact I|intros t2; destruct (t_tok t2); auto].
Qed.
Lemma good_pair_end p : at_ [] p -> good (parse_flow_sequence_entry_mapping_end p).
Proof. intros A. unfold parse_flow_sequence_entry_mapping_end. apply (good_peek [] _ _ A). intros t r E. gret. Qed.
Lemma good_flow_key p (first : bool) : at_ [] p -> (first = true -> opened p) -> good (parse_flow_mapping_key p first).
Proof.
  intros A F. apply good_enter; [exact A|exact F|]. clear p A F. intros p ls A Hl. apply (good_peek ls _ _ A). intros t r E.
  assert (En : forall p ls t r, at_ ls p -> toks leads ls -> p_in p = t :: r ->
    good (match t_tok t with
          | TKey =>
              let p := skip p in
              peek p (fun token2 =>
                match t_tok token2 with
                | TValue | TFlowEntry | TFlowMapEnd =>
                    process_empty_scalar (set_state p PS_FMapValue) (t_start token2)
                | _ => parse_node (push_state p PS_FMapValue) false false
                end)
          | TFlowMapEnd => end_collection p EMapEnd t
          | _ => parse_node (push_state p PS_FMapEmptyValue) false false
          end)).
  { clear. intros p ls t r A Hl E. pose proof (good_node_push p PS_FMapEmptyValue false false ls A Hl) as N. destruct (t_tok t) eqn:Et; try exact N; clear N.
    - apply (good_end p EMapEnd ls t r A E). rewrite Et. reflexivity.
    - cbv zeta. apply (good_marker p ls t r _ PS_FMapValue PS_FMapValue t_start false false A Hl E); [nt Et|rewrite Et; exact I|intros t2; destruct (t_tok t2); auto]. }
  pose proof (En p ls t r A Hl E) as EnT.
  assert (Z : ~ expected NoFlowMapEntry (t_tok t) -> good (pop_mark p (fun m p0 => error_context p0 NoFlowMapEntry m (t_start t)))) by (apply (good_entry ls p _ t r A E); cbn; auto).
  assert (G : t_tok t = TFlowMapEnd -> good (end_collection p EMapEnd t)) by (intros Et; apply (good_end p EMapEnd ls t r A E); rewrite Et; reflexivity).
  cbv zeta. destruct first.
  - destruct (t_tok t); first [exact (G eq_refl)|exact EnT].
  - clear EnT. destruct (t_tok t) eqn:Et; try exact (G eq_refl); try (apply Z; intros []).
    assert (A2 : at_ (ls ++ [t]) (skip p)) by (apply (at_skip _ _ t r A E); nt Et). apply (good_peek _ _ _ A2). intros t2 r2 E2. apply (En _ (ls ++ [t]) _ r2); [exact A2|ld Et|exact E2].
Qed.
Lemma good_flow_value p empty : at_ [] p -> good (parse_flow_mapping_value p empty).
Proof.
  intros A. unfold parse_flow_mapping_value. apply (good_peek [] _ _ A). intros t r E.
  pose proof (good_ret [] empty_scalar (t_start t) (t_start t) (set_state p PS_FMapKey) A) as Z. destruct empty; [exact Z|]. destruct (t_tok t) eqn:Et; try exact Z; clear Z. cbv zeta.
  apply (good_marker p [] t r _ PS_FMapKey PS_FMapKey t_start false false A (Forall_nil _) E); [nt Et|rewrite Et; exact I|intros t2; destruct (t_tok t2); auto].
Qed.
Lemma good_doc_content p : at_ [] p -> good (parse_document_content p).
Proof.
  intros A. unfold parse_document_content. apply (good_peek [] _ _ A). intros t r E.
  assert (Z : good (pop_state p (fun p => process_empty_scalar p (t_start t)))) by (apply good_pop_state; intros s ss; gret).
  pose proof (good_node p true false [] A (Forall_nil _)) as N. destruct (t_tok t); first [exact Z|exact N].
Qed.
Lemma good_doc_end p : at_ [] p -> good (parse_document_end p).
Proof.
  intros A. unfold parse_document_end. apply (good_peek [] _ _ A). intros t r E.
  assert (Z : good (ret (EDocEnd true) (t_start t) (t_start t) (set_state (set_tags p []) PS_DocStart))) by gret.
  destruct (t_tok t) eqn:Et; try exact Z. apply (good_ret [t]). apply (at_skip [] p t r A E). nt Et.
Qed.
Lemma good_stream_start p : at_ [] p -> good (parse_stream_start p).
Proof.
  intros A. unfold parse_stream_start. apply (good_peek [] _ _ A). intros t r E.
  assert (Z : (forall enc, t_tok t <> TStreamStart enc) -> good (error p NoStreamStart (t_start t))).
  { intros N. apply (good_fail []); [exact (proj1 A)|]. rewrite E. exact (Bl_stream B [] t r N). }
  destruct (t_tok t) eqn:Et; try (apply Z; discriminate). apply (good_ret [t]). apply (at_skip [] (set_state p PS_ImplicitDocStart) t r A E). nt Et.
Qed.
Definition dirs_good (o : dirs_out) : Prop :=
  match o with DirsOk _ _ p' => exists u, at_ u p' | DirsFail p' => exists u er, L = u ++ p_in p' /\ p_error p' = Some er /\ blame B u (p_in p') er end.
Lemma good_directive_loop fuel : forall ver dirs p u, (length (p_in p) <= length fuel)%nat -> at_ u p -> dirs_good (directive_loop fuel ver dirs p).
Proof.
  induction fuel as [|x fuel IH]; intros ver dirs p u Hf A; cbn [directive_loop].
  { destruct (p_in p) as [|t r] eqn:E; [|cbn in Hf; lia]. exists u, (mkPerr TokenError None None). cbn [p_in p_error]. split; [exact (proj1 A)|]. split; [reflexivity|]. rewrite E. apply Bl_token. }
  destruct (p_in p) as [|t r] eqn:E.
  { exists u, (mkPerr TokenError None None). cbn [p_in p_error]. split; [exact (proj1 A)|]. split; [reflexivity|]. rewrite E. apply Bl_token. }
  assert (Z : dirs_good (DirsOk ver dirs p)) by (exists u; exact A). cbn [length] in Hf.
  assert (Q : forall er, blame B u (t :: r) er -> dirs_good (dirs_fail p er)).
  { intros er Bl. exists u, er. cbn [p_in p_error]. split; [exact (proj1 A)|]. split; [reflexivity|]. rewrite E. exact Bl. }
  destruct (t_tok t) eqn:Et; try exact Z; clear Z.
  - destruct ver; [apply Q; apply (Bl_version B u DuplicateYaml t r major minor Et); auto|]. destruct (_ || _); [apply Q; apply (Bl_version B u Incompatible t r major minor Et); auto|].
    apply (IH _ _ _ (u ++ [t])); [rewrite (in_skip _ _ _ E); lia|]. apply (at_skip _ _ t r A E). nt Et.
  - destruct (append_tag_directive _ _ _) as [tags|]; [|apply Q; exact (Bl_tag B u t r handle prefix Et)].
    apply (IH _ _ _ (u ++ [t])); [rewrite (in_skip (set_tags p tags) _ _ E); lia|]. apply (at_skip _ (set_tags p tags) t r A E). nt Et.
Qed.
Lemma good_directives p u : at_ u p -> dirs_good (process_directives p).
Proof.
  intros A. unfold process_directives. pose proof (good_directive_loop (p_in p) None [] p u (le_n _) A) as K. destruct (directive_loop _ _ _ _); [|exact K]. destruct K as [u' K]. exists u'. exact K.
Qed.
Lemma good_skip_doc_ends fuel : forall p u, at_ u p -> exists u', at_ u' (skip_doc_ends fuel p).
Proof.
  induction fuel as [|x fuel IH]; intros p u A; cbn [skip_doc_ends]; [eauto|]. destruct (p_in p) as [|t r] eqn:E; [eauto|].
  assert (Z : exists u', at_ u' p) by eauto. destruct (t_tok t) eqn:Et; try exact Z. apply (IH _ (u ++ [t])). apply (at_skip _ _ t r A E). nt Et.
Qed.
Lemma good_doc_start p implicit : at_ [] p -> good (parse_document_start p implicit).
Proof.
  intros A. unfold parse_document_start. apply (good_peek [] _ _ A). intros t0 r0 _. cbv zeta.
  assert (K : exists u, at_ u (if implicit then p else skip_doc_ends (p_in p) p)).
  { destruct implicit; [eauto|]. exact (good_skip_doc_ends (p_in p) p [] A). }
  revert K. generalize (if implicit then p else skip_doc_ends (p_in p) p). clear p A. intros p [u A]. apply (good_peek u _ _ A). intros t r E.
  pose proof (good_directives p u A) as D.
  destruct (implicit && _ && _).
  - destruct (process_directives p) as [ver dirs p'|p']; [|exact D]. destruct D as [u' D]. gret.
  - destruct (is_stream_end (t_tok t)) eqn:SE; cbn [negb].
    + apply (good_ret (u ++ [t])). apply (at_skip _ (set_state p PS_End) t r A E). destruct (t_tok t); try discriminate. split; reflexivity.
    + destruct (process_directives p) as [ver dirs p'|p']; [|exact D]. destruct D as [u' D]. apply (good_peek u' _ _ D). intros t2 r2 E2.
      assert (Z : t_tok t2 <> TDocStart -> good (error p' NoDocStart (t_start t2))).
      { intros N. apply (good_fail u'); [exact (proj1 D)|]. rewrite E2. exact (Bl_document B u' t2 r2 N). }
      destruct (t_tok t2) eqn:Et2; try (apply Z; discriminate). apply (good_ret (u' ++ [t2])). apply (at_skip _ (set_state (push_state p' PS_DocEnd) PS_DocContent) t2 r2 D E2). nt Et2.
Qed.
Theorem good_parse p : at_ [] p -> wf p -> good (parse p).
Proof.
  intros A (_ & _ & W). unfold parse. destruct (_ || _ || _); [exact I|]. unfold state_machine. unfold wf_state in W.
  assert (F : forall k, opener k = true -> head_is k p -> opened p).
  { intros k Hk [r Hr]. unfold opened. unfold ParserInv.toks in Hr. destruct (p_in p) as [|t l]; [discriminate|]. injection Hr as Hr _. rewrite Hr. exact Hk. }
  destruct (p_state p); try contradiction.
  - apply good_stream_start; assumption.
  - apply good_doc_start; assumption.
  - apply good_doc_start; assumption.
  - apply good_doc_content; assumption.
  - apply good_doc_end; assumption.
  - apply (good_node _ _ _ [] A (Forall_nil _)).
  - apply good_block_sequence; [exact A|]. intros _. exact (F TBlockSeqStart eq_refl (proj2 W)).
  - apply good_block_sequence; [assumption|discriminate].
  - apply good_indentless; assumption.
  - apply good_block_key; [exact A|]. intros _. exact (F TBlockMapStart eq_refl (proj2 W)).
  - apply good_block_key; [assumption|discriminate].
  - apply good_block_value; assumption.
  - apply good_flow_sequence; [exact A|]. intros _. exact (F TFlowSeqStart eq_refl (proj2 W)).
  - apply good_flow_sequence; [assumption|discriminate].
  - apply good_pair_key; assumption.
  - apply good_pair_value; assumption.
  - apply good_pair_end; assumption.
  - apply good_flow_key; [exact A|]. intros _. exact (F TFlowMapStart eq_refl (proj2 W)).
  - apply good_flow_key; [assumption|discriminate].
  - apply good_flow_value; assumption.
  - apply good_flow_value; assumption.
Qed.
End Blame.

Theorem blamed n : forall before p es er, wf p -> p_marks p = open_starts [] before -> parse_all n p = (es, ParserModel.Failed er) ->
  exists err, er = Some err /\ fails before (p_in p) es err.
Proof.
  induction n as [|n IH]; intros before p es er W M H; [discriminate|]. cbn [parse_all] in H.
  assert (A : at_ before (p_in p) [] p) by (split; [reflexivity|rewrite app_nil_r; exact M]).
  pose proof (good_parse before (p_in p) p A W) as G. pose proof (step_cases p W) as SC. pose proof (Extent.good_parse (p_in p) p eq_refl (Extent.wf_entered p W)) as S.
  destruct (parse p) as [e p'|p'|p'|] eqn:E; try discriminate.
  - destruct SC as (TR & E1 & E2). destruct (parse_all n p') as [es' o] eqn:R. injection H as <- H. subst o. destruct G as (u & G1 & G2). destruct S as (used & S1 & S2).
    unfold Extent.at_ in S1. assert (Eu : used = u) by (rewrite S1 in G1; exact (app_inv_tail _ _ _ G1)). subst used.
    destruct (wf_step _ _ _ W TR E1 E2) as [[W' _]|[_ W']].
    + destruct (IH (before ++ u) p' es' er W' G2 R) as (err & F1 & F2). exists err. split; [exact F1|]. rewrite G1. exact (F_later before e es' u _ err S2 F2).
    + exfalso. destruct n; [discriminate|]. cbn [parse_all] in R. unfold parse in R. rewrite W' in R. cbn [is_end_state] in R. rewrite orb_true_r in R. discriminate.
  - injection H as <- <-. destruct G as (u & err & G1 & G2 & G3). exists err. split; [exact G2|]. rewrite G1. exact (F_now before u _ err G3).
Qed.
