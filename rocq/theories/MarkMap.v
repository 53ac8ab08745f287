(* The parser and the loader do not look at marks: they commute with any map of marks. *)
From Verif Require Import Base ReaderModel Types TreeSpec DocModel ParserModel LoaderModel LoaderSpec.

Section Map.
Variable f : mark -> mark.
Definition mtoken (t : token) : token := mkToken (t_tok t) (f (t_start t)) (f (t_end t)) (t_deep t).
Definition merr (e : perr) : perr := mkPerr (pe_problem e) (option_map f (pe_context e)) (option_map f (pe_mark e)).
Definition mparser (p : parser) : parser :=
  mkParser (map mtoken (p_in p)) (p_end p) (option_map merr (p_error p)) (p_state p) (p_states p) (map f (p_marks p)) (p_tags p).
Definition mevent (e : event) : event := mkEvent (e_ev e) (f (e_start e)) (f (e_end e)).
Definition mout (r : pout) : pout :=
  match r with PEvent e p => PEvent (mevent e) (mparser p) | PNothing p => PNothing (mparser p) | PFail p => PFail (mparser p) | PUB => PUB end.

Lemma m_skip p : skip (mparser p) = mparser (skip p).
Proof. destruct p as [[|t r] x2 x3 x4 x5 x6 x7]; reflexivity. Qed.
Lemma m_peek p k k' : (forall t, k' (mtoken t) = mout (k t)) -> peek (mparser p) k' = mout (peek p k).
Proof. intros K. destruct p as [[|t r] x2 x3 x4 x5 x6 x7]; [reflexivity|]. exact (K t). Qed.
Lemma m_peek_unchecked p k k' : (forall t, k' (mtoken t) = mout (k t)) -> peek_unchecked (mparser p) k' = mout (peek_unchecked p k).
Proof. intros K. destruct p as [[|t r] x2 x3 x4 x5 x6 x7]; [reflexivity|]. exact (K t). Qed.
Lemma m_pop_state p k k' : (forall q, k' (mparser q) = mout (k q)) -> pop_state (mparser p) k' = mout (pop_state p k).
Proof. intros K. destruct p as [x1 x2 x3 x4 [|s r] x6 x7]; [reflexivity|]. unfold pop_state. cbn [p_states mparser p_in p_end p_error p_state p_marks p_tags]. rewrite <- K. reflexivity. Qed.
Lemma m_pop_mark p k k' : (forall m q, k' (f m) (mparser q) = mout (k m q)) -> pop_mark (mparser p) k' = mout (pop_mark p k).
Proof. intros K. destruct p as [x1 x2 x3 x4 x5 [|s r] x7]; [reflexivity|]. unfold pop_mark. cbn [p_states mparser p_in p_end p_error p_state p_marks p_tags map]. rewrite <- K. reflexivity. Qed.
Lemma m_enter p b k k' : (forall q, k' (mparser q) = mout (k q)) -> enter (mparser p) b k' = mout (enter p b k).
Proof. intros K. unfold enter. destruct b; [|apply K]. apply m_peek_unchecked. intros t. rewrite <- K, <- m_skip. reflexivity. Qed.

Definition mdirs (r : dirs_out) : dirs_out := match r with DirsOk v d p => DirsOk v d (mparser p) | DirsFail p => DirsFail (mparser p) end.
Lemma m_loop l : forall v d p, directive_loop (map mtoken l) v d (mparser p) = mdirs (directive_loop l v d p).
Proof.
  induction l as [|x l IH]; intros v d p; [reflexivity|]. destruct p as [[|t r] e er s ss ms tg]; [reflexivity|]. cbn [map directive_loop mparser p_in].
  change (t_tok (mtoken t)) with (t_tok t). destruct (t_tok t) eqn:Et; try reflexivity.
  - destruct v; [reflexivity|]. destruct (_ || _); [reflexivity|]. rewrite <- IH, <- m_skip. reflexivity.
  - cbn [p_tags]. destruct (append_tag_directive _ _ _) eqn:Ea; [|reflexivity]. rewrite <- IH, <- m_skip. reflexivity.
Qed.
Lemma m_directives p : process_directives (mparser p) = mdirs (process_directives p).
Proof. unfold process_directives. change (p_in (mparser p)) with (map mtoken (p_in p)). rewrite m_loop. destruct (directive_loop _ _ _ _); reflexivity. Qed.
Lemma m_doc_ends l : forall p, skip_doc_ends (map mtoken l) (mparser p) = mparser (skip_doc_ends l p).
Proof.
  induction l as [|x l IH]; intros p; [reflexivity|]. destruct p as [[|t r] e er s ss ms tg]; [reflexivity|]. cbn [map skip_doc_ends mparser p_in].
  change (t_tok (mtoken t)) with (t_tok t). destruct (t_tok t) eqn:Et; try reflexivity. rewrite <- IH, <- m_skip. reflexivity.
Qed.
Lemma m_document_start p i : parse_document_start (mparser p) i = mout (parse_document_start p i).
Proof.
  unfold parse_document_start. apply m_peek. intros _.
  assert (E : (if i then mparser p else skip_doc_ends (p_in (mparser p)) (mparser p)) = mparser (if i then p else skip_doc_ends (p_in p) p)) by (destruct i; [reflexivity|apply m_doc_ends]).
  rewrite E. generalize (if i then p else skip_doc_ends (p_in p) p). intros q. apply m_peek. intros t. change (t_tok (mtoken t)) with (t_tok t).
  destruct (_ && _ && _).
  - rewrite m_directives. destruct (process_directives q); reflexivity.
  - destruct (negb _).
    + rewrite m_directives. destruct (process_directives q) as [v d p'|p']; [|reflexivity]. cbn [mdirs]. apply m_peek. intros t2. change (t_tok (mtoken t2)) with (t_tok t2).
      destruct (t_tok t2); try reflexivity. unfold ret. cbn [mout mevent e_ev e_start e_end]. rewrite <- m_skip. reflexivity.
    + unfold ret. cbn [mout mevent e_ev e_start e_end]. rewrite <- m_skip. reflexivity.
Qed.
Lemma m_content p b i a t s e tk : parse_content (mparser p) b i a t (f s) (f e) (mtoken tk) = mout (parse_content p b i a t s e tk).
Proof.
  unfold parse_content. change (t_tok (mtoken tk)) with (t_tok tk). change (t_deep (mtoken tk)) with (t_deep tk). cbv zeta. destruct (i && _); [reflexivity|].
  destruct (t_tok tk); destruct b; try (destruct (t_deep tk); reflexivity); try (apply m_pop_state; intros q; unfold ret; cbn [mout mevent e_ev e_start e_end]; rewrite <- m_skip; reflexivity);
    (destruct a; [apply m_pop_state; intros; reflexivity|]; destruct t; [apply m_pop_state; intros; reflexivity|reflexivity]).
Qed.
Lemma m_with_tag p h s m sm k k' : (forall t, k' t = mout (k t)) -> with_tag (mparser p) (Some (h, s, f m)) (f sm) k' = mout (with_tag p (Some (h, s, m)) sm k).
Proof. intros K. unfold with_tag. change (p_tags (mparser p)) with (p_tags p). destruct (resolve_tag _ _ _); [apply K|reflexivity]. Qed.
Lemma m_node p b i : parse_node (mparser p) b i = mout (parse_node p b i).
Proof.
  unfold parse_node. apply m_peek. intros t. change (t_tok (mtoken t)) with (t_tok t).
  destruct (t_tok t); try exact (m_content p b i None None (t_start t) (t_start t) t).
  - apply m_pop_state. intros q. unfold ret. cbn [mout mevent e_ev e_start e_end]. rewrite <- m_skip. reflexivity.
  - cbv zeta. rewrite m_skip. apply m_peek. intros t2. change (t_tok (mtoken t2)) with (t_tok t2).
    destruct (t_tok t2); try exact (m_content (skip p) b i (Some _) None (t_start t) (t_end t) t2).
    rewrite m_skip. apply m_peek. intros t3. apply m_with_tag. intros tg. exact (m_content _ b i (Some _) tg (t_start t) (t_end t2) t3).
  - cbv zeta. rewrite m_skip. apply m_peek. intros t2. change (t_tok (mtoken t2)) with (t_tok t2).
    destruct (t_tok t2); try (apply m_with_tag; intros tg; exact (m_content (skip p) b i None tg (t_start t) (t_end t) t2)).
    rewrite m_skip. apply m_peek. intros t3. apply m_with_tag. intros tg. exact (m_content _ b i (Some _) tg (t_start t) (t_end t2) t3).
Qed.
Ltac step := first
  [ reflexivity
  | progress change (t_tok (mtoken ?t)) with (t_tok t)
  | apply m_peek; intros ?
  | apply m_pop_state; intros ?
  | apply m_pop_mark; intros ? ?
  | apply m_enter; intros ?
  | progress rewrite m_skip
  | progress cbv zeta ].
Lemma ret_skip e s m p : ret e (f s) (f m) (skip (mparser p)) = mout (ret e s m (skip p)).
Proof. rewrite m_skip. reflexivity. Qed.
Lemma m_node_push p s b i : parse_node (push_state (mparser p) s) b i = mout (parse_node (push_state p s) b i).
Proof. exact (m_node (push_state p s) b i). Qed.
Lemma m_end p e t : end_collection (mparser p) e (mtoken t) = mout (end_collection p e t).
Proof. unfold end_collection. apply m_pop_state. intros q. apply m_pop_mark. intros m r. apply ret_skip. Qed.
Ltac tk t := change (t_tok (mtoken t)) with (t_tok t); destruct (t_tok t).
Ltac fin := first [reflexivity | apply ret_skip | apply m_node_push | apply m_end | apply m_node].
Lemma m_bseq p b : parse_block_sequence_entry (mparser p) b = mout (parse_block_sequence_entry p b).
Proof.
  unfold parse_block_sequence_entry. apply m_enter. intros q. apply m_peek. intros t. tk t; try (apply m_pop_mark; intros; reflexivity).
  - apply m_pop_state. intros r. apply m_pop_mark. intros m r'. fin.
  - cbv zeta. rewrite m_skip. apply m_peek. intros t2. tk t2; fin.
Qed.
Lemma m_indentless p : parse_indentless_sequence_entry (mparser p) = mout (parse_indentless_sequence_entry p).
Proof.
  unfold parse_indentless_sequence_entry. apply m_peek. intros t. tk t; try (apply m_pop_state; intros; reflexivity).
  cbv zeta. rewrite m_skip. apply m_peek. intros t2. tk t2; fin.
Qed.
Lemma m_bkey p b : parse_block_mapping_key (mparser p) b = mout (parse_block_mapping_key p b).
Proof.
  unfold parse_block_mapping_key. apply m_enter. intros q. apply m_peek. intros t. tk t; try (apply m_pop_mark; intros; reflexivity).
  - apply m_pop_state. intros r. apply m_pop_mark. intros m r'. fin.
  - cbv zeta. rewrite m_skip. apply m_peek. intros t2. tk t2; fin.
Qed.
Lemma m_bvalue p : parse_block_mapping_value (mparser p) = mout (parse_block_mapping_value p).
Proof.
  unfold parse_block_mapping_value. apply m_peek. intros t. tk t; try reflexivity.
  cbv zeta. rewrite m_skip. apply m_peek. intros t2. tk t2; fin.
Qed.
Lemma m_fseq p b : parse_flow_sequence_entry (mparser p) b = mout (parse_flow_sequence_entry p b).
Proof.
  unfold parse_flow_sequence_entry. apply m_enter. intros q. apply m_peek. intros t. cbv zeta.
  assert (X : forall q t, match t_tok (mtoken t) with TKey => ret (EMapStart None None true FlowColl) (t_start (mtoken t)) (t_end (mtoken t)) (skip (set_state (mparser q) PS_FSeqMapKey)) | TFlowSeqEnd => end_collection (mparser q) ESeqEnd (mtoken t) | _ => parse_node (push_state (mparser q) PS_FSeqEntry) false false end =
    mout match t_tok t with TKey => ret (EMapStart None None true FlowColl) (t_start t) (t_end t) (skip (set_state q PS_FSeqMapKey)) | TFlowSeqEnd => end_collection q ESeqEnd t | _ => parse_node (push_state q PS_FSeqEntry) false false end).
  { intros q' t'. tk t'; try fin. exact (ret_skip _ (t_start t') (t_end t') (set_state q' PS_FSeqMapKey)). }
  pose proof (X q t) as Xq. change (t_tok (mtoken t)) with (t_tok t) in *.
  destruct (t_tok t); try fin; destruct b; try exact Xq; try (apply m_pop_mark; intros; reflexivity).
  rewrite m_skip. apply m_peek. intros t2. apply X.
Qed.
Lemma m_fkey1 p : parse_flow_sequence_entry_mapping_key (mparser p) = mout (parse_flow_sequence_entry_mapping_key p).
Proof. unfold parse_flow_sequence_entry_mapping_key. apply m_peek. intros t. tk t; try fin; rewrite m_skip; reflexivity. Qed.
Lemma m_fval1 p : parse_flow_sequence_entry_mapping_value (mparser p) = mout (parse_flow_sequence_entry_mapping_value p).
Proof.
  unfold parse_flow_sequence_entry_mapping_value. apply m_peek. intros t. tk t; try reflexivity.
  cbv zeta. rewrite m_skip. apply m_peek. intros t2. tk t2; fin.
Qed.
Lemma m_fkey p b : parse_flow_mapping_key (mparser p) b = mout (parse_flow_mapping_key p b).
Proof.
  unfold parse_flow_mapping_key. apply m_enter. intros q. apply m_peek. intros t. cbv zeta.
  assert (X : forall q t, match t_tok (mtoken t) with TKey => peek (skip (mparser q)) (fun token2 => match t_tok token2 with TValue | TFlowEntry | TFlowMapEnd => process_empty_scalar (set_state (skip (mparser q)) PS_FMapValue) (t_start token2) | _ => parse_node (push_state (skip (mparser q)) PS_FMapValue) false false end)
      | TFlowMapEnd => end_collection (mparser q) EMapEnd (mtoken t) | _ => parse_node (push_state (mparser q) PS_FMapEmptyValue) false false end =
    mout match t_tok t with TKey => peek (skip q) (fun token2 => match t_tok token2 with TValue | TFlowEntry | TFlowMapEnd => process_empty_scalar (set_state (skip q) PS_FMapValue) (t_start token2) | _ => parse_node (push_state (skip q) PS_FMapValue) false false end)
      | TFlowMapEnd => end_collection q EMapEnd t | _ => parse_node (push_state q PS_FMapEmptyValue) false false end).
  { intros q' t'. tk t'; try fin. rewrite m_skip. apply m_peek. intros t2. tk t2; fin. }
  pose proof (X q t) as Xq. change (t_tok (mtoken t)) with (t_tok t) in *.
  destruct (t_tok t); try fin; destruct b; try exact Xq; try (apply m_pop_mark; intros; reflexivity).
  rewrite m_skip. apply m_peek. intros t2. apply X.
Qed.
Lemma m_fvalue p b : parse_flow_mapping_value (mparser p) b = mout (parse_flow_mapping_value p b).
Proof.
  unfold parse_flow_mapping_value. apply m_peek. intros t. destruct b; [reflexivity|]. tk t; try reflexivity.
  cbv zeta. rewrite m_skip. apply m_peek. intros t2. tk t2; fin.
Qed.
Lemma m_machine p : state_machine (mparser p) = mout (state_machine p).
Proof.
  unfold state_machine. change (p_state (mparser p)) with (p_state p). destruct (p_state p); try reflexivity;
    first [apply m_document_start|apply m_node|apply m_bseq|apply m_indentless|apply m_bkey|apply m_bvalue|apply m_fseq|apply m_fkey1|apply m_fval1|apply m_fkey|apply m_fvalue|idtac].
  - unfold parse_stream_start. apply m_peek. intros t. tk t; try reflexivity. exact (ret_skip _ (t_start t) (t_start t) (set_state p PS_ImplicitDocStart)).
  - unfold parse_document_content. apply m_peek. intros t. tk t; try fin; apply m_pop_state; intros; reflexivity.
  - unfold parse_document_end. apply m_peek. intros t. tk t; try reflexivity. rewrite m_skip. reflexivity.
  - unfold parse_flow_sequence_entry_mapping_end. apply m_peek. intros t. reflexivity.
Qed.
Lemma m_parse p : parse (mparser p) = mout (parse p).
Proof.
  unfold parse. change (p_end (mparser p)) with (p_end p). change (p_state (mparser p)) with (p_state p). cbn [p_error mparser].
  destruct (p_error p); cbn [option_map]; [rewrite !orb_true_r; reflexivity|]. destruct (_ || _); [reflexivity|apply m_machine].
Qed.
Definition mresult (r : presult) : presult := match r with Failed e => Failed (option_map merr e) | x => x end.
Lemma m_parse_all n : forall p, parse_all n (mparser p) = (map mevent (fst (parse_all n p)), mresult (snd (parse_all n p))).
Proof.
  induction n as [|n IH]; intros p; [reflexivity|]. cbn [parse_all]. rewrite m_parse. destruct (parse p) as [e p'|p'|p'|]; try reflexivity.
  cbn [mout]. rewrite IH. destruct (parse_all n p'); reflexivity.
Qed.
Lemma m_init l : init_parser (map mtoken l) = mparser (init_parser l).
Proof. reflexivity. Qed.

(* ---- the loader ---- *)
Definition mstate (s : lstate) : lstate := mkLstate (l_nodes s) (map (fun x => (fst (fst x), snd (fst x), f (snd x))) (l_aliases s)) (l_ctx s).
Definition mstep (r : lstep) : lstep := match r with LNext s => LNext (mstate s) | LError e => LError (merr e) | x => x end.
Definition mloader (l : loader) : loader := mkLoader (mparser (ld_parser l)) (ld_started l).
Definition mlout (r : lout) : lout :=
  match r with LDocument d l => LDocument d (mloader l) | LNoDocument l => LNoDocument (mloader l) | LFailed l => LFailed (mloader l) | x => x end.
Lemma m_find al name : find_alias (map (fun x => (fst (fst x), snd (fst x), f (snd x))) al) name = option_map (fun x => (fst x, f (snd x))) (find_alias al name).
Proof.
  unfold find_alias. induction al as [|[[a i] m] al IH]; [reflexivity|]. cbn [map find fst snd]. destruct (str_eqb a name); [reflexivity|exact IH].
Qed.
Lemma m_add s i : load_node_add (mstate s) i = mstep (load_node_add s i).
Proof. unfold load_node_add. cbn [mstate l_ctx l_nodes l_aliases]. destruct (l_ctx s) as [|c r]; [reflexivity|]. destruct (node_ref _ _) as [[tg [v st|it st|pr st]]|]; reflexivity. Qed.
Lemma m_register s i m a : register_anchor (mstate s) i (f m) a = mstep (register_anchor s i m a).
Proof.
  unfold register_anchor. destruct a as [a|]; [|reflexivity]. cbn [mstate l_aliases]. rewrite m_find. destruct (find_alias _ _) as [[x y]|]; [reflexivity|]. cbn [option_map mstep]. unfold mstate. cbn [l_nodes l_aliases l_ctx]. rewrite map_app. reflexivity.
Qed.
Lemma m_lbind r k k' : (forall s, k' (mstate s) = mstep (k s)) -> lbind (mstep r) k' = mstep (lbind r k).
Proof. intros K. destruct r; try reflexivity. apply K. Qed.
Lemma m_new s n a m : load_new (mstate s) n a (f m) = mstep (load_new s n a m).
Proof. unfold load_new. change (push_new (mstate s) n) with (mstate (push_new s n)). cbv zeta. change (l_nodes (mstate (push_new s n))) with (l_nodes (push_new s n)). rewrite m_register. apply m_lbind. intros x. apply m_add. Qed.
Lemma m_load_event s e : load_event (mstate s) (mevent e) = mstep (load_event s e).
Proof.
  unfold load_event. cbn [mevent e_ev e_start]. destruct (e_ev e); try reflexivity.
  - unfold load_alias. cbn [mstate l_aliases]. rewrite m_find. destruct (find_alias _ _) as [[x y]|]; [|reflexivity]. cbn [option_map fst snd]. apply m_add.
  - apply m_new.
  - unfold load_sequence. rewrite m_new. apply m_lbind. reflexivity.
  - unfold load_end. cbn [mstate l_ctx l_nodes l_aliases]. destruct (l_ctx s) as [|c r]; [reflexivity|]. destruct (node_ref _ _) as [[tg [v st|it st|pr st]]|]; reflexivity.
  - unfold load_mapping. rewrite m_new. apply m_lbind. reflexivity.
  - unfold load_end. cbn [mstate l_ctx l_nodes l_aliases]. destruct (l_ctx s) as [|c r]; [reflexivity|]. destruct (node_ref _ _) as [[tg [v st|it st|pr st]]|]; reflexivity.
Qed.
Lemma m_load_nodes n : forall p s k k', (forall p s b, k' (mparser p) (mstate s) b = mlout (k p s b)) -> load_nodes n (mparser p) (mstate s) k' = mlout (load_nodes n p s k).
Proof.
  induction n as [|n IH]; intros p s k k' K; [reflexivity|]. cbn [load_nodes]. rewrite m_parse. destruct (parse p) as [e p'|p'|p'|]; try reflexivity. cbn [mout].
  change (e_ev (mevent e)) with (e_ev e). destruct (e_ev e); try (rewrite m_load_event; destruct (load_event s e); try reflexivity; exact (IH _ _ _ _ K)). apply K.
Qed.
Lemma m_load n l : load n (mloader l) = mlout (load n l).
Proof.
  assert (N : forall p, load_next n (mparser p) = mlout (load_next n p)).
  { intros p. unfold load_next. change (p_end (mparser p)) with (p_end p). destruct (p_end p); [reflexivity|]. rewrite m_parse. destruct (parse p) as [e p'|p'|p'|]; try reflexivity. cbn [mout].
    change (e_ev (mevent e)) with (e_ev e). destruct (e_ev e) eqn:Ee; try (unfold load_document; cbn [mevent e_ev]; rewrite Ee; reflexivity); [reflexivity|].
    unfold load_document. cbn [mevent e_ev]. rewrite Ee. apply (m_load_nodes n p' (mkLstate [] [] [])). reflexivity. }
  unfold load. cbn [mloader ld_started ld_parser]. destruct (ld_started l); [apply N|]. rewrite m_parse. destruct (parse (ld_parser l)) as [e p'|p'|p'|]; try reflexivity.
  - cbn [mout]. change (e_ev (mevent e)) with (e_ev e). destruct (e_ev e); try reflexivity. apply N.
  - cbn [mout mlout]. unfold mloader. cbn [ld_parser ld_started]. unfold has_token. cbn [mparser p_in]. destruct (p_in (ld_parser l)); reflexivity.
Qed.
Lemma m_history n input ds l : load_history n input ds l -> load_history n (map mtoken input) ds (mloader l).
Proof. induction 1 as [|ds l d l' H IH E]; [exact (LH_start n (map mtoken input))|]. econstructor; [exact IH|]. rewrite m_load, E. reflexivity. Qed.
Lemma m_history_inv n input ds l : load_history n (map mtoken input) ds l -> exists l0, l = mloader l0 /\ load_history n input ds l0.
Proof.
  induction 1 as [|ds l d l' H (l0 & -> & IH) E]; [exists (init_loader input); split; [reflexivity|constructor]|].
  rewrite m_load in E. destruct (load n l0) as [d0 l1| | | | |] eqn:E0; try discriminate E. cbn in E. injection E as -> <-. exists l1. split; [reflexivity|]. econstructor; eassumption.
Qed.
End Map.
