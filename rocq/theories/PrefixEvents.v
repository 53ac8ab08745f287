(* What the event parser does when its tokens stop early, as compared with all the tokens:
   the same, until it fails for want of a token (C72). *)
From Verif Require Import Base ReaderModel Types ParserModel ParserSpec ParserFinal.

Section Z.
Variable Z : list token.
Definition longer (p : parser) : parser :=
  mkParser (p_in p ++ Z) (p_end p) (p_error p) (p_state p) (p_states p) (p_marks p) (p_tags p).
Definition out_of_tokens (p : parser) : Prop := exists er, p_error p = Some er /\ pe_problem er = TokenError.
Definition stops (o o' : pout) : Prop :=
  match o with
  | PEvent e p => o' = PEvent e (longer p)
  | PNothing p => o' = PNothing (longer p)
  | PFail p => out_of_tokens p \/ o' = PFail (longer p)
  | PUB => True
  end.
Lemma stops_none p o : stops (no_token p) o.
Proof. left. eexists. split; reflexivity. Qed.
Lemma stops_peek p (k k' : token -> pout) : (forall t r, p_in p = t :: r -> stops (k t) (k' t)) -> stops (peek p k) (peek (longer p) k').
Proof. intros H. unfold peek. cbn [longer p_in]. destruct (p_in p) as [|t r]; [apply stops_none|]. exact (H t r eq_refl). Qed.
Lemma stops_pop p (k k' : parser -> pout) : (forall q, p_in q = p_in p -> stops (k q) (k' (longer q))) -> stops (pop_state p k) (pop_state (longer p) k').
Proof. intros H. unfold pop_state. cbn [longer p_states]. destruct (p_states p) as [|s ss]; [exact I|]. apply (H (mkParser (p_in p) (p_end p) (p_error p) s ss (p_marks p) (p_tags p))). reflexivity. Qed.
Lemma stops_pop_mark p (k k' : mark -> parser -> pout) : (forall m q, p_in q = p_in p -> stops (k m q) (k' m (longer q))) -> stops (pop_mark p k) (pop_mark (longer p) k').
Proof. intros H. unfold pop_mark. cbn [longer p_marks]. destruct (p_marks p) as [|s ss]; [exact I|]. apply (H s (mkParser (p_in p) (p_end p) (p_error p) (p_state p) (p_states p) ss (p_tags p))). reflexivity. Qed.
Lemma skip_longer p t r : p_in p = t :: r -> skip (longer p) = longer (skip p).
Proof. intros E. unfold skip. cbn [longer p_in]. rewrite E. reflexivity. Qed.
Lemma stops_ret e s m p p' : p' = longer p -> stops (ret e s m p) (ret e s m p').
Proof. intros ->. reflexivity. Qed.
Lemma stops_empty m p p' : p' = longer p -> stops (process_empty_scalar p m) (process_empty_scalar p' m).
Proof. intros ->. reflexivity. Qed.
Lemma stops_error p pr m p' : p' = longer p -> stops (error p pr m) (error p' pr m).
Proof. intros ->. right. reflexivity. Qed.
Lemma stops_error_context p pr c m p' : p' = longer p -> stops (error_context p pr c m) (error_context p' pr c m).
Proof. intros ->. right. reflexivity. Qed.
Lemma set_state_longer p s : set_state (longer p) s = longer (set_state p s). Proof. reflexivity. Qed.
Lemma push_state_longer p s : push_state (longer p) s = longer (push_state p s). Proof. reflexivity. Qed.
Lemma push_mark_longer p s : push_mark (longer p) s = longer (push_mark p s). Proof. reflexivity. Qed.
Lemma set_tags_longer p s : set_tags (longer p) s = longer (set_tags p s). Proof. reflexivity. Qed.

Ltac inp := match goal with E : p_in ?p = ?t :: ?r |- _ => first [exact E | (etransitivity; [|exact E]; first [reflexivity|eassumption])] end.
Ltac st := repeat (cbv zeta; first
  [ rewrite set_state_longer | rewrite push_state_longer | rewrite push_mark_longer | rewrite set_tags_longer
  | erewrite skip_longer by (cbn [p_in set_state push_state push_mark set_tags]; first [eassumption | (etransitivity; [eassumption|eassumption]) | (repeat match goal with H : p_in ?q = _ |- context[p_in ?q] => rewrite H end; reflexivity)])
  | apply stops_ret; reflexivity | apply stops_empty; reflexivity | apply stops_error; reflexivity | apply stops_error_context; reflexivity
  | (apply stops_peek; intros ? ? ?) | (apply stops_pop; intros ? ?) | (apply stops_pop_mark; intros ? ? ?) ]).
Ltac tk := match goal with |- stops (match t_tok ?t with _ => _ end) _ => destruct (t_tok t) end.
Ltac go := st; repeat (tk; st).

Lemma stops_content p b i a g s m t : (exists r, p_in p = t :: r) -> stops (parse_content p b i a g s m t) (parse_content (longer p) b i a g s m t).
Proof.
  intros [r E]. unfold parse_content. destruct (i && _); [st|].
  destruct (t_tok t), b; try (destruct (t_deep t)); st; destruct a, g; st.
Qed.
Lemma stops_tag p g s (k k' : option (list N) -> pout) : (forall t, stops (k t) (k' t)) -> stops (with_tag p g s k) (with_tag (longer p) g s k').
Proof. intros H. unfold with_tag. destruct g as [[[h x] m]|]; [|apply H]. cbn [longer p_tags]. destruct (resolve_tag _ _ _); [apply H|st]. Qed.
Lemma stops_node p b i : stops (parse_node p b i) (parse_node (longer p) b i).
Proof.
  unfold parse_node. st. destruct (t_tok t) eqn:Et; st; try (apply stops_content; eauto; fail).
  - destruct (t_tok t0); st; try (apply stops_content; eauto; fail). apply stops_tag. intros g. apply stops_content. eauto.
  - destruct (t_tok t0); st; try (apply stops_tag; intros g; apply stops_content; eauto; fail).
Qed.
#[local] Opaque parse_node.
Ltac nd := go; try apply stops_node.
Lemma stops_enter p f (k k' : parser -> pout) : (forall q, stops (k q) (k' (longer q))) -> stops (enter p f k) (enter (longer p) f k').
Proof.
  intros H. unfold enter. destruct f; [|apply H]. unfold peek_unchecked. cbn [longer p_in]. destruct (p_in p) as [|t r] eqn:E; [exact I|]. cbn [app].
  st. apply H.
Qed.
Lemma stops_stream_start p : stops (parse_stream_start p) (parse_stream_start (longer p)). Proof. unfold parse_stream_start. nd. Qed.
Lemma stops_doc_content p : stops (parse_document_content p) (parse_document_content (longer p)).
Proof. unfold parse_document_content. nd.
Qed.
Lemma stops_doc_end p : stops (parse_document_end p) (parse_document_end (longer p)). Proof. unfold parse_document_end. nd. Qed.
Lemma stops_bseq p f : stops (parse_block_sequence_entry p f) (parse_block_sequence_entry (longer p) f). Proof. unfold parse_block_sequence_entry. apply stops_enter. intros q. nd. Qed.
Lemma stops_indentless p : stops (parse_indentless_sequence_entry p) (parse_indentless_sequence_entry (longer p)). Proof. unfold parse_indentless_sequence_entry. nd. Qed.
Lemma stops_bkey p f : stops (parse_block_mapping_key p f) (parse_block_mapping_key (longer p) f). Proof. unfold parse_block_mapping_key. apply stops_enter. intros q. nd. Qed.
Lemma stops_bvalue p : stops (parse_block_mapping_value p) (parse_block_mapping_value (longer p)). Proof. unfold parse_block_mapping_value. nd. Qed.
Lemma stops_end_collection p e t r : p_in p = t :: r -> stops (end_collection p e t) (end_collection (longer p) e t). Proof. intros E. unfold end_collection. nd. Qed.
#[local] Opaque end_collection.
Lemma stops_fseq p f : stops (parse_flow_sequence_entry p f) (parse_flow_sequence_entry (longer p) f).
Proof. unfold parse_flow_sequence_entry. apply stops_enter. intros q. st. destruct (t_tok t), f; nd; eapply stops_end_collection; eassumption. Qed.
Lemma stops_fsmkey p : stops (parse_flow_sequence_entry_mapping_key p) (parse_flow_sequence_entry_mapping_key (longer p)). Proof. unfold parse_flow_sequence_entry_mapping_key. nd. Qed.
Lemma stops_fsmvalue p : stops (parse_flow_sequence_entry_mapping_value p) (parse_flow_sequence_entry_mapping_value (longer p)). Proof. unfold parse_flow_sequence_entry_mapping_value. nd. Qed.
Lemma stops_fsmend p : stops (parse_flow_sequence_entry_mapping_end p) (parse_flow_sequence_entry_mapping_end (longer p)). Proof. unfold parse_flow_sequence_entry_mapping_end. nd. Qed.
Lemma stops_fmkey p f : stops (parse_flow_mapping_key p f) (parse_flow_mapping_key (longer p) f).
Proof. unfold parse_flow_mapping_key. apply stops_enter. intros q. st. destruct (t_tok t), f; nd; eapply stops_end_collection; eassumption. Qed.
Lemma stops_fmvalue p f : stops (parse_flow_mapping_value p f) (parse_flow_mapping_value (longer p) f). Proof. unfold parse_flow_mapping_value. st. destruct f; nd. Qed.

(* --- directives --- *)
Definition dstops (o o' : dirs_out) : Prop :=
  match o with
  | DirsOk v d p => o' = DirsOk v d (longer p)
  | DirsFail p => out_of_tokens p \/ o' = DirsFail (longer p)
  end.
Lemma dstops_loop : forall f f' v d p, (length f <= length f')%nat -> dstops (directive_loop f v d p) (directive_loop f' v d (longer p)).
Proof.
  induction f as [|x f IH]; intros f' v d p L; [left; eexists; split; reflexivity|]. destruct f' as [|x' f']; [cbn in L; lia|]. cbn in L.
  cbn [directive_loop longer p_in]. destruct (p_in p) as [|t r] eqn:E; [left; eexists; split; reflexivity|]. cbn [app].
  destruct (t_tok t); try reflexivity.
  - destruct v; [right; unfold dirs_fail, longer; cbn; rewrite E; reflexivity|].
    destruct (_ || _); [right; unfold dirs_fail, longer; cbn; rewrite E; reflexivity|].
    change (dstops (directive_loop f (Some (major, minor)) d (skip p)) (directive_loop f' (Some (major, minor)) d (skip (longer p)))). rewrite (skip_longer p t r E). apply IH. lia.
  - cbn [p_tags]. destruct (append_tag_directive _ _ _) as [tg|]; [|right; unfold dirs_fail, longer; cbn; rewrite E; reflexivity].
    change (dstops (directive_loop f v (d ++ [(handle, prefix)]) (skip (set_tags p tg))) (directive_loop f' v (d ++ [(handle, prefix)]) (skip (longer (set_tags p tg))))).
    rewrite (skip_longer (set_tags p tg) t r E). apply IH. lia.
Qed.
Lemma dstops_process p : dstops (process_directives p) (process_directives (longer p)).
Proof.
  unfold process_directives. pose proof (dstops_loop (p_in p) (p_in (longer p)) None [] p) as K.
  assert (L : (length (p_in p) <= length (p_in (longer p)))%nat) by (cbn; rewrite app_length; lia). specialize (K L).
  destruct (directive_loop (p_in p) None [] p) as [v d q|q]; cbn [dstops] in K.
  - rewrite K. reflexivity.
  - destruct K as [K|K]; [left; exact K|right]. rewrite K. reflexivity.
Qed.
(* all the DOCUMENT-END tokens are skipped, or the tokens are used up *)
Lemma skip_ends : forall f f' p, (length (p_in p) <= length f)%nat -> (length (p_in (longer p)) <= length f')%nat ->
  p_in (skip_doc_ends f p) = [] \/ skip_doc_ends f' (longer p) = longer (skip_doc_ends f p).
Proof.
  induction f as [|x f IH]; intros f' p L L'; [left; cbn; destruct (p_in p); [reflexivity|cbn in L; lia]|].
  cbn [skip_doc_ends]. destruct (p_in p) as [|t r] eqn:E; [left; exact E|]. destruct f' as [|x' f']; [cbn in L'; rewrite E in L'; cbn in L'; lia|].
  cbn [skip_doc_ends]. replace (p_in (longer p)) with (t :: r ++ Z) by (cbn; rewrite E; reflexivity). cbn in L, L'. rewrite E in L'. cbn in L'.
  destruct (t_tok t); try (right; reflexivity). rewrite (skip_longer p t r E). apply IH; unfold skip; rewrite E; cbn; lia.
Qed.
Lemma stops_doc_start p i : stops (parse_document_start p i) (parse_document_start (longer p) i).
Proof.
  assert (G : forall q, stops (peek q (fun token =>
      if i && negb (starts_explicit (t_tok token)) && negb (is_stream_end (t_tok token)) then
        match process_directives q with
        | DirsFail p' => PFail p'
        | DirsOk _ _ p' => ret (EDocStart None [] true) (t_start token) (t_start token) (set_state (push_state p' PS_DocEnd) PS_BlockNode)
        end
      else if negb (is_stream_end (t_tok token)) then
        match process_directives q with
        | DirsFail p' => PFail p'
        | DirsOk ver dirs p' => peek p' (fun token2 =>
            match t_tok token2 with
            | TDocStart => ret (EDocStart ver dirs false) (t_start token) (t_end token2) (skip (set_state (push_state p' PS_DocEnd) PS_DocContent))
            | _ => error p' NoDocStart (t_start token2)
            end)
        end
      else ret EStreamEnd (t_start token) (t_end token) (skip (set_state q PS_End))))
    (peek (longer q) (fun token =>
      if i && negb (starts_explicit (t_tok token)) && negb (is_stream_end (t_tok token)) then
        match process_directives (longer q) with
        | DirsFail p' => PFail p'
        | DirsOk _ _ p' => ret (EDocStart None [] true) (t_start token) (t_start token) (set_state (push_state p' PS_DocEnd) PS_BlockNode)
        end
      else if negb (is_stream_end (t_tok token)) then
        match process_directives (longer q) with
        | DirsFail p' => PFail p'
        | DirsOk ver dirs p' => peek p' (fun token2 =>
            match t_tok token2 with
            | TDocStart => ret (EDocStart ver dirs false) (t_start token) (t_end token2) (skip (set_state (push_state p' PS_DocEnd) PS_DocContent))
            | _ => error p' NoDocStart (t_start token2)
            end)
        end
      else ret EStreamEnd (t_start token) (t_end token) (skip (set_state (longer q) PS_End))))).
  { intros q. apply stops_peek. intros t r E. pose proof (dstops_process q) as K. destruct (i && _ && _).
    - destruct (process_directives q) as [v d x|x]; cbn [dstops] in K; [rewrite K; st|]. destruct K as [K|K]; [left; exact K|right; rewrite K; reflexivity].
    - destruct (negb _); [|st]. destruct (process_directives q) as [v d x|x]; cbn [dstops] in K; [rewrite K; nd|]. destruct K as [K|K]; [left; exact K|right; rewrite K; reflexivity]. }
  unfold parse_document_start. apply stops_peek. intros t r E. cbv zeta. destruct i; [apply G|].
  destruct (skip_ends (p_in p) (p_in (longer p)) p) as [H|H]; [lia|lia| |rewrite H; apply G].
  unfold peek at 1. rewrite H. apply stops_none.
Qed.

Lemma stops_parse p : stops (parse p) (parse (longer p)).
Proof.
  unfold parse. cbn [longer p_end p_error p_state]. destruct (_ || _ || _); [reflexivity|]. unfold state_machine. change (p_state (longer p)) with (p_state p). destruct (p_state p);
    first [apply stops_stream_start|apply stops_doc_start|apply stops_doc_content|apply stops_doc_end|apply stops_node|apply stops_bseq|apply stops_indentless|apply stops_bkey|apply stops_bvalue
      |apply stops_fseq|apply stops_fsmkey|apply stops_fsmvalue|apply stops_fsmend|apply stops_fmkey|apply stops_fmvalue|(right; reflexivity)].
Qed.
Lemma stops_all n : forall p, snd (parse_all n p) = Undefined \/ parse_all n (longer p) = parse_all n p \/
  (exists er, snd (parse_all n p) = Failed (Some er) /\ pe_problem er = TokenError) /\ exists more, fst (parse_all n (longer p)) = fst (parse_all n p) ++ more.
Proof.
  induction n as [|n IH]; intros p; [right; left; reflexivity|]. cbn [parse_all]. pose proof (stops_parse p) as K.
  destruct (parse p) as [e q|q|q|]; cbn [stops] in K; [| | |left; reflexivity].
  - rewrite K. specialize (IH q). destruct (parse_all n q) as [es o], (parse_all n (longer q)) as [es' o']. cbn [fst snd] in *.
    destruct IH as [H|[H|[H (more & M)]]]; [left; exact H|right; left; congruence|right; right; split; [exact H|]]. exists more. rewrite M. reflexivity.
  - rewrite K. right. left. reflexivity.
  - destruct K as [(er & E1 & E2)|K]; [right; right|right; left; rewrite K; reflexivity].
    cbn [fst snd]. rewrite E1. split; [eauto|]. eexists. reflexivity.
Qed.
End Z.
