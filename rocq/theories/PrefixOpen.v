(* As long as no STREAM-END token has come, the event parser does not end the stream, and the
   loader does not report the end of the documents (C72). *)
From Verif Require Import Base ReaderModel Types DocModel ParserModel ParserSpec LoaderModel LoaderSpec PrefixEvents.

Definition open (p : parser) : Prop := p_end p = false /\ Forall (fun t => t_tok t <> TStreamEnd) (p_in p).
Definition opened (o : pout) : Prop := match o with PEvent e p => open p /\ e_ev e <> EStreamEnd | _ => True end.
Lemma open_skip p : open p -> open (skip p).
Proof.
  intros [A B]. unfold skip. destruct (p_in p) as [|t r] eqn:E; [split; [exact A|rewrite E; exact B]|]. inversion B as [|? ? B1 B2]. subst.
  split; [|exact B2]. cbn. unfold is_stream_end. destruct (t_tok t); try reflexivity. contradiction.
Qed.
Lemma open_same p q : p_end q = p_end p -> p_in q = p_in p -> open p -> open q.
Proof. intros E1 E2 [A B]. split; congruence. Qed.
Lemma open_state p s : open p -> open (set_state p s). Proof. apply open_same; reflexivity. Qed.
Lemma open_push p s : open p -> open (push_state p s). Proof. apply open_same; reflexivity. Qed.
Lemma open_mark p s : open p -> open (push_mark p s). Proof. apply open_same; reflexivity. Qed.
Lemma open_tags p s : open p -> open (set_tags p s). Proof. apply open_same; reflexivity. Qed.
#[local] Hint Resolve open_skip open_state open_push open_mark open_tags : op.
Lemma op_peek p k : open p -> (forall t, t_tok t <> TStreamEnd -> opened (k t)) -> opened (peek p k).
Proof. intros [A B] H. unfold peek. destruct (p_in p) as [|t r] eqn:E; [exact I|]. inversion B. subst. apply H. assumption. Qed.
Lemma op_pop p k : open p -> (forall q, open q -> opened (k q)) -> opened (pop_state p k).
Proof. intros A H. unfold pop_state. destruct (p_states p); [exact I|]. apply H. revert A. apply open_same; reflexivity. Qed.
Lemma op_pop_mark p k : open p -> (forall m q, open q -> opened (k m q)) -> opened (pop_mark p k).
Proof. intros A H. unfold pop_mark. destruct (p_marks p); [exact I|]. apply H. revert A. apply open_same; reflexivity. Qed.
Lemma op_ret e s m p : open p -> e <> EStreamEnd -> opened (ret e s m p).
Proof. intros A H. split; [exact A|exact H]. Qed.
Lemma op_empty p m : open p -> opened (process_empty_scalar p m).
Proof. intros A. apply op_ret; [exact A|discriminate]. Qed.
Lemma op_error p pr m : opened (error p pr m). Proof. exact I. Qed.
Lemma op_error_context p pr c m : opened (error_context p pr c m). Proof. exact I. Qed.
Ltac oo := solve [eauto 10 with op].
Ltac st := repeat (cbv beta zeta; first
  [ match goal with |- opened (error _ _ _) => exact I | |- opened (error_context _ _ _ _) => exact I end
  | (apply op_ret; [oo|discriminate]) | (apply op_empty; oo)
  | (apply op_peek; [oo|intros ? ?]) | (apply op_pop; [oo|intros ? ?]) | (apply op_pop_mark; [oo|intros ? ? ?]) ]).
Ltac tk := match goal with |- opened (match t_tok ?t with _ => _ end) => destruct (t_tok t) end.
Ltac go := st; repeat (tk; st).
Lemma op_content p b i a g s m t : open p -> opened (parse_content p b i a g s m t).
Proof.
  intros O. unfold parse_content. destruct (i && _); [st|]. destruct (t_tok t), b; try (destruct (t_deep t)); st; destruct a, g; st.
Qed.
Lemma op_tag p g s k : (forall t, opened (k t)) -> opened (with_tag p g s k).
Proof. intros H. unfold with_tag. destruct g as [[[h x] m]|]; [|apply H]. destruct (resolve_tag _ _ _); [apply H|st]. Qed.
Lemma op_node p b i : open p -> opened (parse_node p b i).
Proof.
  intros O. unfold parse_node. st. destruct (t_tok t) eqn:Et; st; try (apply op_content; oo).
  - destruct (t_tok t0); st; try (apply op_content; oo). apply op_tag. intros g. apply op_content. oo.
  - destruct (t_tok t0); st; try (apply op_tag; intros g; apply op_content; oo).
Qed.
#[local] Opaque parse_node.
Ltac nd := go; try (apply op_node; oo).
Lemma op_enter p f k : open p -> (forall q, open q -> opened (k q)) -> opened (enter p f k).
Proof. intros O H. unfold enter. destruct f; [|apply H; exact O]. unfold peek_unchecked. destruct (p_in p); [exact I|]. apply H. oo. Qed.
Ltac en := apply op_enter; [assumption|intros q O'].
Lemma dirs_open f : forall v d p, open p -> match directive_loop f v d p with DirsOk _ _ q => open q | DirsFail _ => True end.
Proof.
  induction f as [|x f IH]; intros v d p O; cbn [directive_loop]; [exact I|]. destruct (p_in p) as [|t r]; [exact I|]. destruct (t_tok t); try exact O.
  - destruct v; [exact I|]. destruct (_ || _); [exact I|]. apply IH. oo.
  - destruct (append_tag_directive _ _ _); [|exact I]. apply IH. oo.
Qed.
Lemma process_open p : open p -> match process_directives p with DirsOk _ _ q => open q | DirsFail _ => True end.
Proof. intros O. unfold process_directives. pose proof (dirs_open (p_in p) None [] p O) as K. destruct (directive_loop _ _ _ _); [|exact I]. oo. Qed.
Lemma skip_ends_open f : forall p, open p -> open (skip_doc_ends f p).
Proof. induction f as [|x f IH]; intros p O; cbn [skip_doc_ends]; [exact O|]. destruct (p_in p) as [|t r]; [exact O|]. destruct (t_tok t); try exact O. apply IH. oo. Qed.
Lemma op_doc_start p i : open p -> opened (parse_document_start p i).
Proof.
  intros O0. unfold parse_document_start. apply op_peek; [exact O0|]. intros _ _. cbv zeta.
  assert (O : open (if i then p else skip_doc_ends (p_in p) p)) by (destruct i; [exact O0|apply skip_ends_open; exact O0]).
  revert O. generalize (if i then p else skip_doc_ends (p_in p) p). intros q O. apply op_peek; [exact O|]. intros t Ht.
  replace (is_stream_end (t_tok t)) with false by (unfold is_stream_end; destruct (t_tok t); try reflexivity; contradiction). cbn [negb].
  pose proof (process_open q O) as K. destruct (i && _ && _); destruct (process_directives q) as [v d x|x]; try exact I; [st|nd].
Qed.
Theorem parse_open p : open p -> opened (parse p).
Proof.
  intros O. unfold parse. destruct (_ || _ || _); [exact I|]. unfold state_machine. destruct (p_state p); try (apply op_doc_start; exact O); try (apply op_node; exact O); try exact I.
  - unfold parse_stream_start. nd.
  - unfold parse_document_content. nd.
  - unfold parse_document_end. nd.
  - unfold parse_block_sequence_entry. en. nd.
  - unfold parse_block_sequence_entry. en. nd.
  - unfold parse_indentless_sequence_entry. nd.
  - unfold parse_block_mapping_key. en. nd.
  - unfold parse_block_mapping_key. en. nd.
  - unfold parse_block_mapping_value. nd.
  - unfold parse_flow_sequence_entry, end_collection. en. st. destruct (t_tok t); nd.
  - unfold parse_flow_sequence_entry, end_collection. en. st. destruct (t_tok t); nd.
  - unfold parse_flow_sequence_entry_mapping_key. nd.
  - unfold parse_flow_sequence_entry_mapping_value. nd.
  - unfold parse_flow_sequence_entry_mapping_end. nd.
  - unfold parse_flow_mapping_key, end_collection. en. st. destruct (t_tok t); nd.
  - unfold parse_flow_mapping_key, end_collection. en. st. destruct (t_tok t); nd.
  - unfold parse_flow_mapping_value. nd.
  - unfold parse_flow_mapping_value. nd.
Qed.

(* --- the loader --- *)
Definition lopened (o : lout) : Prop := match o with LDocument _ l => open (ld_parser l) | LNoDocument _ => False | _ => True end.
Lemma nodes_open f : forall p s k, open p -> (forall q t b, open q -> lopened (k q t b)) -> lopened (load_nodes f p s k).
Proof.
  induction f as [|f IH]; intros p s k O H; cbn [load_nodes]; [exact I|]. pose proof (parse_open p O) as K. destruct (parse p) as [e q| | |]; try exact I.
  destruct K as [K _]. destruct (e_ev e); try (apply H; exact K); destruct (load_event s e); try exact I; apply IH; auto.
Qed.
Lemma next_open f p : open p -> lopened (load_next f p).
Proof.
  intros O. unfold load_next. rewrite (proj1 O). pose proof (parse_open p O) as K. destruct (parse p) as [e q| | |]; try exact I. destruct K as [K1 K2].
  unfold load_document. destruct (e_ev e) eqn:E; try exact I; [contradiction|]. apply nodes_open; [exact K1|]. intros. assumption.
Qed.
Lemma load_open f l : open (ld_parser l) -> lopened (load f l).
Proof.
  intros O. unfold load. destruct (ld_started l); [apply next_open; exact O|]. pose proof (parse_open _ O) as K. destruct (parse (ld_parser l)) as [e q| | |]; try exact I.
  destruct K as [K _]. destruct (e_ev e); try exact I. apply next_open. exact K.
Qed.
Lemma history_open f input ds l : Forall (fun t => t_tok t <> TStreamEnd) input -> load_history f input ds l -> open (ld_parser l).
Proof.
  intros F H. induction H as [|ds l d l' H IH E]; [split; [reflexivity|exact F]|]. pose proof (load_open f l IH) as K. rewrite E in K. exact K.
Qed.

Section Z.
Variable Z : list token.
Definition longerL (l : loader) : loader := mkLoader (longer Z (ld_parser l)) (ld_started l).
(* a document that is loaded from the tokens is also loaded if more tokens follow *)
Lemma nodes_longer f : forall p s k k' d l, (forall q t b, k q t b = LDocument d l -> k' (longer Z q) t b = LDocument d (longerL l)) ->
  load_nodes f p s k = LDocument d l -> load_nodes f (longer Z p) s k' = LDocument d (longerL l).
Proof.
  induction f as [|f IH]; intros p s k k' d l H; cbn [load_nodes]; [discriminate|]. pose proof (stops_parse Z p) as K. destruct (parse p) as [e q| | |]; try discriminate.
  cbn [stops] in K. rewrite K. destruct (e_ev e); try apply H; destruct (load_event s e); try discriminate; apply IH; exact H.
Qed.
Lemma next_longer f p d l : load_next f p = LDocument d l -> load_next f (longer Z p) = LDocument d (longerL l).
Proof.
  unfold load_next. change (p_end (longer Z p)) with (p_end p). destruct (p_end p); [discriminate|]. pose proof (stops_parse Z p) as K. destruct (parse p) as [e q| | |]; try discriminate.
  cbn [stops] in K. rewrite K. unfold load_document. destruct (e_ev e); try discriminate. apply nodes_longer. intros q' t b [= <- <-]. reflexivity.
Qed.
Lemma load_longer f l d l' : load f l = LDocument d l' -> load f (longerL l) = LDocument d (longerL l').
Proof.
  unfold load. cbn [longerL ld_started ld_parser]. destruct (ld_started l); [apply next_longer|]. pose proof (stops_parse Z (ld_parser l)) as K. destruct (parse (ld_parser l)) as [e q| | |]; try discriminate.
  cbn [stops] in K. rewrite K. destruct (e_ev e); try discriminate. apply next_longer.
Qed.
Lemma history_longer f input ds l : load_history f input ds l -> load_history f (input ++ Z) ds (longerL l).
Proof.
  induction 1 as [|ds l d l' H IH E]; [apply LH_start|]. eapply LH_call; [exact IH|]. apply load_longer. exact E.
Qed.
End Z.
