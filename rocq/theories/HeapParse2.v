(* The functions of parser.c for collections. *)
From Coq Require Import Permutation.
From Verif Require Import Base ReaderModel Types CursorModel ScanModel ScannerModel ParserModel DocModel HeapModel HeapSpec HeapLemmas HeapEvents HeapLoaderModel HeapLoader HeapTokenModel HeapTokenSpec HeapScan
  HeapLexModel HeapScanModel HeapScanSpec HeapScanSim HeapParserModel HeapParserSpec ScanRest HeapParser HeapParse.
Local Open Scope hm_scope.

Ltac at_value := first [eassumption | reflexivity | solve [match goal with V : hp_at ?h ?p = _ |- hp_at ?h _ = _ => rewrite <- V; reflexivity end] |
  solve [match goal with E : hp_at ?h ?q = skip (hp_at ?h _), V : hp_at ?h ?p = _ |- hp_at ?h ?q = _ => rewrite E, <- V; reflexivity end]].
Ltac at_pre := first [eassumption | apply pre_state; eassumption].
Ltac at_cur := first [eassumption | solve [apply cur_state; eassumption] | solve [unfold cur in *; match goal with E : hp_scan ?p = hp_scan _ |- _ => rewrite E; eassumption end] |
  solve [unfold cur in *; match goal with E : hp_scan ?p = hp_scan ?q, F : hp_scan ?q = hp_scan _ |- _ => rewrite E, F; eassumption end]].
Ltac not_first := solve [reflexivity | assumption | congruence | match goal with E : hp_state ?p = _ |- is_first (hp_state ?p) = _ => rewrite E; reflexivity end].
Ltac go :=
  match goal with
  | |- sim (h_peek _ _ _) _ _ _ _ =>
      eapply sim_peek; [at_pre|first [discriminate|eassumption]|at_value|intros; eapply none_sim; [eassumption|reflexivity|eassumption|eassumption]|];
      let h := fresh "h" in let p := fresh "p" in let t := fresh "t" in let P := fresh "P" in let X := fresh "X" in let V := fresh "V" in let C := fresh "C" in let S := fresh "S" in
      intros h p t P X V C S _; cbn [token_at t_tok t_start t_end]
  | |- sim (h_skip _ _) _ _ _ _ =>
      let p := fresh "p" in let P := fresh "P" in let V := fresh "V" in let E := fresh "Es" in
      eapply sim_skip; [at_pre|at_cur|match goal with Et : ht_tok ?t = _ |- is_hstream_end (ht_tok ?t) = _ => rewrite Et; reflexivity end|at_value|]; intros p P V E _;
      match goal with Et : ht_tok ?t = _ |- _ => match type of P with context [token_blocks t] => unfold token_blocks in P; rewrite Et in P; cbn [tok_blocks app] in P end end
  | |- sim (h_empty_scalar _ _) _ _ _ _ => eapply sim_empty_scalar; [at_pre|not_first|at_value]
  | |- sim (h_push_state _ _ _ _) _ _ _ _ =>
      eapply sim_push_state; [at_pre|at_value|reflexivity|intros; eapply none_sim; [eassumption|reflexivity|eassumption|right; eassumption]|]; intros ?h ?p ?P ?X ?V ?Es
  | |- sim (h_node _ _ _) _ _ _ _ => eapply node_sim; [at_pre|first [discriminate|eassumption]|at_value]
  | |- sim (h_pop_state _ _) _ _ _ _ => eapply sim_pop_state; [at_pre|at_value|]; intros ?p ?P ?Es ?Ef
  | |- sim (h_pop_mark _ _) _ _ _ _ => eapply sim_pop_mark; [at_pre|at_value|]; intros ?m ?p ?P ?Es ?Ef
  | |- sim (h_fail _ _) _ _ _ _ => eapply sim_fail; [at_pre|at_value]
  end.
Lemma ret_sim h0 taken h p v e x s m : pre true h0 taken h p [] -> hp_at h p = v -> ev_blocks e = [] -> sound_event e -> event_at h e = Some x ->
  is_first (hp_state p) = false -> sim (h_ret e s m p) h h0 taken (ret x s m v).
Proof.
  intros P <- B S V F. eapply sim_ret; [reflexivity|exact P|rewrite B; reflexivity|exact S|exact V|]. intros E. congruence.
Qed.
Ltac out := eapply ret_sim; [at_pre|at_value|reflexivity|exact I|reflexivity|not_first].

Lemma end_collection_sim h0 taken h p v e x token : pre true h0 taken h p [] -> hp_at h p = v -> cur p token -> token_blocks token = [] -> is_hstream_end (ht_tok token) = false ->
  (e = HSeqEnd /\ x = ESeqEnd) \/ (e = HMapEnd /\ x = EMapEnd) ->
  sim (h_end_collection p e token) h h0 taken (end_collection v x (token_at h token)).
Proof.
  intros P V C B Ne E. unfold h_end_collection, end_collection. go. go.
  eapply sim_skip; [at_pre|at_cur|exact Ne|at_value|]. intros p2 P2 V2 E2 _. rewrite B in P2. cbn [token_at t_start t_end].
  destruct E as [[-> ->]|[-> ->]]; (eapply ret_sim; [exact P2|exact V2|reflexivity|exact I|reflexivity|congruence]).
Qed.
Ltac finish := first [out | eapply end_collection_sim; [at_pre|at_value|at_cur|unfold token_blocks; match goal with Et : ht_tok _ = _ |- _ => rewrite Et; reflexivity end|match goal with Et : ht_tok _ = _ |- _ => rewrite Et; reflexivity end|auto]].

Lemma cur_next h p t : going h p -> cur p t -> exists r, p_in (hp_at h p) = token_at h t :: r /\ started p = true.
Proof.
  intros [En Ok] (A & t0 & q & Eq & ->). unfold scan_ok in Ok. change (s_avail (y_at h (hp_scan p))) with (s_avail (y_sc (hp_scan p))) in Ok. rewrite A in Ok.
  assert (Et : s_tokens (y_at h (hp_scan p)) = token_at h t0 :: map (token_at h) q) by (unfold y_at; rewrite Eq; reflexivity).
  destruct (upcoming_skip _ _ _ Ok Et) as [U _]. destruct (peeked_facts _ Ok) as (_ & _ & Sd & _).
  eexists. split; [|exact Sd]. cbn [hp_at p_in]. rewrite U, <- deep_at. reflexivity.
Qed.
Lemma enter_sim st h0 taken h p v first K k : pre st h0 taken h p [] -> (st = false -> going h p) -> hp_at h p = v ->
  (first = true -> exists t, cur p t /\ token_blocks t = [] /\ is_hstream_end (ht_tok t) = false) ->
  (forall st' h' p' v', pre st' h0 taken h' p' [] -> (st' = false -> going h' p') -> hp_at h' p' = v' -> sim (K p') h' h0 taken (k v')) ->
  sim (h_enter p first K) h h0 taken (enter v first k).
Proof.
  intros P Go V F Kp. unfold h_enter, enter. destruct first; [|eapply Kp; eassumption].
  destruct (F eq_refl) as (t & C & B & Ne).
  assert (Go' : going h p) by (destruct st; [apply P; reflexivity|apply Go; reflexivity]).
  destruct (cur_next h p t Go' C) as (r & E & Sd). rewrite V in E.
  assert (P1 : pre true h0 taken h p []).
  { destruct P as (P1 & P2 & P3 & P4 & P5). split; [exact P1|]. split; [exact P2|]. split; [exact P3|]. split; [|exact P5]. intros _. split; assumption. }
  unfold peek_unchecked. rewrite E.
  assert (Y : y_peek (hp_scan p) h = HOk (hp_scan p, inl t) h).
  { destruct C as (A & t0 & r' & Eq & ->). unfold y_peek. rewrite A. unfold y_head. rewrite Eq. erewrite bind_ok; [reflexivity|].
    apply h_touch_ok; [apply P|]. destruct P as (_ & _ & _ & _ & H & _). clear - H. unfold hp_blocks, y_blocks in H. cn. }
  unfold h_peek. eapply sim_ok; [exact Y|]. cbv beta iota. rewrite with_scan_same.
  eapply sim_push_mark; [exact P1|reflexivity|exact V|]. intros h1 p1 P2 X1 V1 Es.
  eapply sim_skip; [exact P2|unfold cur; rewrite Es; exact C|exact Ne|exact V1|]. intros p2 P3 V2 _ _. rewrite B in P3.
  eapply Kp; [exact P3|discriminate|exact V2].
Qed.

Ltac run := cbn [tok_at];
  match goal with
  | |- sim (match ht_tok ?t with _ => _ end) _ _ _ _ => destruct (ht_tok t) eqn:?Et; run
  | |- sim (h_ret _ _ _ _) _ _ _ _ => out
  | |- sim (h_end_collection _ _ _) _ _ _ _ => finish
  | |- sim (h_error_context _ _ _ _) _ _ _ _ => unfold h_error_context, error_context; go
  | _ => go; run
  | _ => go
  end.

Lemma block_sequence_entry_sim st h0 taken h p v first : pre st h0 taken h p [] -> (st = false -> going h p) -> hp_at h p = v ->
  (first = true -> exists t, cur p t /\ token_blocks t = [] /\ is_hstream_end (ht_tok t) = false) ->
  sim (h_block_sequence_entry p first) h h0 taken (parse_block_sequence_entry v first).
Proof.
  intros P Go V F. unfold h_block_sequence_entry, parse_block_sequence_entry. eapply enter_sim; [exact P|exact Go|exact V|exact F|].
  clear. intros st h p v P Go V. run.
Qed.
Lemma block_mapping_key_sim st h0 taken h p v first : pre st h0 taken h p [] -> (st = false -> going h p) -> hp_at h p = v ->
  (first = true -> exists t, cur p t /\ token_blocks t = [] /\ is_hstream_end (ht_tok t) = false) ->
  sim (h_block_mapping_key p first) h h0 taken (parse_block_mapping_key v first).
Proof.
  intros P Go V F. unfold h_block_mapping_key, parse_block_mapping_key. eapply enter_sim; [exact P|exact Go|exact V|exact F|].
  clear. intros st h p v P Go V. run.
Qed.
Lemma indentless_sim st h0 taken h p v : pre st h0 taken h p [] -> (st = false -> going h p) -> hp_at h p = v ->
  sim (h_indentless_sequence_entry p) h h0 taken (parse_indentless_sequence_entry v).
Proof. intros P Go V. unfold h_indentless_sequence_entry, parse_indentless_sequence_entry. run. Qed.
Lemma block_mapping_value_sim st h0 taken h p v : pre st h0 taken h p [] -> (st = false -> going h p) -> hp_at h p = v ->
  sim (h_block_mapping_value p) h h0 taken (parse_block_mapping_value v).
Proof. intros P Go V. unfold h_block_mapping_value, parse_block_mapping_value. run. Qed.
Lemma flow_pair_key_sim st h0 taken h p v : pre st h0 taken h p [] -> (st = false -> going h p) -> hp_at h p = v ->
  sim (h_flow_sequence_entry_mapping_key p) h h0 taken (parse_flow_sequence_entry_mapping_key v).
Proof. intros P Go V. unfold h_flow_sequence_entry_mapping_key, parse_flow_sequence_entry_mapping_key. run. Qed.
Lemma flow_pair_value_sim st h0 taken h p v : pre st h0 taken h p [] -> (st = false -> going h p) -> hp_at h p = v ->
  sim (h_flow_sequence_entry_mapping_value p) h h0 taken (parse_flow_sequence_entry_mapping_value v).
Proof. intros P Go V. unfold h_flow_sequence_entry_mapping_value, parse_flow_sequence_entry_mapping_value. run. Qed.
Lemma flow_pair_end_sim st h0 taken h p v : pre st h0 taken h p [] -> (st = false -> going h p) -> hp_at h p = v ->
  sim (h_flow_sequence_entry_mapping_end p) h h0 taken (parse_flow_sequence_entry_mapping_end v).
Proof. intros P Go V. unfold h_flow_sequence_entry_mapping_end, parse_flow_sequence_entry_mapping_end. run. Qed.
Lemma flow_mapping_value_sim st h0 taken h p v empty : pre st h0 taken h p [] -> (st = false -> going h p) -> hp_at h p = v ->
  sim (h_flow_mapping_value p empty) h h0 taken (parse_flow_mapping_value v empty).
Proof. intros P Go V. unfold h_flow_mapping_value, parse_flow_mapping_value. go. destruct empty; run. Qed.
Lemma flow_sequence_entry_sim st h0 taken h p v first : pre st h0 taken h p [] -> (st = false -> going h p) -> hp_at h p = v ->
  (first = true -> exists t, cur p t /\ token_blocks t = [] /\ is_hstream_end (ht_tok t) = false) ->
  sim (h_flow_sequence_entry p first) h h0 taken (parse_flow_sequence_entry v first).
Proof.
  intros P Go V F. unfold h_flow_sequence_entry, parse_flow_sequence_entry. eapply enter_sim; [exact P|exact Go|exact V|exact F|].
  clear. intros st h p v P Go V. unfold h_flow_sequence_at. go. destruct first; run.
Qed.
Lemma flow_mapping_key_sim st h0 taken h p v first : pre st h0 taken h p [] -> (st = false -> going h p) -> hp_at h p = v ->
  (first = true -> exists t, cur p t /\ token_blocks t = [] /\ is_hstream_end (ht_tok t) = false) ->
  sim (h_flow_mapping_key p first) h h0 taken (parse_flow_mapping_key v first).
Proof.
  intros P Go V F. unfold h_flow_mapping_key, parse_flow_mapping_key. eapply enter_sim; [exact P|exact Go|exact V|exact F|].
  clear. intros st h p v P Go V. unfold h_flow_mapping_at. go. destruct first; run.
Qed.
Lemma stream_start_sim st h0 taken h p v : pre st h0 taken h p [] -> (st = false -> going h p) -> hp_at h p = v ->
  sim (h_stream_start p) h h0 taken (parse_stream_start v).
Proof. intros P Go V. unfold h_stream_start, parse_stream_start, h_error, error. run. Qed.
Lemma document_content_sim st h0 taken h p v : pre st h0 taken h p [] -> (st = false -> going h p) -> hp_at h p = v ->
  sim (h_document_content p) h h0 taken (parse_document_content v).
Proof. intros P Go V. unfold h_document_content, parse_document_content. run. Qed.
