(* Proofs for C61: between two calls the flow collections that the parser is in are those
   opened and not closed by the tokens consumed. *)
From Verif Require Import Base ReaderModel Types TreeSpec GrammarSpec EventAcc ParserModel ParserSpec ParserInv ParserProofs ParserFinal ScannerSpec SplitParse.

Definition fl_after (d : N) (t : tok) : N :=
  match t with TFlowSeqStart | TFlowMapStart => d + 1 | TFlowSeqEnd | TFlowMapEnd => d - 1 | _ => d end.
Definition fl (d : N) (l : list tok) : N := fold_left fl_after l d.
Lemma fl_flow l : forall d, flow_from d l = fl d (map t_tok l).
Proof. induction l as [|t l IH]; intros d; [reflexivity|]. change (flow_from (flow_after d t) l = fl (fl_after d (t_tok t)) (map t_tok l)). rewrite IH. f_equal. Qed.
Lemma fl_app a b d : fl d (a ++ b) = fl (fl d a) b.
Proof. apply fold_left_app. Qed.
Definition no_flow (t : tok) : bool := match t with TFlowSeqStart | TFlowMapStart | TFlowSeqEnd | TFlowMapEnd => false | _ => true end.
Lemma fl_none l : forall d, forallb no_flow l = true -> fl d l = d.
Proof. induction l as [|t l IH]; intros d H; [reflexivity|]. cbn in H. apply andb_true_iff in H as [H1 H2]. change (fl d (t :: l)) with (fl (fl_after d t) l). rewrite IH by exact H2. destruct t; try discriminate; reflexivity. Qed.

(* the states inside a flow collection whose first token has been consumed *)
Definition fw (s : pstate) : N :=
  match s with
  | PS_FSeqEntry | PS_FSeqMapKey | PS_FSeqMapValue | PS_FSeqMapEnd | PS_FMapKey | PS_FMapValue | PS_FMapEmptyValue => 1
  | _ => 0
  end.
Definition fws (l : list pstate) : N := fold_right (fun s n => fw s + n) 0 l.
Definition within (p : parser) : N := fw (p_state p) + fws (p_states p).

Lemma props_flow env used a t : opt_properties env used a t -> forallb no_flow used = true.
Proof. intros H. inversion H; subst; [reflexivity|]. match goal with K : properties _ _ _ _ |- _ => inversion K; reflexivity end. Qed.
Lemma single_flow d env k used x e : node d env k used x -> events_of x = [e] -> forallb no_flow used = true.
Proof.
  intros N E. inversion N; subst.
  - reflexivity.
  - match goal with K : properties _ _ _ _ |- _ => inversion K; reflexivity end.
  - match goal with K : opt_properties _ _ _ _ |- _ => pose proof (props_flow _ _ _ _ K) as A end.
    match goal with K : content _ _ _ _ _ _ _ |- _ => inversion K; subst; cbn in E; try (exfalso; injection E as _ E; match type of E with ?l ++ _ = [] => destruct l; discriminate end) end.
    rewrite forallb_app, A. reflexivity.
Qed.
Lemma repeat_flow n : forallb no_flow (repeat TDocEnd n) = true.
Proof. induction n; auto. Qed.
Lemma trans_flow p e p' : wf p -> trans p e p' -> exists u, toks p = u ++ toks p' /\ fl (within p) u = within p'.
Proof.
  intros W T. unfold within. inversion T; subst.
  - exists [TStreamStart enc]. split; [assumption|]. rewrite H, H1, H2. reflexivity.
  - exists []. split; [cbn; congruence|]. rewrite H, H4, H5. reflexivity.
  - exists (repeat TDocEnd n ++ ds ++ [TDocStart]). split; [rewrite H1, <- !app_assoc; reflexivity|].
    rewrite !fl_app, (fl_none _ _ (repeat_flow n)), (fl_none ds).
    + rewrite H3, H4. destruct (p_state p); try discriminate; reflexivity.
    + destruct H2 as (D & _). rewrite forallb_forall. rewrite Forall_forall in D. intros x I. specialize (D x I). destruct x; try discriminate; reflexivity.
  - exists (repeat TDocEnd n ++ [TStreamEnd]). split; [rewrite H1, <- !app_assoc; reflexivity|]. rewrite fl_app, (fl_none _ _ (repeat_flow n)), H2, H3. destruct (p_state p); try discriminate; reflexivity.
  - exists (repeat TDocEnd n). split; [assumption|]. rewrite (fl_none _ _ (repeat_flow n)), H, H3, H4. reflexivity.
  - exists []. split; [cbn; congruence|]. rewrite H, H1. reflexivity.
  - assert (C : fl (fw (p_state p) + fws (p_states p)) pre = fws (p_states p1)).
    { rewrite H1. revert H. generalize (p_state p). intros st Q. inversion Q; unfold fl, fws; cbn [fold_left fl_after fw app fold_right]; lia. }
    inversion H3; subst.
    + exists (pre ++ used). split; [rewrite H0, H6, <- app_assoc; reflexivity|]. rewrite fl_app, C, (fl_none used), H7 by (eapply single_flow; eassumption). reflexivity.
    + exists (pre ++ used). split; [rewrite H0, H6, <- app_assoc; reflexivity|]. rewrite fl_app, C, (fl_none used), H10 by (eapply props_flow; eassumption).
      match goal with K : opens _ _ _ _ _ _ |- _ => inversion K; cbn; reflexivity end.
  - exists pre. split; [assumption|]. rewrite H3. revert H. generalize (p_state p) (p_state p'). intros st st' Q. inversion Q; unfold fl, fws; cbn [fold_left fl_after fw app fold_right]; lia.
  - exists [t]. split; [assumption|]. rewrite H, H2, H3. destruct H0 as [-> | ->]; reflexivity.
  - exists pre. split; [assumption|]. rewrite H1. revert H. generalize (p_state p). intros st Q. inversion Q; unfold fl, fws; cbn [fold_left fl_after fw app fold_right]; lia.
  - exists []. split; [cbn; congruence|]. rewrite H, H3. reflexivity.
  - exists pre. split; [assumption|]. rewrite H1, H2. destruct H as [[-> ->]|[-> ->]]; unfold fl, fws; cbn [fold_left fl_after fw app fold_right]; lia.
  - exists []. split; [cbn; congruence|]. rewrite H, H2, H3. reflexivity.
Qed.

(* what is left to read is the end of the input *)
Definition part_of (input l : list token) : Prop := exists a, input = a ++ l.
Lemma parse_part p e p' input : part_of input (p_in p) -> parse p = PEvent e p' -> part_of input (p_in p').
Proof.
  intros Q E. pose proof (shr_machine (part_of input) (fun t l '(ex_intro _ a H) => ex_intro _ (a ++ [t]) (eq_trans H (app_assoc a [t] l))) p Q) as S.
  unfold parse in E. destruct (_ || _ || _); [discriminate|]. rewrite E in S. exact S.
Qed.
Lemma history_flow input es p : history input es p ->
  p_state p = PS_End \/ wf p /\ exists a, input = a ++ p_in p /\ flow_depth a = within p.
Proof.
  induction 1 as [|es p e p' H IH E].
  - right. split; [apply init_wf|]. exists []. split; reflexivity.
  - destruct IH as [S|(W & a & Ea & Fa)]; [rewrite (ended_nothing _ S) in E; discriminate|].
    pose proof (step_cases p W) as SC. rewrite E in SC. cbn in SC. destruct SC as (TR & E1 & E2).
    destruct (wf_step _ _ _ W TR E1 E2) as [[W' _]|[_ S']]; [right|left; exact S']. split; [exact W'|].
    destruct (trans_flow _ _ _ W TR) as (u & Eu & Fu). destruct (parse_part p e p' (p_in p) (ex_intro _ [] eq_refl) E) as (b & Eb).
    exists (a ++ b). split; [rewrite <- app_assoc, <- Eb; exact Ea|]. unfold flow_depth. rewrite fl_flow, map_app, fl_app, <- (fl_flow a 0). unfold flow_depth in Fa. rewrite Fa.
    replace (map t_tok b) with u; [exact Fu|]. unfold toks in Eu. rewrite Eb, map_app in Eu. apply app_inv_tail in Eu. symmetry. exact Eu.
Qed.

(* an explicit DOCUMENT-END event is a DOCUMENT-END token outside flow collections *)
Lemma doc_end_token input es p dd p' : history input es p -> parse p = PEvent dd p' -> e_ev dd = EDocEnd false ->
  exists a d r, input = a ++ d :: r /\ t_tok d = TDocEnd /\ flow_depth a = 0 /\ dd = mkEvent (EDocEnd false) (t_start d) (t_end d) /\
    p = mkParser (d :: r) false None PS_DocEnd [] [] (p_tags p) /\ p' = mkParser r false None PS_DocStart [] [] [].
Proof.
  intros H E V. destruct (history_flow _ _ _ H) as [S|(W & a & Ea & Fa)]; [rewrite (ended_nothing _ S) in E; discriminate|].
  pose proof (step_cases p W) as SC. rewrite E in SC. cbn in SC. destruct SC as (TR & _). rewrite V in TR.
  assert (St : p_state p = PS_DocEnd).
  { inversion TR; subst; auto; try discriminate.
    - match goal with K : node_out _ _ _ _ |- _ => inversion K; subst end.
      + match goal with K : events_of ?x = _ |- _ => destruct x; cbn in K; try discriminate K end.
      + match goal with K : opens _ _ _ _ _ _ |- _ => inversion K end.
    - match goal with K : closes _ _ _ |- _ => inversion K end. }
  destruct W as (W1 & W2 & W3). unfold wf_state in W3. rewrite St in W3. destruct W3 as [W3 W4].
  unfold within in Fa. rewrite St, W3 in Fa. unfold parse in E. rewrite W1, W2, St in E. cbn [orb is_end_state] in E. unfold state_machine in E. rewrite St in E. unfold parse_document_end, peek in E.
  destruct p as [i en er st ss ms tg]. cbn [p_in p_error p_end p_state p_states p_marks p_tags] in *. subst. destruct i as [|d r]; [discriminate|].
  exists a, d, r. destruct (t_tok d) eqn:Et; try (injection E as <- _; discriminate V). injection E as <- <-. unfold skip. cbn [p_in p_tags set_tags set_state p_error p_state p_states p_marks]. rewrite Et. repeat split. exact Fa.
Qed.
