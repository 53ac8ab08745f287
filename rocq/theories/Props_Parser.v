(* Properties C20-C27: the event parser (parser.c).  Statements only. *)
From Verif Require Import Base ReaderModel Types TreeSpec GrammarSpec ParserSpec ParserModel ParserFinal GrammarProofs.

(* tokens for the examples *)
Definition m0 : mark := mkMark 0 0 0.
Definition tk (t : tok) : token := mkToken t m0 m0 false.
Definition a_ : tok := TScalar [97] Plain.
(* %YAML 1.1 %TAG !e! x: --- !e!t {a: [a, ? a : a], &n !!s} ... --- *n *)
Definition ex_tokens : list tok :=
  [TStreamStart Utf8Enc; TVersion 1 1; TTagDirective [33;101;33] [120;58]; TDocStart; TTag [33;101;33] [116];
   TFlowMapStart; TKey; a_; TValue; TFlowSeqStart; a_; TFlowEntry; TKey; a_; TValue; a_; TFlowSeqEnd; TFlowEntry;
   TAnchor [110]; TTag [33;33] [115]; TFlowMapEnd; TDocEnd; TDocStart; TAlias [110]; TStreamEnd].
Definition ex_input : list token := map tk ex_tokens.
Example ex_accepted : snd (parse_all 40 (init_parser ex_input)) = Parsed /\ length (fst (parse_all 40 (init_parser ex_input))) = 19%nat.
Proof. vm_compute. auto. Qed.

(* C20: whenever STREAM-END is reached, the tokens consumed are generated by the
   grammar that parser.c implements and the events are those of the derivation. *)
Theorem C20_parser_sound calls input es :
  parse_all calls (init_parser input) = (es, Parsed) ->
  exists used rest s, map t_tok input = used ++ rest /\ stream implemented used s /\ map e_ev es = stream_events s.
Proof. exact (sound_implemented calls input es). Qed.
Print Assumptions C20_parser_sound.

(* With the published grammar itself: as long as no item of a flow sequence is a
   single pair with a missing key. *)
Theorem C20_parser_sound_documented calls input es :
  parse_all calls (init_parser input) = (es, Parsed) ->
  exists used rest s, map t_tok input = used ++ rest /\ map e_ev es = stream_events s /\
    (keyed_stream s -> stream documented used s).
Proof.
  exact (fun E => match sound_implemented calls input es E with
    | ex_intro _ used (ex_intro _ rest (ex_intro _ s (conj A (conj B C)))) =>
        ex_intro _ used (ex_intro _ rest (ex_intro _ s (conj A (conj C (fun K => common_documented _ _ (stream_keyed _ _ B K))))))
    end).
Qed.
Print Assumptions C20_parser_sound_documented.

(* The published grammar does not generate everything that is accepted: the
   tokens of "[? : : a]" are accepted. *)
Theorem C20_documented_refuted : exists input calls es,
  parse_all calls (init_parser input) = (es, Parsed) /\ (forall used rest s, map t_tok input = used ++ rest -> rest = [] -> ~ stream documented used s).
Proof.
  exists (map tk [TStreamStart Utf8Enc; TFlowSeqStart; TKey; TValue; TValue; a_; TFlowSeqEnd; TStreamEnd]), 20%nat.
  eexists. split; [vm_compute; reflexivity|].
  intros used rest s E ->. rewrite app_nil_r in E. rewrite <- E. apply documented_two_values.
Qed.
Print Assumptions C20_documented_refuted.

(* C21: the events returned by any number of calls form a prefix of a well-formed
   stream, a complete one if STREAM-END was returned. *)
Theorem C21_events_prefix input es p : history input es p -> well_formed_prefix (map e_ev es).
Proof. exact (history_prefix input es p). Qed.
Print Assumptions C21_events_prefix.
Theorem C21_events_complete input es e p : history input (es ++ [e]) p -> e_ev e = EStreamEnd -> well_formed (map e_ev (es ++ [e])).
Proof. exact (history_end input es e p). Qed.
Print Assumptions C21_events_complete.

(* a non-trivial history *)
Example C21_nonvacuous : exists es p, history ex_input es p /\ length es = 5%nat.
Proof.
  do 2 eexists. split; [exact (after_calls_history ex_input 5 _ _ (H_start _))|]. vm_compute. reflexivity.
Qed.

(* C22: on every token source (the list ends where the source fails) every call
   returns an event, an error, or nothing: no stack underflow, no use of a
   missing token.  The error is set when a call fails. *)
Theorem C22_no_undefined input es p : history input es p ->
  match parse p with PUB => False | PFail p' => p_error p' <> None | PEvent _ p' => p_error p' = None | PNothing _ => True end.
Proof.
  intros H. pose proof (history_next input es p H) as K. destruct (parse p); tauto.
Qed.
Print Assumptions C22_no_undefined.
Theorem C22_parse_all_defined input calls : snd (parse_all calls (init_parser input)) <> Undefined.
Proof. exact (parse_all_defined input calls). Qed.
Print Assumptions C22_parse_all_defined.
Example C22_nonvacuous : snd (parse_all 40 (init_parser (firstn 10 ex_input))) = Failed (Some (mkPerr TokenError None None)).
Proof. vm_compute. reflexivity. Qed.

(* C23: at most four events per token, and then an end or an error. *)
Theorem C23_calls_bounded input es p : history input es p -> (length es <= 4 * length input)%nat.
Proof. exact (history_length input es p). Qed.
Print Assumptions C23_calls_bounded.
Theorem C23_terminates input calls : (4 * length input < calls)%nat -> snd (parse_all calls (init_parser input)) <> MoreToCome.
Proof. exact (parse_all_ends input calls). Qed.
Print Assumptions C23_terminates.
(* several events without consuming a token do occur: [?] *)
Example C23_nonvacuous : length (fst (parse_all 40 (init_parser (map tk [TStreamStart Utf8Enc; TFlowSeqStart; TKey; TFlowSeqEnd; TStreamEnd])))) = 10%nat.
Proof. vm_compute. reflexivity. Qed.

(* C24: every token sequence generated by the grammar, less the two productions
   the parser rejects, is accepted, with the events it denotes.  The tokens must
   not exceed the nesting limit. *)
Theorem C24_complete input used rest s calls :
  input = used ++ rest -> Forall (fun t => t_deep t = false) used -> stream common (map t_tok used) s -> (4 * length input < calls)%nat ->
  exists es, parse_all calls (init_parser input) = (es, Parsed) /\ map e_ev es = stream_events s.
Proof. exact (fun A B C D => complete_implemented input used rest s calls A B (common_implemented _ _ C) D). Qed.
Print Assumptions C24_complete.
(* and the implemented grammar is accepted exactly *)
Theorem C24_complete_implemented input used rest s calls :
  input = used ++ rest -> Forall (fun t => t_deep t = false) used -> stream implemented (map t_tok used) s -> (4 * length input < calls)%nat ->
  exists es, parse_all calls (init_parser input) = (es, Parsed) /\ map e_ev es = stream_events s.
Proof. exact (complete_implemented input used rest s calls). Qed.
Print Assumptions C24_complete_implemented.

(* the hypotheses hold of a stream "{a: [a, a]}" *)
Definition s_ : tree := Scalar None None [97] true false Plain.
Definition ex_stream : stream_tree :=
  mkStreamTree Utf8Enc [mkDocTree None [] true (Mapping None None true FlowColl [(s_, Sequence None None true FlowColl [s_; s_])]) true].
Example C24_nonvacuous :
  stream common [TStreamStart Utf8Enc; TFlowMapStart; TKey; a_; TValue; TFlowSeqStart; a_; TFlowEntry; a_; TFlowSeqEnd; TFlowMapEnd; TStreamEnd] ex_stream.
Proof.
  assert (S : forall e k, node common e k [a_] s_) by (intros; apply (N_content _ _ _ [] None None [a_]); constructor).
  apply (Stream_implicit common Utf8Enc [TFlowMapStart; TKey; a_; TValue; TFlowSeqStart; a_; TFlowEntry; a_; TFlowSeqEnd; TFlowMapEnd] _ []); [|constructor].
  apply (ImplicitDoc common [TFlowMapStart; TKey; a_; TValue; TFlowSeqStart; a_; TFlowEntry; a_; TFlowSeqEnd; TFlowMapEnd] _ 0).
  apply (N_content _ _ _ [] None None _ _ (OP_none _)). apply C_flow_map.
  apply (FM_last _ _ [TKey; a_; TValue; TFlowSeqStart; a_; TFlowEntry; a_; TFlowSeqEnd]).
  apply (FME_pair _ _ [a_] _ [TValue; TFlowSeqStart; a_; TFlowEntry; a_; TFlowSeqEnd]).
  - apply O_some. apply S.
  - apply V_some. apply O_some. apply (N_content _ _ _ [] None None _ _ (OP_none _)). apply C_flow_seq.
    apply (FS_entry _ _ [a_] _ [a_; TFlowSeqEnd]); [apply FSE_node; apply S|].
    apply (FS_last _ _ [a_]). apply FSE_node. apply S.
Qed.

(* the published grammar is not accepted entirely: the tokens of "[? : a]" *)
Theorem C24_documented_refuted : exists input s,
  stream documented (map t_tok input) s /\ Forall (fun t => t_deep t = false) input /\
  forall calls es, parse_all calls (init_parser input) <> (es, Parsed).
Proof.
  exists (map tk [TStreamStart Utf8Enc; TFlowSeqStart; TKey; TValue; a_; TFlowSeqEnd; TStreamEnd]).
  exists (mkStreamTree Utf8Enc [mkDocTree None [] true (Sequence None None true FlowColl [Mapping None None true FlowColl [(null, s_)]]) true]).
  split; [|split].
  - assert (S : forall e k, node documented e k [a_] s_) by (intros; apply (N_content _ _ _ [] None None [a_]); constructor).
    apply (Stream_implicit documented Utf8Enc [TFlowSeqStart; TKey; TValue; a_; TFlowSeqEnd] _ []); [|constructor].
    apply (ImplicitDoc documented [TFlowSeqStart; TKey; TValue; a_; TFlowSeqEnd] _ 0).
    apply (N_content _ _ _ [] None None _ _ (OP_none _)). apply C_flow_seq. apply (FS_last _ _ [TKey; TValue; a_]).
    apply (FSE_empty_key _ _ [TValue; a_]); [reflexivity|]. apply V_some. apply O_some. apply S.
  - repeat constructor.
  - intros calls es. do 9 (destruct calls; [discriminate|]). discriminate.
Qed.
Print Assumptions C24_documented_refuted.

(* C25: in every call, each TAG token consumed is expanded in the bindings of the
   %TAG directives of the document it stands in, and a tag in an event comes from
   a TAG token consumed by that call.  (So a call that would consume a TAG whose
   handle is unbound there does not succeed.) *)
Theorem C25_tags input es p e p' : history input es p -> parse p = PEvent e p' ->
  exists used now, consumed (init_parser input) p used /\ consumed p p' now /\
    (forall h s, In (TTag h s) now -> exists t, tag_of (e_ev e) = Some t /\ resolves (env_of (active used)) h s t) /\
    (forall t, tag_of (e_ev e) = Some t -> exists h s, In (TTag h s) now /\ resolves (env_of (active used)) h s t).
Proof. exact (history_tags input es p e p'). Qed.
Print Assumptions C25_tags.
(* "!e!t" and "!!s" above; and no leak: "!e!" is not bound in a second document *)
Example C25_nonvacuous :
  In (EMapStart None (Some [120;58;116]) false FlowColl) (map e_ev (fst (parse_all 40 (init_parser ex_input)))) /\
  match snd (parse_all 40 (init_parser (map tk ([TStreamStart Utf8Enc; TTagDirective [33;101;33] [120;58]; TDocStart; TTag [33;101;33] [116]; a_;
     TDocStart; TTag [33;101;33] [116]; a_; TStreamEnd])))) with Failed (Some e) => pe_problem e = UndefinedTagHandle | _ => False end /\
  active [TStreamStart Utf8Enc; TTagDirective [33;101;33] [120;58]; TDocStart; TTag [33;101;33] [116]; a_; TDocStart] = [] /\
  active [TStreamStart Utf8Enc; TTagDirective [33;101;33] [120;58]; TDocStart] = [([33;101;33], [120;58])].
Proof. vm_compute. auto 20. Qed.

(* C26: a DOCUMENT-START event carries the directives written, in order, and they
   are valid: at most one %YAML, 1.1 or 1.2, no two %TAG with one handle... *)
Theorem C26_directives_exact input es p e p' v dirs implicit :
  history input es p -> parse p = PEvent e p' -> e_ev e = EDocStart v dirs implicit ->
  exists n ds, consumed p p' (repeat TDocEnd n ++ ds ++ (if implicit then [] else [TDocStart])) /\ directives ds v dirs /\
    (implicit = true -> ds = [] /\ n = O).
Proof. exact (history_directives input es p e p' v dirs implicit). Qed.
Print Assumptions C26_directives_exact.
(* ... and a document with invalid directives is rejected. *)
Theorem C26_invalid_rejected input es e p ds r n :
  history input (es ++ [e]) p -> boundary (e_ev e) = true ->
  map t_tok (p_in p) = repeat TDocEnd n ++ ds ++ TDocStart :: r -> (n = O \/ exists i, e_ev e = EDocEnd i) ->
  Forall (fun t => is_directive t = true) ds -> (forall v dirs, ~ directives ds v dirs) ->
  exists p', parse p = PFail p'.
Proof. exact (invalid_directives input es e p ds r n). Qed.
Print Assumptions C26_invalid_rejected.
(* two %YAML directives meet the hypotheses *)
Example C26_nonvacuous : (forall v dirs, ~ directives [TVersion 1 1; TVersion 1 1] v dirs) /\
  exists p e, history (map tk [TStreamStart Utf8Enc; TVersion 1 1; TVersion 1 1; TDocStart; TStreamEnd]) ([] ++ [e]) p /\ boundary (e_ev e) = true /\
    map t_tok (p_in p) = repeat TDocEnd 0 ++ [TVersion 1 1; TVersion 1 1] ++ TDocStart :: [TStreamEnd].
Proof.
  split; [intros v dirs (_ & H & _); destruct v; discriminate|].
  do 2 eexists. split; [eapply H_call; [apply H_start|vm_compute; reflexivity]|]. split; reflexivity.
Qed.

(* C27: after STREAM-END or an error a call succeeds with no event and changes
   nothing. *)
Theorem C27_after_end input es e p : history input (es ++ [e]) p -> e_ev e = EStreamEnd -> parse p = PNothing p.
Proof. exact (history_last input es e p). Qed.
Print Assumptions C27_after_end.
Theorem C27_after_error input es p p' : history input es p -> parse p = PFail p' -> parse p' = PNothing p'.
Proof.
  intros H E. pose proof (history_next input es p H) as K. rewrite E in K. exact (proj2 K).
Qed.
Print Assumptions C27_after_error.
Example C27_nonvacuous : exists p, parse (init_parser [tk TValue]) = PFail p.
Proof. eexists. vm_compute. reflexivity. Qed.
