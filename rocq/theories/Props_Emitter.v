(* Properties C35, C36 and C47: the emitter's state machine and queue (emitter.c).  Statements only. *)
From Verif Require Import Base Utf8Spec ReaderModel CharSpec Types TreeSpec WriterModel WriterSpec PenModel EmitModel EmitSpec EmitInv EmitLoop EmitSettings.

(* {a: [b, *x], : &x c} *)
Definition word (c : N) (a : option (list N)) : ev := EScalar a None [c] true false Plain.
Definition small_doc : list ev :=
  [EDocStart (Some (1, 1)) [([33;101;33], [116;97;103;58])] false; EMapStart None None true BlockColl; word 97 None;
   ESeqStart None (Some [116;97;103;58;120]) false FlowColl; word 98 None; EAlias [120]; ESeqEnd;
   EScalar None None [] true true Plain; word 99 (Some [120]); EMapEnd; EDocEnd true].
Definition small_stream : list ev := EStreamStart AnyEnc :: small_doc ++ [EStreamEnd].
Definition any_cfg : cfg := fold_left apply_setting [SetIndent 4; SetCanonical 0; SetWidth 40] init_cfg.
Example small_well_formed : well_formed small_stream.
Proof.
  exists (mkStreamTree AnyEnc [mkDocTree (Some (1, 1)) [([33;101;33], [116;97;103;58])] false
    (Mapping None None true BlockColl
      [(Scalar None None [97] true false Plain, Sequence None (Some [116;97;103;58;120]) false FlowColl [Scalar None None [98] true false Plain; Alias [120]]);
       (Scalar None None [] true true Plain, Scalar (Some [120]) None [99] true false Plain)]) true]). reflexivity.
Qed.
Example small_valid : Forall (valid_event (g_canonical any_cfg)) small_stream.
Proof.
  assert (A : valid_anchor [120]) by (split; [discriminate|repeat constructor]).
  assert (N : forall u : Prop, valid_props None None u) by (intros u; split; [intros ? E; discriminate E|intros _ E; discriminate E]).
  unfold small_stream, small_doc, word.
  repeat (apply Forall_cons || apply Forall_nil); try exact I; try exact A; try apply N; try (split; [apply N|left; reflexivity]).
  - split; [intros ? ? E; injection E as <- <-; auto|]. split; [|constructor; [intros []|constructor]].
    constructor; [|constructor]. split; [|discriminate]. right. exists [101]. split; [reflexivity|repeat constructor].
  - split; [intros ? E; discriminate E|intros _ E; discriminate E].
  - split; [|left; reflexivity]. split; [intros ? E; injection E as <-; exact A|intros _ E; discriminate E].
Qed.

(* C35: whatever sequence of events the emitter is given, either every call
   succeeds, and the events taken from the queue so far are the beginning of a
   well-formed stream with valid contents; or a call fails, and then the first event
   left in the queue does not continue the well-formed beginning taken before it, or
   is invalid itself.  EBad is the popping of an empty stack. *)
Theorem C35_accepts g es :
  match emit_all (init_emitter g) es with
  | EOk m => exists done, es = done ++ m_events m /\ well_formed_prefix done /\ Forall (valid_event (g_canonical g)) done
  | EErr _ m => exists done e q later, es = done ++ (e :: q) ++ later /\ m_events m = e :: q /\
      well_formed_prefix done /\ Forall (valid_event (g_canonical g)) done /\
      (~ well_formed_prefix (done ++ [e]) \/ ~ valid_event (g_canonical g) e)
  | EBad => False
  end.
Proof. exact (emitter_accepts g es). Qed.
Print Assumptions C35_accepts.
Theorem C35_complete g es : well_formed_prefix es -> Forall (valid_event (g_canonical g)) es -> exists m, emit_all (init_emitter g) es = EOk m.
Proof. exact (emitter_complete g es). Qed.
Print Assumptions C35_complete.
Example C35_meets : exists m, emit_all (init_emitter any_cfg) small_stream = EOk m.
Proof. apply C35_complete; [exists []; rewrite app_nil_r; exact small_well_formed|exact small_valid]. Qed.
Example C35_rejects : exists x m, emit_all (init_emitter any_cfg) [EStreamStart AnyEnc; EDocStart None [] true; EAlias [120]; word 97 None] = EErr x m.
Proof. eexists _, _. vm_compute. reflexivity. Qed.

(* C36: C35 says that the events taken and those in the queue are, in this order,
   the events given.  Those that remain in the queue after a call start with an
   event that opens something; there are at most 1, 2 or 3 of them, and they contain
   no complete node. *)
Theorem C36_waiting g es m : emit_all (init_emitter g) es = EOk m ->
  match m_events m with
  | [] => True
  | e :: q =>
      (exists n, match e with EDocStart _ _ _ => Some 0%nat | ESeqStart _ _ _ _ => Some 1%nat | EMapStart _ _ _ _ => Some 2%nat | _ => None end = Some n
                 /\ (length q <= n)%nat) /\
      forall t r, m_events m <> events_of t ++ r
  end.
Proof. exact (emitter_lookahead g es m). Qed.
Print Assumptions C36_waiting.
(* Nothing is left at the end. *)
Theorem C36_finishes g es : well_formed es -> Forall (valid_event (g_canonical g)) es ->
  exists m, emit_all (init_emitter g) es = EOk m /\ m_events m = [] /\ m_state m = EndState.
Proof. exact (emitter_finishes g es). Qed.
Print Assumptions C36_finishes.
Example C36_meets : exists m, emit_all (init_emitter any_cfg) small_stream = EOk m /\ m_events m = [] /\ m_state m = EndState.
Proof. exact (C36_finishes _ _ small_well_formed small_valid). Qed.
Example C36_waits : exists m, emit_all (init_emitter any_cfg) (firstn 5 small_stream) = EOk m /\ length (m_events m) = 3%nat.
Proof. eexists. split; vm_compute; reflexivity. Qed.

(* C47: after the first event the settings are within their limits, whatever was
   requested ... *)
Theorem C47_settings ss enc :
  exists m, emit_event (init_emitter (fold_left apply_setting ss init_cfg)) (EStreamStart enc) = EOk m /\
    (2 <= g_indent (m_cfg m) <= 9)%Z /\ (2 * g_indent (m_cfg m) < g_width (m_cfg m))%Z /\
    g_encoding (m_cfg m) <> AnyEnc /\ g_break (m_cfg m) <> AnyBreak.
Proof. exact (settings_normalised ss enc). Qed.
Print Assumptions C47_settings.
(* ... and are those requested if these are within the limits; a negative width is
   no limit. *)
Theorem C47_kept ss i w e b enc : (2 <= i <= 9)%Z -> (2 * i < w)%Z -> e <> AnyEnc -> b <> AnyBreak ->
  exists m, emit_event (init_emitter (fold_left apply_setting (ss ++ [SetIndent i; SetWidth w; SetEncoding e; SetBreak b]) init_cfg)) (EStreamStart enc) = EOk m /\
    g_indent (m_cfg m) = i /\ g_width (m_cfg m) = w /\ g_encoding (m_cfg m) = e /\ g_break (m_cfg m) = b.
Proof. exact (settings_kept ss i w e b enc). Qed.
Print Assumptions C47_kept.
Theorem C47_unlimited ss w enc : (w < 0)%Z ->
  exists m, emit_event (init_emitter (fold_left apply_setting (ss ++ [SetWidth w]) init_cfg)) (EStreamStart enc) = EOk m /\ g_width (m_cfg m) = 2147483647%Z.
Proof. exact (unlimited_width ss w enc). Qed.
Print Assumptions C47_unlimited.
Example C47_meets : exists m, emit_event (init_emitter (fold_left apply_setting [SetIndent 40; SetWidth 3] init_cfg)) (EStreamStart AnyEnc) = EOk m
  /\ g_indent (m_cfg m) = 2%Z /\ g_width (m_cfg m) = 80%Z.
Proof. eexists. repeat split; vm_compute; reflexivity. Qed.
