(* Keys written by the emitter. *)
From Verif Require Import Base Utf8Spec ReaderModel CharSpec Types TreeSpec EmitSpec WriterModel PenModel EmitModel RoundSpec KeySpec KeyText.

(* C43.  Whenever the emitter writes the node [k], the key of a pair of a block or flow
   mapping, so that its ":" follows without "?" before, the text written for it - after the
   "{" or "," and white space before - is on one line and shorter than 1024 characters. *)
Theorem C43_simple_keys g es m0 k m1 :
  takes (init_emitter g) es m0 -> before_key (m_state m0) = true ->
  Forall text_event (events_of k) -> takes m0 (events_of k) m1 -> after_simple_key (m_state m1) = true ->
  exists o white w, written (m_pen m1) = written (m_pen m0) ++ o ++ white ++ w /\ opening (m_state m0) o /\ white_text white /\ key_text w.
Proof. apply simple_key_text. Qed.
Print Assumptions C43_simple_keys.

(* [takes] covers what yaml_emitter_emit does. *)
Theorem C43_runs g es m : emit_all (init_emitter g) es = EOk m -> exists handled, takes (init_emitter g) handled m /\ es = handled ++ m_events m.
Proof. intros H. apply emitted_takes in H as (d & T & E). exists d. split; [exact T|exact E]. Qed.
Print Assumptions C43_runs.

(* "a b" and an empty sequence with an anchor and a tag as keys in a block mapping, a quoted key
   in a flow mapping *)
Definition cfg0 : cfg := mkCfg AnyEnc false 2 80 false AnyBreak.
Definition sc (s : list N) (st : sstyle) : ev := EScalar None None s true true st.
Definition the_key (e : ev) : tree := match e with EScalar a t v pi qi s => Scalar a t v pi qi s | ESeqStart a t i s => Sequence a t i s [] | _ => Alias [] end.
Definition before_after (es : list ev) (n : nat) (k : tree) (text : list N) : Prop :=
  exists m0 m1, takes (init_emitter cfg0) (firstn n es) m0 /\ before_key (m_state m0) = true /\ Forall text_event (events_of k) /\ takes m0 (events_of k) m1 /\
    after_simple_key (m_state m1) = true /\ written (m_pen m1) = text.
Lemma computed_key es n k text m0 m1 : emit_loop n (set_events (init_emitter cfg0) es) = EOk m0 -> emit_loop (length (events_of k)) m0 = EOk m1 ->
  (firstn (length es - length (m_events m0)) es = firstn n es /\ firstn (length (m_events m0) - length (m_events m1)) (m_events m0) = events_of k) ->
  before_key (m_state m0) = true /\ after_simple_key (m_state m1) = true /\ written (m_pen m1) = text -> Forall text_event (events_of k) -> before_after es n k text.
Proof.
  intros E0 E1 [F0 F1] (B & A & W) T. apply computed_takes in E0, E1. cbn [set_events m_events] in E0. rewrite F0 in E0. rewrite F1 in E1. exists m0, m1.
  split; [exact (takes_trans _ [] _ _ _ (all_given cfg0 es) E0)|]. auto.
Qed.
Definition stream1 : list ev := [EStreamStart Utf8Enc; EDocStart None [] true; EMapStart None None true BlockColl; sc [97;32;98] Plain; sc [99] Plain;
  ESeqStart (Some [120]) (Some [33;116]) false BlockColl; ESeqEnd; EMapStart None None true FlowColl; sc [33] Plain; sc [100] Plain; EMapEnd; EMapEnd].
Ltac key := eapply computed_key; [vm_compute; reflexivity|vm_compute; reflexivity|split; reflexivity|repeat split; vm_compute; reflexivity|repeat constructor; unfold text, scalar_value; repeat constructor; lia].
(* a b *)
Example C43_plain : before_after stream1 3 (the_key (sc [97;32;98] Plain)) [97;32;98].
Proof. key. Qed.
(* a b: c / &x !t [] *)
Example C43_empty_sequence : before_after stream1 5 (the_key (ESeqStart (Some [120]) (Some [33;116]) false BlockColl)) ([97;32;98;58;32;99] ++ [10] ++ [38;120;32;33;116;32;91;93]).
Proof. key. Qed.
(* a b: c / &x !t []: {'!' *)
Example C43_flow : before_after stream1 8 (the_key (sc [33] Plain)) ([97;32;98;58;32;99] ++ [10] ++ [38;120;32;33;116;32;91;93] ++ [58;32;123] ++ [39;33;39]).
Proof. key. Qed.
