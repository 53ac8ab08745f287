(* Properties C32-C34: the dumper (dumper.c).  Statements only.
   [length (d_nodes d) < fuel]: the recursion of the model is given more levels than
   the document has nodes; C32 shows that this is enough. *)
From Verif Require Import Base ReaderModel Types TreeSpec DocModel DocSpec ParserModel ParserSpec LoaderModel LoaderSpec DumperModel DumperSpec DumperFinal.

(* &id001 [&id002 x, *id001, {*id002: *id001}, y] and an unreachable node *)
Definition cyclic : document :=
  mkDoc [mkNode default_sequence_tag (NSequence [2;1;3;5]%nat FlowColl);
         mkNode [33;116] (NScalar [120] Plain);
         mkNode default_mapping_tag (NMapping [(2,1)]%nat FlowColl);
         mkNode default_mapping_tag (NMapping [(2,4)]%nat FlowColl);
         mkNode default_scalar_tag (NScalar [121] Plain)] None [] false true.
Definition no_doc : document := mkDoc [] None [] true true.
Definition id1 : list N := [105;100;48;48;49].
Definition id2 : list N := [105;100;48;48;50].
Definition logged (r : dres) : list ev := match r with DOk s | DFail s => dm_log s | _ => [] end.
Example cyclic_closed : closed cyclic.
Proof.
  intros i n c E I.
  do 6 (destruct i as [|i]; [cbn in E; inversion E; subst; cbn in I; repeat (destruct I as [<-|I]; [eexists; reflexivity|]); destruct I|]).
  destruct i; discriminate.
Qed.
Example cyclic_dumped : logged (dump 6 (init_dumper []) cyclic) =
  [EStreamStart AnyEnc; EDocStart None [] false; ESeqStart (Some id1) (Some default_sequence_tag) true FlowColl;
   EScalar (Some id2) (Some [33;116]) [120] false false Plain; EAlias id1;
   EMapStart None (Some default_mapping_tag) true FlowColl; EAlias id2; EAlias id1; EMapEnd;
   EScalar None (Some default_scalar_tag) [121] true true Plain; ESeqEnd; EDocEnd true].
Proof. vm_compute. reflexivity. Qed.

(* C32: whatever happened before, dumping a document returns; if it succeeds, the
   events emitted are those of one document that serialises each reachable node
   exactly once, with aliases for its later occurrences, and no other node; if the
   emitter fails, the events accepted before are a part of these. *)
Theorem C32_dump fuel sink ds s d :
  dump_calls fuel (init_dumper sink) ds s -> closed d -> (length (d_nodes d) < fuel)%nat -> d_nodes d <> [] ->
  exists dt, dumped d dt /\
    match dump fuel s d with
    | DOk s' => dm_log s' = dm_log s ++ opening (dm_opened s) ++ doc_events dt
    | DFail s' => exists done, is_prefix done (opening (dm_opened s) ++ doc_events dt) /\ dm_log s' = dm_log s ++ done
    | _ => False
    end.
Proof. exact (dump_node_cases fuel sink ds s d). Qed.
Print Assumptions C32_dump.
(* A document without nodes ends the stream. *)
Theorem C32_dump_empty fuel sink ds s d :
  dump_calls fuel (init_dumper sink) ds s -> d_nodes d = [] ->
  let es := opening (dm_opened s) ++ if dm_closed s then [] else [EStreamEnd] in
  match dump fuel s d with
  | DOk s' => dm_log s' = dm_log s ++ es /\ dm_closed s' = true
  | DFail s' => exists done, is_prefix done es /\ dm_log s' = dm_log s ++ done
  | _ => False
  end.
Proof. exact (dump_empty_cases fuel sink ds s d). Qed.
Print Assumptions C32_dump_empty.
(* So any number of documents and then one without nodes gives one well-formed stream. *)
Theorem C32_stream fuel sink ds s d s' :
  dumps fuel (init_dumper sink) ds s -> Forall (fun d => d_nodes d <> []) ds -> d_nodes d = [] -> dump fuel s d = DOk s' ->
  exists ts, dm_log s' = stream_events (mkStreamTree AnyEnc ts) /\ Forall2 dumped ds ts.
Proof. exact (dumps_whole fuel sink ds s d s'). Qed.
Print Assumptions C32_stream.
Example C32_nonvacuous : exists s s', dumps 6 (init_dumper []) [cyclic; cyclic] s /\ dump 6 s no_doc = DOk s' /\ length (dm_log s') = 24%nat.
Proof.
  do 2 eexists. split; [|split].
  - apply (DS_call _ _ [cyclic] (mkDumper true false [] 0 (logged (dump 6 (init_dumper []) cyclic)) [])); [|exact cyclic_closed|cbn; lia|vm_compute; reflexivity].
    apply (DS_call _ _ [] (init_dumper [])); [constructor|exact cyclic_closed|cbn; lia|vm_compute; reflexivity].
  - vm_compute. reflexivity.
  - reflexivity.
Qed.
(* the emitter failing on the fifth call *)
Example C32_failing : length (logged (dump 6 (init_dumper [true; true; true; true; false]) cyclic)) = 4%nat.
Proof. vm_compute. reflexivity. Qed.

(* C33: anchors are given exactly to the nodes referred to more than once (as the
   root or by the reachable nodes, which are serialised once each by C32), and
   differ from each other; every alias comes after its anchor, and no anchor is
   declared twice ([well_scoped]). *)
Theorem C33_anchors fuel sink ds s d s' :
  dump_calls fuel (init_dumper sink) ds s -> closed d -> (length (d_nodes d) < fuel)%nat -> d_nodes d <> [] -> dump fuel s d = DOk s' ->
  exists dt o name, dm_log s' = dm_log s ++ opening (dm_opened s) ++ doc_events dt /\ occ_id o = 1%nat /\ presents d name o (dt_root dt) /\
    (forall i, reachable d i -> (name i <> None <-> (1 < references d (nodes_of (occurrences o)) i)%nat)) /\
    (forall i j a, name i = Some a -> name j = Some a -> i = j) /\ well_scoped (events_of (dt_root dt)).
Proof. exact (dump_anchors fuel sink ds s d s'). Qed.
Print Assumptions C33_anchors.
(* The text of an anchor is different for different numbers, and it fits the 16
   bytes allocated for it, with the terminating zero. *)
Theorem C33_anchor_text i j : generate_anchor i = generate_anchor j -> i = j.
Proof. exact (generate_inj i j). Qed.
Print Assumptions C33_anchor_text.
Theorem C33_anchor_fits i : N.of_nat i < 2 ^ 31 -> (length (generate_anchor i) < 16)%nat.
Proof. exact (generate_length i). Qed.
Print Assumptions C33_anchor_fits.
Example C33_nonvacuous : dump_calls 6 (init_dumper []) [] (init_dumper []) /\ closed cyclic /\ exists s', dump 6 (init_dumper []) cyclic = DOk s'.
Proof. split; [constructor|]. split; [exact cyclic_closed|]. eexists. vm_compute. reflexivity. Qed.
Example C33_text : generate_anchor 7 = [105;100;48;48;55] /\ generate_anchor 1234 = [105;100;49;50;51;52].
Proof. vm_compute. auto. Qed.

(* C34: the events of one dumped document, read back by the loader, give a document
   isomorphic to the part of the original that the root reaches. *)
Theorem C34_dump_load fuel sink ds s d :
  dump_calls fuel (init_dumper sink) ds s -> closed d -> (length (d_nodes d) < fuel)%nat -> d_nodes d <> [] ->
  forall s', dump fuel s d = DOk s' -> exists written, dm_log s' = dm_log s ++ opening (dm_opened s) ++ written /\
    forall ss cs fuel' input ds' l es q, (4 * length input < fuel')%nat -> load_history fuel' input ds' l ->
      reading l es q -> Forall2 (same_event ss cs) written (map e_ev es) ->
      exists d' f, load fuel' l = LDocument d' (mkLoader q true) /\ isomorphic ss cs f d d'.
Proof. exact (dump_load fuel sink ds s d). Qed.
Print Assumptions C34_dump_load.
(* the tokens of --- &id001 [&id002 !t x, *id001, {*id002: *id001}, y] *)
Definition tk2 (t : tok) : token := mkToken t (mkMark 0 0 0) (mkMark 0 0 0) false.
Definition written_tokens : list token := map tk2
  [TStreamStart Utf8Enc; TDocStart; TAnchor id1; TFlowSeqStart; TAnchor id2; TTag [33] [116]; TScalar [120] Plain; TFlowEntry; TAlias id1; TFlowEntry;
   TFlowMapStart; TKey; TAlias id2; TValue; TAlias id1; TFlowMapEnd; TFlowEntry; TScalar [121] Plain; TFlowSeqEnd; TStreamEnd].
Definition started : parser := Eval vm_compute in snd (next_events 1 (init_parser written_tokens)).
Definition written_events : list event := Eval vm_compute in fst (next_events 11 started).
Example C34_nonvacuous : reading (init_loader written_tokens) written_events (snd (next_events 11 started)) /\
  Forall2 (same_event eq eq) (tl (logged (dump 6 (init_dumper []) cyclic))) (map e_ev written_events).
Proof.
  split.
  - right. split; [reflexivity|]. exists (mkEvent (EStreamStart Utf8Enc) (mkMark 0 0 0) (mkMark 0 0 0)), Utf8Enc, started.
    split; [vm_compute; reflexivity|]. split; [reflexivity|]. exact (next_yields 11 started).
  - rewrite cyclic_dumped. cbn [tl written_events map e_ev]. repeat (constructor; [constructor; reflexivity|]). constructor.
Qed.
