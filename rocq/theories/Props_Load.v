(* Property C53: documents are dumped, written, read and loaded back.  Statements only. *)
From Verif Require Import Base ReaderModel ReaderSpec Utf8Spec Types TreeSpec GrammarSpec DocModel DocSpec WriterModel WriterSpec PenModel EmitModel EmitIOModel EmitSpec RoundSpec AgreeSpec LoaderSpec DumperModel DumperSpec TripSpec LoadSpec LoadTrip.

(* C53: if documents are given to yaml_emitter_dump, one after the other, and then the
   stream is closed, and all calls succeed and the write handler accepts everything, then
   yaml_parser_load on the bytes written gives as many documents, and each is isomorphic
   to the part of the original that its root reaches, in UTF-8: the same directives, kinds,
   tags ("!" stands for the default), values, children in the same order, and the
   same sharing of nodes, including cycles. *)
Theorem C53_documents plan fuel sink g ds s e s' m w nest :
  dumps fuel (init_dumper sink) ds s -> Forall (fun d => d_nodes d <> []) ds -> d_nodes e = [] -> dump fuel s e = DOk s' ->
  emit_io plan g (dm_log s') = IOk m w -> nlen (accepted w) < MAX_FILE_SIZE -> (0 < nest <= 2147483647)%Z ->
  Forall (writable (g_canonical g) (g_indent (m_cfg m)) (g_width (m_cfg m)) nest) ds -> (forall d r, ds = d :: r -> ~ invisible_doc (g_canonical g) d) ->
  exists ds', loaded_as nest (accepted w) ds' /\
    Forall2 (fun d d' => exists f, isomorphic (scalar_style_read (g_canonical g)) (coll_styles (g_canonical g)) f (utf8_doc d) d') ds ds'.
Proof. exact (document_trip plan fuel sink g ds s e s' m w nest). Qed.
Print Assumptions C53_documents.
(* what bytes are loaded as is unique *)
Theorem C53_unique nest input ds ds' : loaded_as nest input ds -> loaded_as nest input ds' -> ds = ds'.
Proof. exact (loaded_unique nest input ds ds'). Qed.
Print Assumptions C53_unique.

(* &id001 [&id002 !t é, *id001, {*id002: *id001}, y] and --- "z" *)
Definition shared : document :=
  mkDoc [mkNode default_sequence_tag (NSequence [2;1;3;4]%nat FlowColl);
         mkNode [33;116] (NScalar [0xE9] Plain);
         mkNode default_mapping_tag (NMapping [(2,1)]%nat FlowColl);
         mkNode default_scalar_tag (NScalar [121] Plain)] None [] true true.
Definition single : document := mkDoc [mkNode default_scalar_tag (NScalar [122] DoubleQuoted)] None [] true true.
Definition nothing : document := mkDoc [] None [] true true.
Example shared_closed : closed shared.
Proof.
  intros i n c E I.
  do 5 (destruct i as [|i]; [cbn in E; inversion E; subst; cbn in I; repeat (destruct I as [<-|I]; [eexists; reflexivity|]); destruct I|]).
  destruct i; discriminate.
Qed.
Example single_closed : closed single.
Proof. intros i n c E I. do 2 (destruct i as [|i]; [cbn in E; inversion E; subst; cbn in I; destruct I|]). destruct i; discriminate. Qed.
Lemma sample_tag : nice_tag (env_of []) [33; 116].
Proof.
  split; [repeat constructor; unfold scalar_value; lia|]. split; [cbn; intros H; repeat (destruct H as [H|H]; [discriminate|]); exact H|].
  intros x (l1 & h & p & l2 & _ & E & _). assert (K : forall c, In c x -> In c [33; 116]) by (intros c H; rewrite E; apply in_or_app; auto).
  repeat split; intros H; apply K in H; cbn in H; repeat (destruct H as [H|H]; [discriminate|]); exact H.
Qed.
Example sample_writable step width : Forall (writable false step width 1000) [shared; single].
Proof.
  constructor; [|constructor; [|constructor]].
  - split; [split; [constructor|repeat constructor; unfold scalar_value; cbn; lia]|]. split; [constructor|]. exists 4%nat. split; [exact (nested_nodes shared)|]. split; [lia|]. split; [lia|].
    intros i n _ E. do 5 (destruct i as [|i]; [cbn in E; inversion E; subst; (split; [intros [X|X]; [discriminate X|first [exact sample_tag|contradiction X; reflexivity]]|exact I])|]). destruct i; discriminate.
  - split; [split; [constructor|repeat constructor; unfold scalar_value; cbn; lia]|]. split; [constructor|]. exists 1%nat. split; [exact (nested_nodes single)|]. split; [lia|]. split; [lia|].
    intros i n _ E. do 2 (destruct i as [|i]; [cbn in E; inversion E; subst; (split; [intros [X|X]; [discriminate X|contradiction X; reflexivity]|exact I])|]). destruct i; discriminate.
Qed.
Definition log2 : list ev := Eval vm_compute in match dump 5 (init_dumper []) shared with DOk s => match dump 5 s single with DOk s => dm_log s | _ => [] end | _ => [] end.
Definition after2 : dumper := mkDumper true false [] 0 log2 [].
Example C53_meets : exists m w ds', emit_io [] init_cfg (log2 ++ [EStreamEnd]) = IOk m w /\ loaded_as 1000 (accepted w) ds' /\
  Forall2 (fun d d' => exists f, isomorphic (scalar_style_read false) (coll_styles false) f (utf8_doc d) d') [shared; single] ds'.
Proof.
  assert (D : dumps 5 (init_dumper []) ([shared] ++ [single]) after2).
  { apply (DS_call _ _ [shared] (mkDumper true false [] 0 (firstn 12 log2) [])); [|exact single_closed|cbn; lia|vm_compute; reflexivity].
    apply (DS_call _ _ [] (init_dumper [])); [constructor|exact shared_closed|cbn; lia|vm_compute; reflexivity]. }
  destruct (emit_io [] init_cfg (log2 ++ [EStreamEnd])) as [m w|x m w|w|] eqn:E; [|vm_compute in E; discriminate E..].
  assert (L : nlen (accepted w) < MAX_FILE_SIZE) by (vm_compute in E; injection E as <- <-; vm_compute; reflexivity).
  destruct (C53_documents [] 5 [] init_cfg [shared; single] after2 nothing (mkDumper true true [] 0 (log2 ++ [EStreamEnd]) []) m w 1000 D) as (ds' & A & B).
  - repeat constructor; discriminate.
  - reflexivity.
  - vm_compute. reflexivity.
  - exact E.
  - exact L.
  - lia.
  - apply sample_writable.
  - intros d r X (_ & _ & _ & _ & s & Y & _). injection X as <- <-. discriminate Y.
  - exists m, w, ds'. auto.
Qed.
