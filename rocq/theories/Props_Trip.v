(* Properties C45, C46 and C52: what is emitted is parsed back.  Statements only. *)
From Verif Require Import Base Utf8Spec ReaderModel ReaderSpec CharSpec Types TreeSpec GrammarSpec WriterModel WriterSpec PenModel EmitModel EmitIOModel EmitSpec RoundSpec AgreeSpec TripSpec DocTrip.

(* Two documents:
     %TAG !e! tag:e.org:
     ---
     &a x: !e!t
     - 'a: b'
     - *a
     - |
       l
       m
     ? [y]
     : {}
     --- "é" *)
Definition sample_tag : list N := [116; 97; 103; 58; 101; 46; 111; 114; 103; 58; 116]. (* tag:e.org:t *)
Definition plain (v : list N) : tree := Scalar None None v true true AnyScalar.
Definition sample_docs : list doc_tree :=
  [mkDocTree None [([0x21; 101; 0x21], [116; 97; 103; 58; 101; 46; 111; 114; 103; 58])] true
     (Mapping None None true BlockColl
        [(Scalar (Some [97]) None [120] true true AnyScalar,
          Sequence None (Some sample_tag) false BlockColl [plain [97; 58; 32; 98]; Alias [97]; Scalar None None [108; 10; 109; 10] false true Literal]);
         (Sequence None None true FlowColl [plain [121]], Mapping None None true BlockColl [])]) true;
   mkDocTree None [] true (plain [0xE9]) true].
Definition sample_stream : stream_tree := mkStreamTree AnyEnc sample_docs.
Example sample_text : Forall text_event (stream_events sample_stream).
Proof. repeat (apply Forall_cons || apply Forall_nil); cbn; unfold otext, text; repeat (split || constructor); unfold scalar_value; cbn; lia. Qed.
Lemma sample_tag_nice : nice_tag (env_of [([0x21; 101; 0x21], [116; 97; 103; 58; 101; 46; 111; 114; 103; 58])]) sample_tag.
Proof.
  split; [repeat constructor; unfold scalar_value; lia|]. split; [cbn; intros H; repeat (destruct H as [H|H]; [discriminate|]); exact H|].
  intros x (l1 & h & p & l2 & _ & E & _). assert (K : forall c, In c x -> In c sample_tag) by (intros c H; rewrite E; apply in_or_app; auto).
  repeat split; intros H; apply K in H; cbn in H; repeat (destruct H as [H|H]; [discriminate|]); exact H.
Qed.
Example sample_nice c step width : Forall (doc_nice c step width) sample_docs.
Proof.
  repeat (apply Forall_cons || apply Forall_nil); (split; [repeat constructor; cbn; unfold scalar_value; try lia; intros H; repeat (destruct H as [H|H]; [discriminate|]); exact H|]);
    cbn [dt_root dt_tags events_of flat_map app plain]; repeat (apply Forall_cons || apply Forall_nil); cbn [nice]; try exact I;
    try (split; [intros _ t X; discriminate X|split; [repeat constructor; unfold scalar_value; lia|discriminate]]); intros _ t X; try discriminate X.
  injection X as <-. exact sample_tag_nice.
Qed.
Example sample_shallow : Forall (shallow 1000) sample_docs.
Proof. repeat constructor; cbn; lia. Qed.

(* C52: whatever the settings, if a complete stream has been emitted and the write handler has
   accepted it, the bytes accepted are parsed to the same documents. *)
Theorem C52_round_trip plan g s m w nest :
  Forall text_event (stream_events s) -> emit_io plan g (stream_events s) = IOk m w -> nlen (accepted w) < MAX_FILE_SIZE ->
  Forall (doc_nice (g_canonical g) (g_indent (m_cfg m)) (g_width (m_cfg m))) (st_docs s) ->
  (forall d r, st_docs s = d :: r -> ~ invisible (g_canonical g) d) ->
  (0 < nest <= 2147483647)%Z -> Forall (shallow nest) (st_docs s) ->
  exists ds, Forall2 (doc_agrees (g_canonical g)) (st_docs s) ds /\
    parsed_as nest (accepted w) (g_encoding (m_cfg m)) (stream_events (mkStreamTree (g_encoding (m_cfg m)) ds)).
Proof. exact (byte_trip plan g s m w nest). Qed.
Print Assumptions C52_round_trip.
(* what bytes are parsed to is unique *)
Theorem C52_unique nest input enc enc' es es' : parsed_as nest input enc es -> parsed_as nest input enc' es' -> enc = enc' /\ es = es'.
Proof. exact (parsed_unique nest input enc enc' es es'). Qed.
Print Assumptions C52_unique.
Example C52_meets : exists m w ds, emit_io [] init_cfg (stream_events sample_stream) = IOk m w /\
  Forall2 (doc_agrees false) sample_docs ds /\ parsed_as 1000 (accepted w) Utf8Enc (stream_events (mkStreamTree Utf8Enc ds)).
Proof.
  destruct (emit_io [] init_cfg (stream_events sample_stream)) as [m w|x m w|w|] eqn:E.
  - assert (L : nlen (accepted w) < MAX_FILE_SIZE /\ g_encoding (m_cfg m) = Utf8Enc) by (vm_compute in E; injection E as <- <-; vm_compute; split; reflexivity).
    destruct L as [L G].
    destruct (C52_round_trip [] init_cfg sample_stream m w 1000 sample_text E L) as (ds & A & P).
    + apply sample_nice.
    + intros d r X (_ & _ & _ & T & _). injection X as <- <-. discriminate T.
    + lia.
    + exact sample_shallow.
    + exists m, w, ds. split; [reflexivity|]. split; [exact A|]. rewrite G in P. exact P.
  - vm_compute in E. discriminate E.
  - vm_compute in E. discriminate E.
  - vm_compute in E. discriminate E.
Qed.

(* C45: the bytes are parsed to as many documents as were emitted. *)
Definition documents (es : list ev) : nat := length (filter (fun e => match e with EDocStart _ _ _ => true | _ => false end) es).
Theorem C45_no_document_lost plan g s m w nest :
  Forall text_event (stream_events s) -> emit_io plan g (stream_events s) = IOk m w -> nlen (accepted w) < MAX_FILE_SIZE ->
  Forall (doc_nice (g_canonical g) (g_indent (m_cfg m)) (g_width (m_cfg m))) (st_docs s) ->
  (forall d r, st_docs s = d :: r -> ~ invisible (g_canonical g) d) ->
  (0 < nest <= 2147483647)%Z -> Forall (shallow nest) (st_docs s) ->
  exists es, parsed_as nest (accepted w) (g_encoding (m_cfg m)) es /\ documents es = length (st_docs s) /\ documents (stream_events s) = length (st_docs s).
Proof. exact (documents_kept plan g s m w nest). Qed.
Print Assumptions C45_no_document_lost.
(* Not so for a first document without "---" whose root is an empty plain scalar: nothing is
   written for it. *)
Theorem C45_refuted : exists s m w, Forall text_event (stream_events s) /\ length (st_docs s) = 1%nat /\ emit_io [] init_cfg (stream_events s) = IOk m w /\
  forall enc es, parsed_as 1000 (accepted w) enc es -> documents es = 0%nat.
Proof.
  set (s := mkStreamTree AnyEnc [mkDocTree None [] true (plain []) true]).
  destruct (emit_io [] init_cfg (stream_events s)) as [m w|x m w|w|] eqn:E; try (vm_compute in E; discriminate E).
  assert (A : accepted w = [10]) by (vm_compute in E; injection E as <- <-; vm_compute; reflexivity).
  exists s, m, w. split; [|split; [reflexivity|split; [exact E|]]].
  - repeat (apply Forall_cons || apply Forall_nil); cbn; unfold otext, text; repeat (split || constructor).
  - intros enc es P. rewrite A in P. destruct (parsed_delivers 1000 [10] enc Utf8Enc es [10] P ltac:(vm_compute; reflexivity)) as [-> D].
    rewrite (delivers_unique _ _ _ _ _ D (computed Utf8Enc 1000 [10] 5 [EStreamStart Utf8Enc; EStreamEnd] ltac:(vm_compute; reflexivity))). reflexivity.
Qed.
Print Assumptions C45_refuted.
Example C45_meets : exists m w es, emit_io [] init_cfg (stream_events sample_stream) = IOk m w /\ parsed_as 1000 (accepted w) Utf8Enc es /\ documents es = 2%nat.
Proof.
  destruct C52_meets as (m & w & ds & E & A & P). exists m, w, (stream_events (mkStreamTree Utf8Enc ds)). split; [exact E|]. split; [exact P|].
  inversion A as [|? d1 ? r1 A1 F1]; subst. inversion F1 as [|? d2 ? r2 A2 F2]; subst. inversion F2; subst. exact (documents_events Utf8Enc [d1; d2]).
Qed.

(* C46: in canonical mode everything is kept but the styles and the implicit flags; every scalar is
   double quoted, every collection is in flow style, every document starts with "---".
   The tag "!" is added to scalars without a tag that are not implicit when quoted. *)
Theorem C46_canonical plan g s m w nest :
  g_canonical g = true -> Forall text_event (stream_events s) -> emit_io plan g (stream_events s) = IOk m w -> nlen (accepted w) < MAX_FILE_SIZE ->
  Forall (doc_nice true 0 0) (st_docs s) -> (0 < nest <= 2147483647)%Z -> Forall (shallow nest) (st_docs s) ->
  exists ds, Forall2 canonical_doc (st_docs s) ds /\
    parsed_as nest (accepted w) (g_encoding (m_cfg m)) (stream_events (mkStreamTree (g_encoding (m_cfg m)) ds)).
Proof. exact (canonical_trip plan g s m w nest). Qed.
Print Assumptions C46_canonical.
Definition canonical_cfg : cfg := mkCfg AnyEnc true 0 0 false AnyBreak.
Example C46_meets : exists m w ds, emit_io [] canonical_cfg (stream_events sample_stream) = IOk m w /\
  Forall2 canonical_doc sample_docs ds /\ parsed_as 1000 (accepted w) Utf8Enc (stream_events (mkStreamTree Utf8Enc ds)).
Proof.
  destruct (emit_io [] canonical_cfg (stream_events sample_stream)) as [m w|x m w|w|] eqn:E; try (vm_compute in E; discriminate E).
  assert (L : nlen (accepted w) < MAX_FILE_SIZE /\ g_encoding (m_cfg m) = Utf8Enc) by (vm_compute in E; injection E as <- <-; vm_compute; split; reflexivity).
  destruct L as [L G].
  destruct (C46_canonical [] canonical_cfg sample_stream m w 1000 eq_refl sample_text E L) as (ds & A & P).
  - apply sample_nice.
  - lia.
  - exact sample_shallow.
  - exists m, w, ds. split; [reflexivity|]. split; [exact A|]. rewrite G in P. exact P.
Qed.
(* The tags are not always kept: the scalar x without a tag, implicit in the plain style only, is
   read with the tag "!". *)
Theorem C46_tag_refuted : exists s m w, Forall text_event (stream_events s) /\ emit_io [] canonical_cfg (stream_events s) = IOk m w /\
  In (EScalar None None [120] true false AnyScalar) (stream_events s) /\
  forall enc es, parsed_as 1000 (accepted w) enc es -> exists pi qi style, In (EScalar None (Some [0x21]) [120] pi qi style) es /\ length es = length (stream_events s).
Proof.
  set (s := mkStreamTree AnyEnc [mkDocTree None [] true (Scalar None None [120] true false AnyScalar) true]).
  destruct (emit_io [] canonical_cfg (stream_events s)) as [m w|x m w|w|] eqn:E; try (vm_compute in E; discriminate E).
  assert (A : nlen (accepted w) < MAX_FILE_SIZE) by (vm_compute in E; injection E as <- <-; vm_compute; reflexivity).
  assert (T : Forall text_event (stream_events s)).
  { repeat (apply Forall_cons || apply Forall_nil); cbn; unfold otext, text; repeat (split || constructor); unfold scalar_value; cbn; lia. }
  exists s, m, w. split; [exact T|]. split; [exact E|]. split; [cbn; auto|]. intros enc es P.
  destruct (C46_canonical [] canonical_cfg s m w 1000 eq_refl T E A) as (ds & F & P').
  - repeat constructor; unfold scalar_value; cbn; try lia; intros; discriminate.
  - lia.
  - repeat constructor; cbn; lia.
  - destruct (C52_unique _ _ _ _ _ _ P P') as [_ ->]. inversion F as [|? d ? r D F']; subst. inversion F'; subst. destruct D as (_ & _ & _ & _ & D).
    unfold stream_events, doc_events. cbn [st_docs flat_map]. rewrite D. do 3 eexists. split; [right; right; left; reflexivity|reflexivity].
Qed.
Print Assumptions C46_tag_refuted.
