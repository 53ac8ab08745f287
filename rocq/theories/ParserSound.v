(* Soundness of parser.c with respect to the implemented grammar: what remains to
   be parsed from each state, as a language of (tokens, events). *)
From Verif Require Import Base ReaderModel Types TreeSpec GrammarSpec EventAcc ParserModel ParserInv ParserProofs.

Section frames.
Variable e : env.
Notation G := implemented.

Inductive flow_rest : list tok -> list tree -> Prop :=
| FR_end : flow_rest [TFlowSeqEnd] []
| FR_more ts xs : flow_sequence G e ts xs -> flow_rest (TFlowEntry :: ts) xs.
Inductive map_rest : list tok -> list (tree * tree) -> Prop :=
| MR_end : map_rest [TFlowMapEnd] []
| MR_more ts ps : flow_mapping G e ts ps -> map_rest (TFlowEntry :: ts) ps.

Inductive frame : pstate -> list tok -> list ev -> Prop :=
| Fr_bseq1 ts xs : block_sequence G e ts xs -> frame PS_BSeqFirst (TBlockSeqStart :: ts) (items_events xs ++ [ESeqEnd])
| Fr_bseq ts xs : block_sequence G e ts xs -> frame PS_BSeqEntry ts (items_events xs ++ [ESeqEnd])
| Fr_ind0 : frame PS_Indentless [] [ESeqEnd]
| Fr_ind ts xs : indentless G e ts xs -> frame PS_Indentless ts (items_events xs ++ [ESeqEnd])
| Fr_bmap1 ts ps : block_mapping G e ts ps -> frame PS_BMapFirst (TBlockMapStart :: ts) (pairs_events ps ++ [EMapEnd])
| Fr_bmap ts ps : block_mapping G e ts ps -> frame PS_BMapKey ts (pairs_events ps ++ [EMapEnd])
| Fr_bval vs v ts ps : opt_value G e BlockOrIndentless vs v -> block_mapping G e ts ps ->
    frame PS_BMapValue (vs ++ ts) (events_of v ++ pairs_events ps ++ [EMapEnd])
| Fr_fseq1 ts xs : flow_sequence G e ts xs -> frame PS_FSeqFirst (TFlowSeqStart :: ts) (items_events xs ++ [ESeqEnd])
| Fr_fseq ts xs : flow_rest ts xs -> frame PS_FSeqEntry ts (items_events xs ++ [ESeqEnd])
| Fr_fskey ks k vs v ts xs : node G e Flow ks k -> opt_value G e Flow vs v -> flow_rest ts xs ->
    frame PS_FSeqMapKey (ks ++ vs ++ ts) (events_of k ++ events_of v ++ EMapEnd :: items_events xs ++ [ESeqEnd])
| Fr_fskey_sw s vs v ts xs : s = TValue \/ s = TFlowEntry -> opt_value G e Flow vs v -> flow_rest ts xs ->
    frame PS_FSeqMapKey (s :: vs ++ ts) (events_of null ++ events_of v ++ EMapEnd :: items_events xs ++ [ESeqEnd])
| Fr_fskey_last :
    frame PS_FSeqMapKey [TFlowSeqEnd] (events_of null ++ events_of null ++ [EMapEnd; ESeqEnd])
| Fr_fsval vs v ts xs : opt_value G e Flow vs v -> flow_rest ts xs ->
    frame PS_FSeqMapValue (vs ++ ts) (events_of v ++ EMapEnd :: items_events xs ++ [ESeqEnd])
| Fr_fsend ts xs : flow_rest ts xs -> frame PS_FSeqMapEnd ts (EMapEnd :: items_events xs ++ [ESeqEnd])
| Fr_fmap1 ts ps : flow_mapping G e ts ps -> frame PS_FMapFirst (TFlowMapStart :: ts) (pairs_events ps ++ [EMapEnd])
| Fr_fmap ts ps : map_rest ts ps -> frame PS_FMapKey ts (pairs_events ps ++ [EMapEnd])
| Fr_fmval vs v ts ps : opt_value G e Flow vs v -> map_rest ts ps ->
    frame PS_FMapValue (vs ++ ts) (events_of v ++ pairs_events ps ++ [EMapEnd])
| Fr_fmempty ts ps : map_rest ts ps -> frame PS_FMapEmptyValue ts (events_of null ++ pairs_events ps ++ [EMapEnd]).

Lemma frame_eq s ts es ts' es' : frame s ts es -> ts = ts' -> es = es' -> frame s ts' es'.
Proof. intros; subst; auto. Qed.
Ltac lists := unfold items_events, pairs_events; cbn [flat_map app events_of null]; rewrite <- ?app_assoc; cbn [app]; rewrite ?app_nil_r; reflexivity.

Lemma flow_rest_seq ts1 x ts2 xs : flow_sequence_entry G e ts1 x -> flow_rest ts2 xs -> flow_sequence G e (ts1 ++ ts2) (x :: xs).
Proof. intros H R. inversion R; subst; constructor; auto. Qed.
Lemma map_rest_map ts1 p ts2 ps : flow_mapping_entry G e ts1 p -> map_rest ts2 ps -> flow_mapping G e (ts1 ++ ts2) (p :: ps).
Proof. intros H R. inversion R; subst; constructor; auto. Qed.
Lemma flow_seq_eq ts xs ts' : flow_sequence G e ts xs -> ts = ts' -> flow_sequence G e ts' xs.
Proof. intros; subst; auto. Qed.
Lemma flow_map_eq ts xs ts' : flow_mapping G e ts xs -> ts = ts' -> flow_mapping G e ts' xs.
Proof. intros; subst; auto. Qed.
Lemma bmap_eq ts xs ts' : block_mapping G e ts xs -> ts = ts' -> block_mapping G e ts' xs.
Proof. intros; subst; auto. Qed.

Lemma opt_value_some k ts x : opt_node G e k ts x -> opt_value G e k (TValue :: ts) x.
Proof. constructor; auto. Qed.

(* an optional node in front of a frame *)
Lemma opt_frame s ts1 x s' tsA esA : opt_node G e
    (match s' with PS_BMapKey | PS_BMapValue => BlockOrIndentless | PS_BSeqEntry | PS_Indentless => Block | _ => Flow end) ts1 x ->
  frame s' tsA esA ->
  forall pre, (s = PS_BSeqFirst /\ pre = [TBlockSeqStart; TBlockEntry] /\ s' = PS_BSeqEntry) \/
    (s = PS_BSeqEntry /\ pre = [TBlockEntry] /\ s' = PS_BSeqEntry) \/
    (s = PS_Indentless /\ pre = [TBlockEntry] /\ s' = PS_Indentless) \/
    (s = PS_BMapFirst /\ pre = [TBlockMapStart; TKey] /\ s' = PS_BMapValue) \/
    (s = PS_BMapKey /\ pre = [TKey] /\ s' = PS_BMapValue) \/
    (s = PS_BMapValue /\ pre = [TValue] /\ s' = PS_BMapKey) \/
    (s = PS_FSeqMapValue /\ pre = [TValue] /\ s' = PS_FSeqMapEnd) \/
    (s = PS_FMapFirst /\ pre = [TFlowMapStart; TKey] /\ s' = PS_FMapValue) \/
    (s = PS_FMapKey /\ pre = [TFlowEntry; TKey] /\ s' = PS_FMapValue) \/
    (s = PS_FMapValue /\ pre = [TValue] /\ s' = PS_FMapKey) ->
  frame s (pre ++ ts1 ++ tsA) (events_of x ++ esA).
Proof.
  intros O F pre C. decompose [or and] C; clear C; subst; inversion F; subst.
  - eapply frame_eq; [eapply Fr_bseq1, BS_entry; eauto|lists..].
  - eapply frame_eq; [eapply Fr_bseq, BS_entry; eauto|lists..].
  - eapply frame_eq; [eapply Fr_ind, IS_last; eauto|lists..].
  - eapply frame_eq; [eapply Fr_ind, IS_entry; eauto|lists..].
  - eapply frame_eq; [eapply Fr_bmap1, BM_pair; eauto|lists..].
  - eapply frame_eq; [eapply Fr_bmap, BM_pair; eauto|lists..].
  - eapply frame_eq; [eapply Fr_bval; [eapply V_some; eauto|eauto]|lists..].
  - eapply frame_eq; [eapply Fr_fsval; [eapply V_some; eauto|eauto]|lists..].
  - eapply frame_eq; [eapply Fr_fmap1; eapply flow_map_eq; [eapply map_rest_map; [eapply FME_pair; eauto|eauto]|lists]|lists..].
  - eapply frame_eq; [eapply Fr_fmap, MR_more; eapply flow_map_eq; [eapply map_rest_map; [eapply FME_pair; eauto|eauto]|lists]|lists..].
  - eapply frame_eq; [eapply Fr_fmval; [eapply V_some; eauto|eauto]|lists..].
Qed.

Lemma call_frame s k pre s' ts1 x tsA esA : call s k pre [s'] -> node G e k ts1 x -> frame s' tsA esA ->
  frame s (pre ++ ts1 ++ tsA) (events_of x ++ esA).
Proof.
  intros C N F. inversion C; subst;
    try (match type of F with frame ?s' _ _ => eapply (opt_frame _ _ _ s') end; [apply O_some; exact N|exact F|tauto]); inversion F; subst.
  - eapply frame_eq; [eapply Fr_fseq1, flow_rest_seq; [eapply FSE_node; eauto|eauto]|lists..].
  - eapply frame_eq; [eapply Fr_fseq, FR_more, flow_rest_seq; [eapply FSE_node; eauto|eauto]|lists..].
  - eapply frame_eq; [eapply Fr_fskey; eauto|lists..].
  - eapply frame_eq; [eapply Fr_fmap1, map_rest_map; [eapply FME_node; eauto|eauto]|lists..].
  - eapply frame_eq; [eapply Fr_fmap, MR_more, map_rest_map; [eapply FME_node; eauto|eauto]|lists..].
Qed.

Lemma empty_frame s pre t s' tsA esA r : empty s pre t s' -> frame s' tsA esA -> 
  tsA = [] \/ tsA = t :: r -> frame s (pre ++ tsA) (empty_scalar :: esA).
Proof.
  intros C F H.
  assert (O : forall k, opt_node G e k [] null) by constructor.
  inversion C; subst; change (empty_scalar :: esA) with (events_of null ++ esA);
    try (match goal with |- frame _ (?pre ++ _) _ => change (pre ++ tsA) with (pre ++ [] ++ tsA) end;
         match type of F with frame ?s' _ _ => eapply (opt_frame _ _ _ s') end; [apply O|exact F|tauto]); inversion F; subst.
  - eapply frame_eq; [eapply Fr_bval; [apply V_none|eauto]|lists..].
  - destruct H as [H|H].
    + apply app_eq_nil in H as [-> ->]. match goal with K : flow_rest [] _ |- _ => inversion K end.
    + match goal with K : opt_value _ _ _ _ _ |- _ => inversion K; subst; [|discriminate] end. cbn in H.
      subst. match goal with K : flow_rest _ _ |- _ => inversion K; subst end.
      eapply frame_eq; [eapply Fr_fskey_last|lists..].
  - eapply frame_eq; [eapply Fr_fsval; [apply V_none|eauto]|lists..].
  - eapply frame_eq; [eapply Fr_fmval; [apply V_none|eauto]|lists..].
  - eapply frame_eq; [eapply Fr_fmempty; eauto|lists..].
Qed.

Lemma close_frame s pre c : closes s pre c -> frame s pre [c].
Proof.
  intros C. inversion C; subst;
  first [exact (Fr_bseq1 _ _ (BS_end _ _))|exact (Fr_bseq _ _ (BS_end _ _))|exact (Fr_bmap1 _ _ (BM_end _ _))
        |exact (Fr_bmap _ _ (BM_end _ _))|exact (Fr_fseq1 _ _ (FS_end _ _))|exact (Fr_fseq _ _ FR_end)
        |exact (Fr_fseq _ _ (FR_more _ _ (FS_end _ _)))|exact (Fr_fmap1 _ _ (FM_end _ _))|exact (Fr_fmap _ _ MR_end)
        |exact (Fr_fmap _ _ (MR_more _ _ (FM_end _ _)))].
Qed.

Inductive doc_rest : list tok -> list ev -> Prop :=
| DocRest n ts docs : explicit_documents G ts docs ->
    doc_rest (repeat TDocEnd n ++ ts ++ [TStreamEnd]) (EDocEnd (no_end n) :: flat_map doc_events docs ++ [EStreamEnd]).
Inductive stack_lang : list pstate -> list tok -> list ev -> Prop :=
| SL_doc ts es : doc_rest ts es -> stack_lang [PS_DocEnd] ts es
| SL_cons s ss ts1 es1 ts2 es2 : frame s ts1 es1 -> stack_lang ss ts2 es2 -> stack_lang (s :: ss) (ts1 ++ ts2) (es1 ++ es2).
End frames.

(* what remains to be parsed in a parser state *)
Inductive lang (p : parser) : list tok -> list ev -> Prop :=
| L_start ts s : p_state p = PS_StreamStart -> stream implemented ts s -> lang p ts (stream_events s)
| L_implicit is i ts docs : p_state p = PS_ImplicitDocStart ->
    implicit_document implemented is i -> explicit_documents implemented ts docs ->
    lang p (is ++ ts ++ [TStreamEnd]) (doc_events i ++ flat_map doc_events docs ++ [EStreamEnd])
| L_explicit ts docs : p_state p = PS_ImplicitDocStart -> explicit_documents implemented ts docs ->
    lang p (ts ++ [TStreamEnd]) (flat_map doc_events docs ++ [EStreamEnd])
| L_docs n ts docs : p_state p = PS_DocStart -> explicit_documents implemented ts docs ->
    lang p (repeat TDocEnd n ++ ts ++ [TStreamEnd]) (flat_map doc_events docs ++ [EStreamEnd])
| L_root ts1 x ts2 es2 : p_state p = PS_BlockNode -> node implemented (p_tags p) Block ts1 x -> doc_rest ts2 es2 ->
    lang p (ts1 ++ ts2) (events_of x ++ es2)
| L_opt_root ts1 x ts2 es2 : p_state p = PS_DocContent -> opt_node implemented (p_tags p) Block ts1 x -> doc_rest ts2 es2 ->
    lang p (ts1 ++ ts2) (events_of x ++ es2)
| L_end : p_state p = PS_End -> lang p [] []
| L_deep ts es : stack_lang (p_tags p) (p_state p :: p_states p) ts es -> lang p ts es.

Lemma lang_eq p ts es ts' es' : lang p ts es -> ts = ts' -> es = es' -> lang p ts' es'.
Proof. intros; subst; auto. Qed.
Lemma stack_lang_eq e ss ts es ts' es' : stack_lang e ss ts es -> ts = ts' -> es = es' -> stack_lang e ss ts' es'.
Proof. intros; subst; auto. Qed.

Lemma bmap_head e s ss ts es : is_bmap s = true -> stack_lang e (s :: ss) ts es -> exists t r, ts = t :: r /\ t <> TBlockEntry.
Proof.
  intros B H. inversion H; subst; [discriminate|].
  match goal with K : frame _ _ _ _ |- _ => inversion K; subst; try discriminate B end.
  - match goal with K : block_mapping _ _ _ _ |- _ => inversion K; subst end; cbn; do 2 eexists; (split; [reflexivity|discriminate]).
  - match goal with K : opt_value _ _ _ _ _ |- _ => inversion K; subst end.
    + match goal with K : block_mapping _ _ _ _ |- _ => inversion K; subst end; cbn; do 2 eexists; (split; [reflexivity|discriminate]).
    + cbn. do 2 eexists; (split; [reflexivity|discriminate]).
Qed.

(* parse_node in front of what remains *)
Lemma node_sound k p1 p' ev ts es rest : node_out k p1 p' ev -> stack_ok (p_states p1) = true ->
  (k = BlockOrIndentless -> below_ok PS_Indentless (p_states p1) = true) ->
  p_tags p' = p_tags p1 -> lang p' ts es -> toks p' = ts ++ rest ->
  exists used ts1 x ts2 es2, toks p1 = used ++ toks p' /\ used ++ ts = ts1 ++ ts2 /\ ev :: es = events_of x ++ es2 /\
    node implemented (p_tags p1) k ts1 x /\ stack_lang (p_tags p1) (p_states p1) ts2 es2.
Proof.
  intros N S B G L R. destruct N as [used x s ss T HS H1 H2 Hn He | used a t hd T P O H HS].
  - exists used, used, x, ts, es. rewrite HS in *. split; [auto|]. split; [auto|]. rewrite He. split; [reflexivity|]. split; [auto|].
    apply stack_ok_top in S.
    assert (Q : stack_lang (p_tags p') (p_state p' :: p_states p') ts es).
    { inversion L; subst; auto; exfalso; match goal with K : p_state p' = _ |- _ => rewrite K in S; destruct S as [S|S]; discriminate S end. }
    rewrite H1, H2, G in Q. exact Q.
  - assert (Q : stack_lang (p_tags p') (p_state p' :: p_states p') ts es).
    { inversion L; subst; auto; exfalso; inversion O; congruence. }
    inversion Q; subst.
    { exfalso. inversion O; congruence. }
    rewrite HS, G in *. exists used. 
    assert (F : exists x, content implemented (p_tags p1) k a t ts1 x /\ ev :: es1 = events_of x).
    { destruct (p_state p') eqn:EP; inversion O; subst;
      match goal with K : frame _ _ _ _ |- _ => inversion K; subst end;
      try (eexists; split; [constructor; eauto|reflexivity]).
      - exfalso. specialize (B eq_refl). destruct (p_states p1) as [|s' ss']; [discriminate B|].
        match goal with K : stack_lang _ (s' :: ss') _ _ |- _ => destruct (bmap_head _ _ _ _ _ B K) as (t' & r' & -> & NE) end.
        destruct H as [r'' H]. cbn in R. rewrite R in H. inversion H. congruence. }
    destruct F as (x & C & E). exists (used ++ ts1), x, ts2, es2. split; [auto|]. split; [rewrite app_assoc; reflexivity|].
    split; [|split; [econstructor; eauto|auto]].
    change (ev :: es1 ++ es2) with ((ev :: es1) ++ es2). rewrite E. reflexivity.
Qed.

Definition deep_state (s : pstate) : bool := is_first s || inner s || match s with PS_FSeqMapKey | PS_DocEnd => true | _ => false end.
Lemma lang_deep p ts es : deep_state (p_state p) = true -> lang p ts es -> stack_lang (p_tags p) (p_state p :: p_states p) ts es.
Proof. intros D L. inversion L; subst; auto; rewrite H in D; discriminate D. Qed.
Lemma stack_lang_deep e s ss ts es : stack_lang e (s :: ss) ts es -> deep_state s = true.
Proof. intros H. inversion H; subst; [reflexivity|]. match goal with K : frame _ _ _ _ |- _ => inversion K; reflexivity end. Qed.
Ltac notdeep := exfalso; match goal with K : stack_lang _ _ _ _ |- _ => apply stack_lang_deep in K;
   match goal with E : p_state _ = _ |- _ => rewrite E in K; discriminate K end end.
Lemma lang_docs p ts es : p_state p = PS_DocStart -> lang p ts es -> exists n ts' docs,
  explicit_documents implemented ts' docs /\ ts = repeat TDocEnd n ++ ts' ++ [TStreamEnd] /\ es = flat_map doc_events docs ++ [EStreamEnd].
Proof. intros S L. inversion L; subst; try congruence; [eauto 8|notdeep]. Qed.
Lemma lang_root p ts es : p_state p = PS_BlockNode -> lang p ts es -> exists ts1 x ts2 es2,
  node implemented (p_tags p) Block ts1 x /\ doc_rest ts2 es2 /\ ts = ts1 ++ ts2 /\ es = events_of x ++ es2.
Proof. intros S L. inversion L; subst; try congruence; [eauto 10|notdeep]. Qed.
Lemma lang_opt_root p ts es : p_state p = PS_DocContent -> lang p ts es -> exists ts1 x ts2 es2,
  opt_node implemented (p_tags p) Block ts1 x /\ doc_rest ts2 es2 /\ ts = ts1 ++ ts2 /\ es = events_of x ++ es2.
Proof. intros S L. inversion L; subst; try congruence; [eauto 10|notdeep]. Qed.
Lemma lang_end p ts es : p_state p = PS_End -> lang p ts es -> ts = [] /\ es = [].
Proof. intros S L. inversion L; subst; try congruence; [auto|notdeep]. Qed.
Lemma stack_doc e ts es : stack_lang e [PS_DocEnd] ts es -> doc_rest ts es.
Proof. intros H. inversion H; subst; auto. match goal with K : frame _ _ _ _ |- _ => inversion K end. Qed.

Lemma step_sound p e p' ts es rest : wf p -> trans p e p' -> lang p' ts es -> toks p' = ts ++ rest ->
  exists used, toks p = used ++ toks p' /\ lang p (used ++ ts) (e :: es).
Proof.
  intros W T L R. pose proof (proj2 (proj2 W)) as HS. unfold wf_state in HS. pose proof (wf_deep p W) as D.
  inversion T; subst.
  - (* stream start *)
    exists [TStreamStart enc]. split; [auto|]. inversion L; subst; try congruence; [..|notdeep].
    + eapply lang_eq; [eapply L_start; [auto|]; eapply (Stream_implicit _ enc)|reflexivity|]; eauto.
      unfold stream_events. cbn. rewrite <- app_assoc. reflexivity.
    + eapply lang_eq; [eapply L_start; [auto|]; eapply (Stream_explicit _ enc)|reflexivity|]; eauto.
  - (* implicit document *)
    exists []. split; [auto|]. apply lang_root in L; auto. destruct L as (ts1 & x & ts2 & es2 & A & B & -> & ->).
    rewrite H7 in A. inversion B; subst.
    eapply lang_eq; [eapply L_implicit; [auto| |]; [econstructor; eauto|eauto]| |].
    + cbn. rewrite <- app_assoc. reflexivity.
    + unfold doc_events at 1. cbn. rewrite <- app_assoc. reflexivity.
  - (* explicit document *)
    exists (repeat TDocEnd n ++ ds ++ [TDocStart]).
    split; [rewrite H1, <- !app_assoc; reflexivity|]. apply lang_opt_root in L; auto. destruct L as (ts1 & x & ts2 & es2 & A & B & -> & ->).
    rewrite H6 in A. inversion B; subst.
    assert (X : explicit_documents implemented ((ds ++ TDocStart :: ts1 ++ repeat TDocEnd n0) ++ ts) (mkDocTree v dirs false x (no_end n0) :: docs)).
    { constructor; auto. econstructor; eauto. }
    assert (EV : EDocStart v dirs false :: events_of x ++ EDocEnd (no_end n0) :: flat_map doc_events docs ++ [EStreamEnd]
       = flat_map doc_events (mkDocTree v dirs false x (no_end n0) :: docs) ++ [EStreamEnd]).
    { cbn. unfold doc_events at 2. cbn. rewrite <- !app_assoc. reflexivity. }
    rewrite EV.
    destruct (p_state p) eqn:EP; try discriminate H.
    + rewrite (H0 eq_refl). eapply lang_eq; [eapply L_explicit; eauto| |reflexivity].
      cbn. rewrite <- !app_assoc. cbn. rewrite <- !app_assoc. reflexivity.
    + eapply lang_eq; [eapply (L_docs _ n); eauto| |reflexivity].
      cbn. rewrite <- !app_assoc. cbn. rewrite <- !app_assoc. reflexivity.
  - (* stream end *)
    apply lang_end in L; auto. destruct L as [-> ->]. exists (repeat TDocEnd n ++ [TStreamEnd]).
    split; [rewrite H1, <- app_assoc; reflexivity|]. rewrite app_nil_r.
    destruct (p_state p) eqn:EP; try discriminate H.
    + rewrite (H0 eq_refl). exact (L_explicit _ _ _ EP (Docs_none _)).
    + exact (L_docs _ n _ _ EP (Docs_none _)).
  - (* document end *)
    exists (repeat TDocEnd n). split; [auto|]. apply lang_docs in L; auto. destruct L as (m & ts' & docs & A & -> & ->).
    rewrite H in HS. destruct HS as [HS _].
    apply L_deep. rewrite H, HS. apply SL_doc.
    assert (EN : no_end n = no_end (n + m)).
    { destruct n as [|[|]]; [|reflexivity|lia]. destruct m; [reflexivity|]. exfalso. apply H2; [reflexivity|].
      rewrite R in H1. cbn in H1. eexists. exact H1. }
    rewrite EN, app_assoc, <- repeat_app. constructor. auto.
  - (* empty document *)
    exists []. split; [auto|]. rewrite H in HS. destruct HS as [HS _]. rewrite HS in H1. inversion H1.
    apply lang_deep in L; [|rewrite <- H6; reflexivity]. rewrite <- H6, <- H7 in L. apply stack_doc in L.
    change (empty_scalar :: es) with (events_of null ++ es). eapply L_opt_root; auto. constructor.
  - (* node *)
    destruct (call_wf _ _ _ _ W H) as (S & _ & I). rewrite <- H1 in S, I.
    destruct (node_sound _ _ _ _ _ _ _ H3 S I (eq_trans H4 (eq_sym H2)) L R) as (used & ts1 & x & ts2 & es2 & A1 & A2 & A3 & A4 & A5).
    exists (pre ++ used). rewrite H0, A1, <- !app_assoc. split; [reflexivity|]. rewrite A2, A3. rewrite H2, H1 in *.
    assert (SM : push = [] \/ exists s', push = [s']) by (inversion H; subst; eauto).
    destruct SM as [->|[s' ->]].
    + cbn [app] in A5.
      inversion H; subst; match goal with K : _ = p_state p |- _ => rewrite <- K in * end; destruct HS as [HS _]; rewrite HS in A5;
        apply stack_doc in A5.
      * apply (L_opt_root _ ts1); auto. constructor. auto.
      * apply (L_root _ ts1); auto.
    + cbn [app] in A5. apply L_deep. inversion A5; subst.
      { exfalso. inversion H. }
      eapply stack_lang_eq; [eapply SL_cons; [eapply call_frame; eauto|eauto]|..]; rewrite <- !app_assoc; reflexivity.
  - (* empty *)
    exists pre. split; [auto|].
    apply lang_deep in L; [|inversion H; reflexivity]. rewrite H4, H3 in L.
    apply L_deep. inversion L; subst.
    { exfalso. inversion H; congruence. }
    destruct H1 as [r H1]. rewrite R in H1.
    rewrite app_assoc. eapply (SL_cons _ _ _ _ (empty_scalar :: es1)); [|eauto].
    destruct ts1 as [|t1 r1].
    + eapply (empty_frame _ _ _ _ _ _ _ []); eauto.
    + eapply (empty_frame _ _ _ _ _ _ _ r1); eauto. right. cbn in H1. inversion H1. reflexivity.
  - (* swallow *)
    exists [t]. split; [auto|]. apply lang_deep in L; [|rewrite H2; reflexivity]. rewrite H4, H3, H2 in L.
    apply L_deep. inversion L; subst. match goal with K : frame _ _ _ _ |- _ => inversion K; subst end. rewrite H.
    eapply stack_lang_eq; [eapply SL_cons; [eapply Fr_fskey_sw; eauto|eauto]|reflexivity..].
  - (* close *)
    exists pre. split; [auto|].
    assert (DS : deep_state (p_state p') = true).
    { assert (F : is_first (p_state p) = true \/ inner (p_state p) = true \/ p_state p = PS_FSeqMapKey) by (inversion H; subst; cbn; auto).
      destruct (D F) as (S & _ & _). rewrite H1 in S. apply stack_ok_top in S. unfold deep_state.
      destruct S as [-> | ->]; [apply orb_true_iff; left; apply orb_true_r|reflexivity]. }
    apply lang_deep in L; auto. rewrite <- H1, H2 in L. apply L_deep.
    apply (SL_cons _ _ _ _ [e]); auto. apply close_frame. auto.
  - (* end of indentless sequence *)
    exists []. split; [auto|]. rewrite H in *. destruct D as (S & _ & B); [auto|].
    rewrite H3 in S. apply stack_ok_top in S.
    apply lang_deep in L; [|unfold deep_state; destruct S as [-> | ->]; [apply orb_true_iff; left; apply orb_true_r|reflexivity]].
    rewrite <- H3, H4 in L. apply L_deep. rewrite H. apply (SL_cons _ _ _ [] [ESeqEnd]); auto. constructor.
  - (* single pair mapping *)
    exists pre. split; [auto|]. apply lang_deep in L; [|rewrite H1; reflexivity]. rewrite H1, H2, H3 in L.
    apply L_deep. inversion L; subst.
    assert (F : frame (p_tags p) (p_state p) (pre ++ ts1) (EMapStart None None true FlowColl :: es1)).
    { assert (X : exists xs, es1 = (fun x => match x with Mapping _ _ _ _ ps => pairs_events ps ++ [EMapEnd] | _ => [] end) (hd null xs)
          ++ items_events (tl xs) ++ [ESeqEnd] /\ (exists ps, hd null xs = Mapping None None true FlowColl ps) /\ xs <> [] /\
          flow_sequence implemented (p_tags p) (TKey :: ts1) xs).
      { match goal with K : frame _ _ _ _ |- _ => inversion K; subst end.
        - exists (Mapping None None true FlowColl [(k, v)] :: xs). cbn. unfold pairs_events. cbn. rewrite app_nil_r, <- !app_assoc.
          split; [reflexivity|]. split; [eauto|]. split; [discriminate|].
          eapply flow_seq_eq; [eapply flow_rest_seq; [eapply FSE_pair; eauto|eauto]|]. cbn. rewrite <- app_assoc. reflexivity.
        - exists (Mapping None None true FlowColl [(null, v)] :: xs). cbn. unfold pairs_events. cbn. rewrite app_nil_r, <- !app_assoc.
          split; [reflexivity|]. split; [eauto|]. split; [discriminate|].
          eapply flow_seq_eq; [eapply flow_rest_seq; [eapply FSE_swallow; eauto|eauto]|]. reflexivity.
        - exists [Mapping None None true FlowColl [(null, null)]]. cbn.
          split; [reflexivity|]. split; [eauto|]. split; [discriminate|]. apply FS_last_key. reflexivity. }
      destruct X as (xs & -> & (ps & HP) & NE & FS). destruct xs as [|x xs]; [congruence|]. cbn in HP. subst x.
      destruct H as [[-> ->]|[-> ->]].
      - eapply frame_eq; [eapply Fr_fseq1; eauto|reflexivity|]. cbn. rewrite <- !app_assoc. reflexivity.
      - eapply frame_eq; [eapply Fr_fseq, FR_more; eauto|reflexivity|]. cbn. rewrite <- !app_assoc. reflexivity. }
    rewrite app_assoc. apply (SL_cons _ _ _ _ (EMapStart None None true FlowColl :: es1)); auto.
  - exists []. split; [auto|]. apply lang_deep in L; [|rewrite H2; reflexivity]. rewrite H2, H3, H4 in L.
    apply L_deep. inversion L; subst. match goal with K : frame _ _ _ _ |- _ => inversion K; subst end. rewrite H.
    apply (SL_cons _ _ _ ts1 (EMapEnd :: items_events xs ++ [ESeqEnd])); auto. constructor. auto.
Qed.
