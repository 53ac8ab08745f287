(* The emitter writes the texts of TextGrammar: simple keys and everything in flow
   context. *)
From Verif Require Import Base ReaderModel Utf8Spec Utf8Lemmas CharSpec Types WriterModel WriterSpec ParserModel PenModel PenText EmitModel EmitSpec TreeSpec GrammarSpec AgreeSpec RoundSpec TagRun TagTrip DoubleTrip SingleTrip PlainTrip BlockTrip TextGrammar EmitRun EmitPen EmitLeaf.
From Verif Require EmitInv.

Lemma heights_cons x xs : heights (x :: xs) = Nat.max (height x) (heights xs).
Proof. reflexivity. Qed.
Lemma pheights_cons k v ps : pheights ((k, v) :: ps) = Nat.max (Nat.max (height k) (height v)) (pheights ps).
Proof. reflexivity. Qed.

Section Flow.
Variables (g : cfg) (T : list tagdir) (e : env) (lim : Z).
Hypothesis Hind : (2 <= g_indent g <= 9)%Z.
Hypothesis HT : Forall (fun td => valid_handle (fst td)) T.
Hypothesis NT : NoDup (map fst T).
Hypothesis He : forall h s t, resolve_tag (utf8_tags T) h s = Some t -> resolves e h s t.

Notation em := (em g T).
Notation resumes := (resumes g T).
Notation opens := (opens g T).
Notation nice := (nice (g_canonical g) T lim (g_width g)).
Notation canonical := (g_canonical g).
Definition fits (i : Z) (h : nat) : Prop := (Z.max i 0 + g_indent g * (1 + Z.of_nat h) <= lim)%Z.
Lemma fits_content i h : fits i h -> (content_indent g i <= lim)%Z.
Proof. unfold fits, content_indent. intros H. destruct (i <? 0)%Z eqn:E; nia. Qed.
Lemma fits_inside i h h' : fits i (S h) -> (h' <= h)%nat -> fits (content_indent g i) h'.
Proof. unfold fits, content_indent. intros H L. destruct (i <? 0)%Z eqn:E; nia. Qed.
Lemma fits_less i h h' : fits i h -> (h' <= h)%nat -> fits i h'.
Proof. unfold fits. intros H L. nia. Qed.

Notation node_event := EmitInv.node_event.
Lemma events_head x : exists y r, events_of x = y :: r /\ node_event y = true.
Proof. destruct x; cbn [events_of]; eexists; eexists; (split; [reflexivity|reflexivity]). Qed.

(* ---- the start of a collection ---- *)
Lemma seq_start mapping simple s ss i is f p a t im style r mf : nice (ESeqStart a t im style) -> opens mapping simple (s :: ss) i is f p (ESeqStart a t im style :: r) mf ->
  exists t' pw pt p1 l d, analyze_event g T (ESeqStart a t im style) = inr d /\ ptext e a t' pw pt /\ coll_tag_read canonical t im t' /\ chars p1 = chars p ++ lead p pw /\ (pw = [] -> p1 = p) /\ (pw <> [] -> tight p1) /\
    flat pw /\ (length pw <= 5 + 3 * size d)%nat /\
    run r (em (if negb (f =? 0)%Z || canonical || cstyle_eqb style FlowColl || check_empty_sequence (ESeqStart a t im style :: r) then FlowSeqFirst else BlockSeqFirst) (s :: ss) l i is f p1 mapping simple d) = EOk mf.
Proof.
  intros Ni (s0 & mp & si & x & r' & d & m1 & El & A & E & R). injection El as <- <-.
  destruct (coll_analysed g T e lim HT NT He _ a t im d (ex_intro _ style (or_introl eq_refl)) A Ni) as (A1 & A2 & A3 & t' & A4 & A5).
  cbn [emit_node] in E. unfold emit_sequence_start in E. set (m0 := set_context (em s0 (s :: ss) (ESeqStart a t im style :: r) i is f p mp si d) mapping simple) in E.
  destruct (props_written T e He m0 t' A2 A3 A4) as (P1 & pw & pt & P2 & P3 & P4 & P5 & P6 & P7). cbv zeta in E. rewrite P1 in E. set (p1 := m_pen (process_tag (process_anchor m0))) in *. clearbody p1. injection E as <-.
  exists t', pw, pt, p1, (ESeqStart a t im style :: r), d. split; [exact A|]. change (m_data m0) with d in P2, P7. rewrite A1 in P2. repeat (split; [assumption|]). exact R.
Qed.
Lemma map_start mapping simple s ss i is f p a t im style r mf : nice (EMapStart a t im style) -> opens mapping simple (s :: ss) i is f p (EMapStart a t im style :: r) mf ->
  exists t' pw pt p1 l d, analyze_event g T (EMapStart a t im style) = inr d /\ ptext e a t' pw pt /\ coll_tag_read canonical t im t' /\ chars p1 = chars p ++ lead p pw /\ (pw = [] -> p1 = p) /\ (pw <> [] -> tight p1) /\
    flat pw /\ (length pw <= 5 + 3 * size d)%nat /\
    run r (em (if negb (f =? 0)%Z || canonical || cstyle_eqb style FlowColl || check_empty_mapping (EMapStart a t im style :: r) then FlowMapFirst else BlockMapFirst) (s :: ss) l i is f p1 mapping simple d) = EOk mf.
Proof.
  intros Ni (s0 & mp & si & x & r' & d & m1 & El & A & E & R). injection El as <- <-.
  destruct (coll_analysed g T e lim HT NT He _ a t im d (ex_intro _ style (or_intror eq_refl)) A Ni) as (A1 & A2 & A3 & t' & A4 & A5).
  cbn [emit_node] in E. unfold emit_mapping_start in E. set (m0 := set_context (em s0 (s :: ss) (EMapStart a t im style :: r) i is f p mp si d) mapping simple) in E.
  destruct (props_written T e He m0 t' A2 A3 A4) as (P1 & pw & pt & P2 & P3 & P4 & P5 & P6 & P7). cbv zeta in E. rewrite P1 in E. set (p1 := m_pen (process_tag (process_anchor m0))) in *. clearbody p1. injection E as <-.
  exists t', pw, pt, p1, (EMapStart a t im style :: r), d. split; [exact A|]. change (m_data m0) with d in P2, P7. rewrite A1 in P2. repeat (split; [assumption|]). exact R.
Qed.

(* ---- steps in flow context ---- *)
Definition wi (i : Z) (p : pen) : pen := if canonical || (p_column p >? g_width g)%Z then write_indent g i p else p.
Lemma wi_text i p : exists ws, chars (wi i p) = chars p ++ ws /\ white_text ws.
Proof.
  unfold wi. destruct (canonical || (p_column p >? g_width g)%Z); [|exists []; rewrite app_nil_r; split; [reflexivity|constructor]].
  destruct (indent_any g i p) as (ws & E & W & _). eauto.
Qed.
Definition put (c : N) (need white indention : bool) (p : pen) : pen := write_indicator [c] need white indention p.

Lemma close_step c (first : bool) st s ss l i i0 is f p mp si d :
  exists p2 w ws, close_flow c first (em st (s :: ss) l i (i0 :: is) f p mp si d) = EOk (em s ss l i0 is (f - 1) p2 mp si d) /\
  chars p2 = chars p ++ w /\ tight p2 /\ white_text ws /\ w = if canonical && negb first then 0x2C :: ws ++ [c] else [c].
Proof.
  unfold close_flow. cbn. change (g_canonical g && negb first) with (canonical && negb first).
  destruct (canonical && negb first) eqn:Cn.
  - destruct (indicator_is [0x2C] false false false p) as (E1 & _). destruct (indent_any g i0 (write_indicator [0x2C] false false false p)) as (ws & E2 & W & _).
    destruct (indicator_is [c] false false false (write_indent g i0 (write_indicator [0x2C] false false false p))) as (E3 & _ & E4 & E5).
    exists (write_indicator [c] false false false (write_indent g i0 (write_indicator [0x2C] false false false p))), (0x2C :: ws ++ [c]), ws. split; [reflexivity|]. split; [rewrite E3, E2, E1; cbn [app]; rewrite <- !app_assoc; reflexivity|]. split; [split; [exact E4|rewrite E5, andb_false_r; reflexivity]|]. auto.
  - destruct (indicator_is [c] false false false p) as (E3 & _ & E4 & E5). exists (write_indicator [c] false false false p), [c], []. split; [reflexivity|]. split; [exact E3|]. split; [split; [exact E4|rewrite E5, andb_false_r; reflexivity]|]. split; [constructor|reflexivity].
Qed.
Definition comma (p : pen) : pen := put 0x2C false false false p.
Definition opened (c : N) (p : pen) : pen := put c true true false p.
Lemma opened_text c p : chars (opened c p) = chars p ++ gap_text (p_white p) ++ [c] /\ p_white (opened c p) = true.
Proof. destruct (indicator_is [c] true true false p) as (E & _ & W & _). split; assumption. Qed.
Lemma comma_text p : chars (comma p) = chars p ++ [0x2C].
Proof. destruct (indicator_is [0x2C] false false false p) as (E & _). exact E. Qed.
Lemma wide_em st ss l i is f p mp si d : indent_if (wide (em st ss l i is f p mp si d)) (em st ss l i is f p mp si d) = em st ss l i is f (wi i p) mp si d.
Proof. unfold indent_if, wide, wi. cbn [em EmitLeaf.em m_cfg m_pen]. destruct (canonical || _); reflexivity. Qed.

Lemma item_step (first : bool) ss l i is f p mp si d x r m1 mf : node_event x = true -> analyze_event g T x = inr d -> l = x :: r ->
  emit_flow_sequence_item (em (if first then FlowSeqFirst else FlowSeqItem) ss l i is f p mp si d) x first = EOk m1 -> run r m1 = EOk mf ->
  if first then opens false false (FlowSeqItem :: ss) (content_indent g i) (i :: is) (f + 1) (wi (content_indent g i) (opened 0x5B p)) (x :: r) mf
  else opens false false (FlowSeqItem :: ss) i is f (wi i (comma p)) (x :: r) mf.
Proof.
  intros Nx A -> E R.
  assert (K : forall m, match x with ESeqEnd => close_flow 0x5D first m | _ => emit_node (push_state (indent_if (wide (if first then m else indicator [0x2C] false false false m)) (if first then m else indicator [0x2C] false false false m)) FlowSeqItem) x false false end
    = emit_node (push_state (indent_if (wide (if first then m else indicator [0x2C] false false false m)) (if first then m else indicator [0x2C] false false false m)) FlowSeqItem) x false false) by (intros m; destruct x; try reflexivity; discriminate).
  unfold emit_flow_sequence_item in E. cbv zeta in E. rewrite K in E. clear K. destruct first.
  - match type of E with context [open_flow 0x5B ?m] => change (open_flow 0x5B m) with (em FlowSeqFirst ss (x :: r) (content_indent g i) (i :: is) (f + 1) (opened 0x5B p) mp si d) in E end.
    rewrite wide_em in E. exists FlowSeqFirst, mp, si, x, r, d, m1. split; [reflexivity|]. split; [exact A|]. split; [exact E|exact R].
  - match type of E with context [indicator [0x2C] false false false ?m] => change (indicator [0x2C] false false false m) with (em FlowSeqItem ss (x :: r) i is f (comma p) mp si d) in E end.
    rewrite wide_em in E. exists FlowSeqItem, mp, si, x, r, d, m1. split; [reflexivity|]. split; [exact A|]. split; [exact E|exact R].
Qed.

(* what is to be shown of a node in flow context *)
Definition flow_node (x : tree) : Prop := forall mapping s ss i is f p es mf, (0 < f)%Z -> (-1 <= i)%Z -> fits i (height x) -> Forall nice (events_of x) ->
  opens mapping false (s :: ss) i is f p (events_of x ++ es) mf ->
  exists p2 w x', resumes s ss i is f p2 es mf /\ chars p2 = chars p ++ gap_text (p_white p) ++ w /\ tight p2 /\ ftext g e i x' w /\ agrees canonical x x'.

(* the items after the first one *)
Lemma items_run xs : Forall flow_node xs -> forall s ss i i0 is f p es mf, (0 < f)%Z -> (0 <= i)%Z -> fits i (heights xs) -> Forall nice (items_events xs) ->
  resumes FlowSeqItem (s :: ss) i (i0 :: is) f p (items_events xs ++ ESeqEnd :: es) mf ->
  exists p2 w xs', resumes s ss i0 is (f - 1) p2 es mf /\ chars p2 = chars p ++ w /\ tight p2 /\ fseq_tail g e i xs' w /\ Forall2 (agrees canonical) xs xs'.
Proof.
  induction xs as [|x xs IH]; intros F s ss i i0 is f p es mf Hf Hi Fi Ni R; assert (Hi1 : (-1 <= i)%Z) by lia.
  - cbn [items_events flat_map app] in R. apply resumed in R as (mp & si & d & m1 & A & S & R). unfold state_machine in S. cbn [m_state em EmitLeaf.em] in S. unfold emit_flow_sequence_item in S. cbv zeta in S.
    destruct (close_step 0x5D false FlowSeqItem s ss (ESeqEnd :: es) i i0 is f p mp si d) as (p2 & w & ws & E & C & Ti & W & Ew). rewrite E in S. injection S as <-.
    exists p2, w, []. split; [eexists; eexists; eexists; eexists; exact R|]. split; [exact C|]. split; [exact Ti|]. split; [|constructor]. rewrite Ew. destruct (canonical && negb false).
    + apply FQT_comma. apply FQ_end. exact W.
    + apply FQT_end.
  - inversion F as [|? ? Fx Fxs]; subst. cbn [items_events flat_map] in R, Ni. fold (items_events xs) in R, Ni. apply Forall_app in Ni as [Nx Nxs]. rewrite heights_cons in Fi. rewrite <- app_assoc in R.
    destruct (events_head x) as (y & r & Ex & Ny). rewrite Ex in R. cbn [app] in R. pose proof R as R0. apply resumed in R as (mp & si & d & m1 & A & S & R). unfold state_machine in S. cbn [m_state em EmitLeaf.em] in S.
    pose proof (item_step false (s :: ss) _ i (i0 :: is) f p mp si d y _ m1 mf Ny A eq_refl S R) as O. cbn iota in O.
    change (y :: r ++ items_events xs ++ ESeqEnd :: es) with ((y :: r) ++ items_events xs ++ ESeqEnd :: es) in O. rewrite <- Ex in O.
    destruct (Fx _ _ _ _ _ _ _ _ _ Hf Hi1 (fits_less i _ _ Fi (Nat.le_max_l _ _)) Nx O) as (p3 & w & x' & R3 & C3 & T3 & X3 & G3).
    destruct (IH Fxs _ _ _ _ _ _ _ _ _ Hf Hi (fits_less i _ _ Fi (Nat.le_max_r _ _)) Nxs R3) as (p2 & w' & xs' & R2 & C2 & T2 & X2 & G2).
    destruct (wi_text i (comma p)) as (ws & C1 & W). exists p2, (0x2C :: (ws ++ gap_text (p_white (wi i (comma p)))) ++ w ++ w'), (x' :: xs'). split; [exact R2|].
    split; [rewrite C2, C3, C1, comma_text; repeat (rewrite <- !app_assoc; cbn [app]); reflexivity|]. split; [exact T2|]. split; [|constructor; assumption].
    apply FQT_comma. apply FQ_item; [apply white_app; [exact W|apply white_gap]|exact X3|exact X2].
Qed.
(* a flow sequence *)
Lemma flow_seq_run xs : Forall flow_node xs -> forall s ss l i is f p mp si d es mf, (0 <= f)%Z -> (-1 <= i)%Z -> fits i (S (heights xs)) -> Forall nice (items_events xs) ->
  run (items_events xs ++ ESeqEnd :: es) (em FlowSeqFirst (s :: ss) l i is f p mp si d) = EOk mf ->
  exists p2 w xs', resumes s ss i is f p2 es mf /\ chars p2 = chars p ++ gap_text (p_white p) ++ 0x5B :: w /\ tight p2 /\ fseq g e (content_indent g i) xs' w /\ Forall2 (agrees canonical) xs xs' /\
    (xs = [] -> w = [0x5D]).
Proof.
  intros F s ss l i is f p mp si d es mf Hf Hi Fi Ni R. assert (R0 : resumes FlowSeqFirst (s :: ss) i is f p (items_events xs ++ ESeqEnd :: es) mf) by (eexists; eexists; eexists; eexists; exact R). clear R.
  assert (Hc : (0 <= content_indent g i)%Z) by (unfold content_indent; destruct (i <? 0)%Z eqn:Q; lia).
  assert (Hc1 : (-1 <= content_indent g i)%Z) by lia. assert (Hf1 : (0 < f + 1)%Z) by lia.
  destruct (opened_text 0x5B p) as [Co Wo]. destruct xs as [|x xs].
  - cbn [items_events flat_map app] in R0. apply resumed in R0 as (mp' & si' & d' & m1 & A & S & R). unfold state_machine in S. cbn [m_state em EmitLeaf.em] in S. unfold emit_flow_sequence_item in S. cbv zeta in S.
    match type of S with context [open_flow 0x5B ?m] => change (open_flow 0x5B m) with (em FlowSeqFirst (s :: ss) (ESeqEnd :: es) (content_indent g i) (i :: is) (f + 1) (opened 0x5B p) mp' si' d') in S end.
    destruct (close_step 0x5D true FlowSeqFirst s ss (ESeqEnd :: es) (content_indent g i) i is (f + 1) (opened 0x5B p) mp' si' d') as (p2 & w & ws & E & C & Ti & W & Ew). rewrite E in S. injection S as <-.
    cbn [negb] in Ew. rewrite andb_false_r in Ew. subst w. exists p2, [0x5D], []. replace (f + 1 - 1)%Z with f in R by lia. split; [eexists; eexists; eexists; eexists; exact R|].
    split; [rewrite C, Co, <- !app_assoc; reflexivity|]. split; [exact Ti|]. split; [apply (FQ_end g e _ []); constructor|]. split; [constructor|reflexivity].
  - inversion F as [|? ? Fx Fxs]; subst. cbn [items_events flat_map] in R0, Ni. fold (items_events xs) in R0, Ni. apply Forall_app in Ni as [Nx Nxs]. rewrite heights_cons in Fi. rewrite <- app_assoc in R0.
    destruct (events_head x) as (y & r & Ex & Ny). rewrite Ex in R0. cbn [app] in R0. apply resumed in R0 as (mp' & si' & d' & m1 & A & S & R). unfold state_machine in S. cbn [m_state em EmitLeaf.em] in S.
    pose proof (item_step true (s :: ss) _ i is f p mp' si' d' y _ m1 mf Ny A eq_refl S R) as O. cbn iota in O.
    change (y :: r ++ items_events xs ++ ESeqEnd :: es) with ((y :: r) ++ items_events xs ++ ESeqEnd :: es) in O. rewrite <- Ex in O.
    destruct (Fx _ _ _ _ _ _ _ _ _ Hf1 Hc1 (fits_inside i _ _ Fi (Nat.le_max_l _ _)) Nx O) as (p3 & w & x' & R3 & C3 & T3 & X3 & G3).
    destruct (items_run xs Fxs _ _ _ _ _ _ _ _ _ Hf1 Hc (fits_inside i _ _ Fi (Nat.le_max_r _ _)) Nxs R3) as (p2 & w' & xs' & R2 & C2 & T2 & X2 & G2). replace (f + 1 - 1)%Z with f in R2 by lia.
    destruct (wi_text (content_indent g i) (opened 0x5B p)) as (ws & C1 & W). exists p2, ((ws ++ gap_text (p_white (wi (content_indent g i) (opened 0x5B p)))) ++ w ++ w'), (x' :: xs'). split; [exact R2|].
    split; [rewrite C2, C3, C1, Co; repeat (rewrite <- !app_assoc; cbn [app]); reflexivity|]. split; [exact T2|]. split; [|split; [constructor; assumption|discriminate]].
    apply FQ_item; [apply white_app; [exact W|apply white_gap]|exact X3|exact X2].
Qed.

Lemma empty_map_run s ss l i is f p mp si d es mf : run (EMapEnd :: es) (em FlowMapFirst (s :: ss) l i is f p mp si d) = EOk mf ->
  exists p2, resumes s ss i is f p2 es mf /\ chars p2 = chars p ++ gap_text (p_white p) ++ [0x7B; 0x7D] /\ tight p2.
Proof.
  intros R. destruct (opened_text 0x7B p) as [Co Wo]. assert (R0 : resumes FlowMapFirst (s :: ss) i is f p (EMapEnd :: es) mf) by (eexists; eexists; eexists; eexists; exact R). clear R.
  apply resumed in R0 as (mp' & si' & d' & m1 & A & S & R). unfold state_machine in S. cbn [m_state em EmitLeaf.em] in S. unfold emit_flow_mapping_key in S. cbv zeta in S.
  match type of S with context [open_flow 0x7B ?m] => change (open_flow 0x7B m) with (em FlowMapFirst (s :: ss) (EMapEnd :: es) (content_indent g i) (i :: is) (f + 1) (opened 0x7B p) mp' si' d') in S end.
  destruct (close_step 0x7D true FlowMapFirst s ss (EMapEnd :: es) (content_indent g i) i is (f + 1) (opened 0x7B p) mp' si' d') as (p2 & w & ws & E & C & Ti & W & Ew). rewrite E in S. injection S as <-.
  cbn [negb] in Ew. rewrite andb_false_r in Ew. subst w. exists p2. replace (f + 1 - 1)%Z with f in R by lia. split; [eexists; eexists; eexists; eexists; exact R|].
  split; [rewrite C, Co, <- !app_assoc; reflexivity|exact Ti].
Qed.

(* ---- simple keys ---- *)
Definition opens_key (ss : list estate) (i : Z) (is : list Z) (f : Z) (p : pen) (l : list ev) (mf : emitter) : Prop :=
  exists s mp si x r d m1, l = x :: r /\ analyze_event g T x = inr d /\ check_simple_key (em s ss l i is f p mp si d) = true /\
    emit_node (em s ss l i is f p mp si d) x true true = EOk m1 /\ run r m1 = EOk mf.
Lemma sep_length pw : (length (sep pw) <= 1)%nat.
Proof. destruct pw; cbn; lia. Qed.
Lemma flat_sep pw : flat (sep pw).
Proof. destruct pw; reflexivity. Qed.

Lemma key_run x s ss i is f p es mf : (0 <= f)%Z -> (-1 <= i)%Z -> fits i (height x) -> Forall nice (events_of x) -> opens_key (s :: ss) i is f p (events_of x ++ es) mf ->
  exists p2 w tail x', resumes s ss i is f p2 es mf /\ chars p2 = chars p ++ gap_text (p_white p) ++ w ++ tail /\ tight p2 /\ ktext g e (negb (f =? 0)%Z) i x' w tail /\ agrees canonical x x'.
Proof.
  intros Hf Hi Fi Ni O. destruct O as (s0 & mp & si & y & r & d & m1 & El & A & Ck & E & R).
  destruct x as [a|a t v pi qi style|a t im style xs|a t im style ps]; cbn [events_of app] in El, Ni.
  - injection El as <- <-. destruct (alias_run g T _ _ _ _ _ _ _ _ _ _ _ _ _ _ _ A E) as (p2 & Em & Ok & Ti & C & Ol). subst m1.
    cbn in Ck. rewrite Ol in Ck. apply N.leb_le in Ck. unfold nlen in Ck. pose proof (utf8_longer a).
    exists p2, (0x2A :: a), [0x20], (Alias a). split; [eexists; eexists; eexists; eexists; exact R|]. split; [rewrite C; reflexivity|]. split; [exact Ti|]. split; [|constructor].
    eapply K_leaf; [apply L_alias; exact Ok|right; reflexivity| |cbn [length]; lia]. cbn [existsb]. apply (flat_alpha T e He a (proj2 Ok)).
  - injection El as <- <-. inversion Ni as [|? ? N1 _]; subst. destruct (scalar_run g T e lim Hind HT NT He _ _ _ _ _ _ _ _ _ _ _ _ _ _ _ _ _ _ _ _ A N1 Hi (fits_content _ _ Fi) E) as (p2 & d2 & t' & style' & pw & pt & Em & P & Tr & Fp & Lp & X).
    destruct (scalar_analysed g T e lim HT NT He _ _ _ _ _ _ _ A N1) as (_ & _ & _ & _ & _ & Ev & Emu & _). subst m1. cbn in Ck. rewrite Ev, Emu in Ck. apply andb_true_iff in Ck as [C1 C2]. apply negb_true_iff in C1. apply N.leb_le in C2. unfold nlen in C2.
    inversion X as [st w C Ti Sx Sw|? ? Hs ? ?|? ? ? Hs]; [subst st|discriminate Hs|discriminate Hs]. destruct (Sw eq_refl C1) as [Fw Lw]. pose proof (sep_length pw).
    exists p2, (pw ++ sep pw ++ w), [], (read_scalar a t' v style'). split; [eexists; eexists; eexists; eexists; exact R|]. split; [rewrite C, app_nil_r; reflexivity|]. split; [exact Ti|]. split; [|constructor; [apply Tr|apply Tr|split; [left; reflexivity|reflexivity]]].
    eapply K_leaf; [apply (L_scalar g e _ _ a t' pw pt v style' w P Sx)|left; reflexivity| |].
    + apply flat_app; [exact Fp|]. apply flat_app; [apply flat_sep|exact Fw].
    + unfold size in Lp. rewrite !app_length. lia.
  - inversion Ni as [|? ? N1 _]; subst. injection El as <- <-. destruct xs as [|x xs]; [|exfalso; cbn [events_of items_events flat_map app] in Ck; destruct (events_head x) as (y & r & Ey & Ny); rewrite Ey in Ck; cbn in Ck; destruct y; discriminate].
    assert (O : opens true true (s :: ss) i is f p (ESeqStart a t im style :: [ESeqEnd] ++ es) mf) by (eexists; eexists; eexists; eexists; eexists; eexists; eexists; split; [reflexivity|]; split; [exact A|]; split; [exact E|exact R]).
    cbn in Ck. apply N.leb_le in Ck. destruct (seq_start _ _ _ _ _ _ _ _ _ _ _ _ _ _ N1 O) as (t' & pw & pt & p1 & l & d' & A' & P & Tr & C1 & P1 & P2 & Fp & Lp & R'). rewrite A in A'. injection A' as <-. unfold size in Lp.
    replace (negb (f =? 0)%Z || canonical || cstyle_eqb style FlowColl || check_empty_sequence (ESeqStart a t im style :: [ESeqEnd] ++ es)) with true in R' by (cbn; rewrite orb_true_r; reflexivity). cbn iota in R'.
    destruct (flow_seq_run [] (Forall_nil _) s ss _ i is f p1 _ _ _ es mf Hf Hi Fi (Forall_nil _) R') as (p2 & w & xs' & R2 & C2 & T2 & X2 & G2 & W2). rewrite (W2 eq_refl) in *.
    exists p2, (pw ++ sep pw ++ [0x5B; 0x5D]), [], (Sequence a t' (implicit_of t') FlowColl []). split; [exact R2|]. split; [|split; [exact T2|split]].
    + rewrite C2, C1, app_nil_r, <- app_assoc, (app_assoc (lead p pw)), (lead_gap p pw p1 P1 P2), <- !app_assoc. reflexivity.
    + eapply K_seq; [exact P|lia].
    + constructor; [exact Tr|intros _; reflexivity|constructor].
  - inversion Ni as [|? ? N1 _]; subst. injection El as <- <-. destruct ps as [|[k v] ps]; [|exfalso; cbn [events_of flat_map fst app] in Ck; destruct (events_head k) as (y & r & Ey & Ny); rewrite Ey in Ck; cbn in Ck; destruct y; discriminate].
    assert (O : opens true true (s :: ss) i is f p (EMapStart a t im style :: [EMapEnd] ++ es) mf) by (eexists; eexists; eexists; eexists; eexists; eexists; eexists; split; [reflexivity|]; split; [exact A|]; split; [exact E|exact R]).
    cbn in Ck. apply N.leb_le in Ck. destruct (map_start _ _ _ _ _ _ _ _ _ _ _ _ _ _ N1 O) as (t' & pw & pt & p1 & l & d' & A' & P & Tr & C1 & P1 & P2 & Fp & Lp & R'). rewrite A in A'. injection A' as <-. unfold size in Lp.
    replace (negb (f =? 0)%Z || canonical || cstyle_eqb style FlowColl || check_empty_mapping (EMapStart a t im style :: [EMapEnd] ++ es)) with true in R' by (cbn; rewrite orb_true_r; reflexivity). cbn iota in R'.
    destruct (empty_map_run s ss _ i is f p1 _ _ _ es mf R') as (p2 & R2 & C2 & T2).
    exists p2, (pw ++ sep pw ++ [0x7B; 0x7D]), [], (Mapping a t' (implicit_of t') FlowColl []). split; [exact R2|]. split; [|split; [exact T2|split]].
    + rewrite C2, C1, app_nil_r, <- app_assoc, (app_assoc (lead p pw)), (lead_gap p pw p1 P1 P2), <- !app_assoc. reflexivity.
    + eapply K_map; [exact P|lia].
    + constructor; [exact Tr|intros _; reflexivity|constructor].
Qed.

(* ---- pairs in flow context ---- *)
Definition opens_pair (ss : list estate) (i : Z) (is : list Z) (f : Z) (p : pen) (l : list ev) (mf : emitter) : Prop :=
  opens_key (FlowMapSimple :: ss) i is f p l mf \/ opens true false (FlowMapValue :: ss) i is f (put 0x3F true false false p) l mf.
Lemma pair_step (first : bool) ss l i is f p mp si d x r m1 mf : node_event x = true -> analyze_event g T x = inr d -> l = x :: r ->
  emit_flow_mapping_key (em (if first then FlowMapFirst else FlowMapKey) ss l i is f p mp si d) x first = EOk m1 -> run r m1 = EOk mf ->
  if first then opens_pair ss (content_indent g i) (i :: is) (f + 1) (wi (content_indent g i) (opened 0x7B p)) (x :: r) mf
  else opens_pair ss i is f (wi i (comma p)) (x :: r) mf.
Proof.
  intros Nx A -> E R.
  assert (K : forall m, match x with EMapEnd => close_flow 0x7D first m | _ =>
      let m := if first then m else indicator [0x2C] false false false m in
      let m := indent_if (wide m) m in
      if negb (g_canonical (m_cfg m)) && check_simple_key m
      then emit_node (push_state m FlowMapSimple) x true true
      else emit_node (push_state (indicator [0x3F] true false false m) FlowMapValue) x true false end
    = let m := if first then m else indicator [0x2C] false false false m in
      let m := indent_if (wide m) m in
      if negb (g_canonical (m_cfg m)) && check_simple_key m
      then emit_node (push_state m FlowMapSimple) x true true
      else emit_node (push_state (indicator [0x3F] true false false m) FlowMapValue) x true false) by (intros m; destruct x; try reflexivity; discriminate).
  unfold emit_flow_mapping_key in E. cbv zeta in E. rewrite K in E. clear K. cbv zeta in E. destruct first.
  - match type of E with context [open_flow 0x7B ?m] => change (open_flow 0x7B m) with (em FlowMapFirst ss (x :: r) (content_indent g i) (i :: is) (f + 1) (opened 0x7B p) mp si d) in E end.
    rewrite wide_em in E. set (p1 := wi (content_indent g i) (opened 0x7B p)) in *. destruct (negb _ && check_simple_key _) eqn:Ck.
    + apply andb_true_iff in Ck as [_ Ck]. left. exists FlowMapFirst, mp, si, x, r, d, m1. split; [reflexivity|]. split; [exact A|]. split; [exact Ck|]. split; [exact E|exact R].
    + right. exists FlowMapFirst, mp, si, x, r, d, m1. split; [reflexivity|]. split; [exact A|]. split; [exact E|exact R].
  - match type of E with context [indicator [0x2C] false false false ?m] => change (indicator [0x2C] false false false m) with (em FlowMapKey ss (x :: r) i is f (comma p) mp si d) in E end.
    rewrite wide_em in E. set (p1 := wi i (comma p)) in *. destruct (negb _ && check_simple_key _) eqn:Ck.
    + apply andb_true_iff in Ck as [_ Ck]. left. exists FlowMapKey, mp, si, x, r, d, m1. split; [reflexivity|]. split; [exact A|]. split; [exact Ck|]. split; [exact E|exact R].
    + right. exists FlowMapKey, mp, si, x, r, d, m1. split; [reflexivity|]. split; [exact A|]. split; [exact E|exact R].
Qed.
Lemma value_step (simple : bool) ss i is f p x es mf : resumes (if simple then FlowMapSimple else FlowMapValue) ss i is f p (events_of x ++ es) mf ->
  opens true false (FlowMapKey :: ss) i is f (if simple then put 0x3A false false false p else put 0x3A true false false (wi i p)) (events_of x ++ es) mf.
Proof.
  intros R. destruct (events_head x) as (y & r & Ex & Ny). rewrite Ex in *. cbn [app] in *. apply resumed in R as (mp & si & d & m1 & A & S & R). destruct simple; unfold state_machine in S; cbn [m_state em EmitLeaf.em] in S; unfold emit_flow_mapping_value in S; cbv zeta in S.
  - exists FlowMapSimple, mp, si, y, (r ++ es), d, m1. split; [reflexivity|]. split; [exact A|]. split; [exact S|exact R].
  - rewrite wide_em in S. exists FlowMapValue, mp, si, y, (r ++ es), d, m1. split; [reflexivity|]. split; [exact A|]. split; [exact S|exact R].
Qed.
Lemma put_text c need p : chars (put c need false false p) = chars p ++ (if need then gap_text (p_white p) else []) ++ [c] /\ p_white (put c need false false p) = false.
Proof. destruct (indicator_is [c] need false false p) as (E & _ & W & _). split; [exact E|exact W]. Qed.

Lemma pair_run k v : flow_node k -> flow_node v -> forall ss i is f p es mf, (0 < f)%Z -> (-1 <= i)%Z -> fits i (Nat.max (height k) (height v)) -> Forall nice (events_of k) -> Forall nice (events_of v) ->
  opens_pair ss i is f p (events_of k ++ events_of v ++ es) mf ->
  exists p2 w k' v', resumes FlowMapKey ss i is f p2 es mf /\ chars p2 = chars p ++ gap_text (p_white p) ++ w /\ tight p2 /\ agrees canonical k k' /\ agrees canonical v v' /\
    forall ws ps w', white_text ws -> fmap_tail g e i ps w' -> fmap g e i ((k', v') :: ps) (ws ++ w ++ w').
Proof.
  intros Fk Fv ss i is f p es mf Hf Hi Fi Nk Nv O. pose proof (fits_less _ _ _ Fi (Nat.le_max_l _ _)) as Fik. pose proof (fits_less _ _ _ Fi (Nat.le_max_r _ _)) as Fiv. destruct O as [O|O].
  - assert (Hf0 : (0 <= f)%Z) by lia. destruct (key_run k _ _ _ _ _ _ _ _ Hf0 Hi Fik Nk O) as (p1 & kw & tail & k' & R1 & C1 & T1 & K1 & G1).
    pose proof (value_step true _ _ _ _ _ _ _ _ R1) as O2. cbn iota in O2. destruct (put_text 0x3A false p1) as [Cp Wp]. destruct (Fv _ _ _ _ _ _ _ _ _ Hf Hi Fiv Nv O2) as (p2 & vw & v' & R2 & C2 & T2 & X2 & G2).
    rewrite Wp in C2. exists p2, (kw ++ tail ++ 0x3A :: 0x20 :: vw), k', v'. split; [exact R2|]. split; [rewrite C2, Cp, C1; repeat (rewrite <- !app_assoc; cbn [app gap_text]); reflexivity|]. split; [exact T2|]. split; [exact G1|]. split; [exact G2|].
    intros ws ps w' Hw Ht. replace (negb (f =? 0)%Z) with true in K1 by (destruct (f =? 0)%Z eqn:Q; [lia|reflexivity]). repeat (rewrite <- !app_assoc; cbn [app]). apply FM_simple; assumption.
  - destruct (put_text 0x3F true p) as [Cq Wq]. destruct (Fk _ _ _ _ _ _ _ _ _ Hf Hi Fik Nk O) as (p1 & kw & k' & R1 & C1 & T1 & X1 & G1). rewrite Wq in C1.
    pose proof (value_step false _ _ _ _ _ _ _ _ R1) as O2. cbn iota in O2. destruct (put_text 0x3A true (wi i p1)) as [Cp Wp]. destruct (wi_text i p1) as (ws1 & Cw & Hw1).
    destruct (Fv _ _ _ _ _ _ _ _ _ Hf Hi Fiv Nv O2) as (p2 & vw & v' & R2 & C2 & T2 & X2 & G2).
    rewrite Wp in C2. exists p2, (0x3F :: 0x20 :: kw ++ (ws1 ++ gap_text (p_white (wi i p1))) ++ 0x3A :: 0x20 :: vw), k', v'. split; [exact R2|].
    split; [rewrite C2, Cp, Cw, C1, Cq; repeat (rewrite <- !app_assoc; cbn [app gap_text]); reflexivity|]. split; [exact T2|]. split; [exact G1|]. split; [exact G2|].
    intros ws ps w' Hw Ht. replace (ws ++ (0x3F :: 0x20 :: kw ++ (ws1 ++ gap_text (p_white (wi i p1))) ++ 0x3A :: 0x20 :: vw) ++ w') with (ws ++ 0x3F :: 0x20 :: kw ++ (ws1 ++ gap_text (p_white (wi i p1))) ++ 0x3A :: 0x20 :: vw ++ w') by (repeat (rewrite <- ?app_assoc; cbn [app]); reflexivity).
    apply FM_explicit; try assumption. apply white_app; [exact Hw1|apply white_gap].
Qed.

Definition pairs_ok (ps ps' : list (tree * tree)) : Prop := Forall2 (fun p p' => agrees canonical (fst p) (fst p') /\ agrees canonical (snd p) (snd p')) ps ps'.
Definition flow_pair (p : tree * tree) : Prop := flow_node (fst p) /\ flow_node (snd p).
Lemma pairs_run ps : Forall flow_pair ps -> forall s ss i i0 is f p es mf, (0 < f)%Z -> (0 <= i)%Z -> fits i (pheights ps) -> Forall nice (pairs_events ps) ->
  resumes FlowMapKey (s :: ss) i (i0 :: is) f p (pairs_events ps ++ EMapEnd :: es) mf ->
  exists p2 w ps', resumes s ss i0 is (f - 1) p2 es mf /\ chars p2 = chars p ++ w /\ tight p2 /\ fmap_tail g e i ps' w /\ pairs_ok ps ps'.
Proof.
  induction ps as [|[k v] ps IH]; intros F s ss i i0 is f p es mf Hf Hi Fi Ni R; assert (Hi1 : (-1 <= i)%Z) by lia.
  - cbn [pairs_events flat_map app] in R. apply resumed in R as (mp & si & d & m1 & A & S & R). unfold state_machine in S. cbn [m_state em EmitLeaf.em] in S. unfold emit_flow_mapping_key in S. cbv zeta in S.
    destruct (close_step 0x7D false FlowMapKey s ss (EMapEnd :: es) i i0 is f p mp si d) as (p2 & w & ws & E & C & Ti & W & Ew). rewrite E in S. injection S as <-.
    exists p2, w, []. split; [eexists; eexists; eexists; eexists; exact R|]. split; [exact C|]. split; [exact Ti|]. split; [|constructor]. rewrite Ew. destruct (canonical && negb false).
    + apply FMT_comma. apply FM_end_. exact W.
    + apply FMT_end.
  - inversion F as [|? ? [Fk Fv] Fps]; subst. cbn [fst snd] in Fk, Fv. cbn [pairs_events flat_map fst snd] in R, Ni. fold (pairs_events ps) in R, Ni. apply Forall_app in Ni as [Nx Nps]. apply Forall_app in Nx as [Nk Nv]. rewrite pheights_cons in Fi. rewrite <- !app_assoc in R.
    destruct (events_head k) as (y & r & Ex & Ny). rewrite Ex in R. cbn [app] in R. apply resumed in R as (mp & si & d & m1 & A & S & R). unfold state_machine in S. cbn [m_state em EmitLeaf.em] in S.
    pose proof (pair_step false (s :: ss) _ i (i0 :: is) f p mp si d y _ m1 mf Ny A eq_refl S R) as O. cbn iota in O.
    change (y :: r ++ events_of v ++ pairs_events ps ++ EMapEnd :: es) with ((y :: r) ++ events_of v ++ pairs_events ps ++ EMapEnd :: es) in O. rewrite <- Ex in O.
    destruct (pair_run k v Fk Fv _ _ _ _ _ _ _ Hf Hi1 (fits_less i _ _ Fi (Nat.le_max_l _ _)) Nk Nv O) as (p3 & w & k' & v' & R3 & C3 & T3 & G3 & G3' & X3).
    destruct (IH Fps _ _ _ _ _ _ _ _ _ Hf Hi (fits_less i _ _ Fi (Nat.le_max_r _ _)) Nps R3) as (p2 & w' & ps' & R2 & C2 & T2 & X2 & G2).
    destruct (wi_text i (comma p)) as (ws & C1 & W). exists p2, (0x2C :: (ws ++ gap_text (p_white (wi i (comma p)))) ++ w ++ w'), ((k', v') :: ps'). split; [exact R2|].
    split; [rewrite C2, C3, C1, comma_text; repeat (rewrite <- !app_assoc; cbn [app]); reflexivity|]. split; [exact T2|]. split; [|constructor; [split; assumption|exact G2]].
    apply FMT_comma. apply X3; [apply white_app; [exact W|apply white_gap]|exact X2].
Qed.
Lemma flow_map_run ps : Forall flow_pair ps -> forall s ss l i is f p mp si d es mf, (0 <= f)%Z -> (-1 <= i)%Z -> fits i (S (pheights ps)) -> Forall nice (pairs_events ps) ->
  run (pairs_events ps ++ EMapEnd :: es) (em FlowMapFirst (s :: ss) l i is f p mp si d) = EOk mf ->
  exists p2 w ps', resumes s ss i is f p2 es mf /\ chars p2 = chars p ++ gap_text (p_white p) ++ 0x7B :: w /\ tight p2 /\ fmap g e (content_indent g i) ps' w /\ pairs_ok ps ps'.
Proof.
  intros F s ss l i is f p mp si d es mf Hf Hi Fi Ni R.
  assert (Hc : (0 <= content_indent g i)%Z) by (unfold content_indent; destruct (i <? 0)%Z eqn:Q; lia).
  assert (Hc1 : (-1 <= content_indent g i)%Z) by lia. assert (Hf1 : (0 < f + 1)%Z) by lia.
  destruct (opened_text 0x7B p) as [Co Wo]. destruct ps as [|[k v] ps].
  - cbn [pairs_events flat_map app] in R. destruct (empty_map_run _ _ _ _ _ _ _ _ _ _ _ _ R) as (p2 & R2 & C2 & T2). exists p2, [0x7D], []. split; [exact R2|]. split; [exact C2|]. split; [exact T2|].
    split; [apply (FM_end_ g e _ []); constructor|constructor].
  - assert (R0 : resumes FlowMapFirst (s :: ss) i is f p (pairs_events ((k, v) :: ps) ++ EMapEnd :: es) mf) by (eexists; eexists; eexists; eexists; exact R). clear R.
    inversion F as [|? ? [Fk Fv] Fps]; subst. cbn [fst snd] in Fk, Fv. cbn [pairs_events flat_map fst snd] in R0, Ni. fold (pairs_events ps) in R0, Ni. apply Forall_app in Ni as [Nx Nps]. apply Forall_app in Nx as [Nk Nv]. rewrite pheights_cons in Fi. rewrite <- !app_assoc in R0.
    destruct (events_head k) as (y & r & Ex & Ny). rewrite Ex in R0. cbn [app] in R0. apply resumed in R0 as (mp' & si' & d' & m1 & A & S & R). unfold state_machine in S. cbn [m_state em EmitLeaf.em] in S.
    pose proof (pair_step true (s :: ss) _ i is f p mp' si' d' y _ m1 mf Ny A eq_refl S R) as O. cbn iota in O.
    change (y :: r ++ events_of v ++ pairs_events ps ++ EMapEnd :: es) with ((y :: r) ++ events_of v ++ pairs_events ps ++ EMapEnd :: es) in O. rewrite <- Ex in O.
    destruct (pair_run k v Fk Fv _ _ _ _ _ _ _ Hf1 Hc1 (fits_inside i _ _ Fi (Nat.le_max_l _ _)) Nk Nv O) as (p3 & w & k' & v' & R3 & C3 & T3 & G3 & G3' & X3).
    destruct (pairs_run ps Fps _ _ _ _ _ _ _ _ _ Hf1 Hc (fits_inside i _ _ Fi (Nat.le_max_r _ _)) Nps R3) as (p2 & w' & ps' & R2 & C2 & T2 & X2 & G2). replace (f + 1 - 1)%Z with f in R2 by lia.
    destruct (wi_text (content_indent g i) (opened 0x7B p)) as (ws & C1 & W). exists p2, ((ws ++ gap_text (p_white (wi (content_indent g i) (opened 0x7B p)))) ++ w ++ w'), ((k', v') :: ps'). split; [exact R2|].
    split; [rewrite C2, C3, C1, Co; repeat (rewrite <- !app_assoc; cbn [app]); reflexivity|]. split; [exact T2|]. split; [|constructor; [split; assumption|exact G2]].
    apply X3; [apply white_app; [exact W|apply white_gap]|exact X2].
Qed.

(* ---- flow collections, whatever is around them ---- *)
Definition goes_flow (f : Z) (x : tree) : bool :=
  match x with
  | Sequence _ _ _ style xs => negb (f =? 0)%Z || canonical || cstyle_eqb style FlowColl || match xs with [] => true | _ => false end
  | Mapping _ _ _ style ps => negb (f =? 0)%Z || canonical || cstyle_eqb style FlowColl || match ps with [] => true | _ => false end
  | _ => false
  end.
Lemma seq_flows f a t im style xs es : negb (f =? 0)%Z || canonical || cstyle_eqb style FlowColl || check_empty_sequence (ESeqStart a t im style :: items_events xs ++ ESeqEnd :: es) = goes_flow f (Sequence a t im style xs).
Proof. cbn [goes_flow]. f_equal. destruct xs as [|x xs]; [reflexivity|]. cbn [items_events flat_map]. destruct (events_head x) as (y & r & Ey & Ny). rewrite Ey. destruct y; try reflexivity; discriminate. Qed.
Lemma map_flows f a t im style ps es : negb (f =? 0)%Z || canonical || cstyle_eqb style FlowColl || check_empty_mapping (EMapStart a t im style :: pairs_events ps ++ EMapEnd :: es) = goes_flow f (Mapping a t im style ps).
Proof. cbn [goes_flow]. f_equal. destruct ps as [|[k v] ps]; [reflexivity|]. cbn [pairs_events flat_map fst]. destruct (events_head k) as (y & r & Ey & Ny). rewrite Ey. destruct y; try reflexivity; discriminate. Qed.

Definition parts_flow (x : tree) : Prop :=
  match x with Sequence _ _ _ _ xs => Forall flow_node xs | Mapping _ _ _ _ ps => Forall flow_pair ps | _ => True end.
Lemma coll_run x : parts_flow x -> forall mapping simple s ss i is f p es mf, (0 <= f)%Z -> (-1 <= i)%Z -> fits i (height x) -> Forall nice (events_of x) -> goes_flow f x = true ->
  opens mapping simple (s :: ss) i is f p (events_of x ++ es) mf ->
  exists p2 w x', resumes s ss i is f p2 es mf /\ chars p2 = chars p ++ gap_text (p_white p) ++ w /\ tight p2 /\ ctext g e i x' w /\ agrees canonical x x'.
Proof.
  intros F mapping simple s ss i is f p es mf Hf Hi Fi Ni Gf O. destruct x as [a|a t v pi qi style|a t im style xs|a t im style ps]; try discriminate Gf; cbn [parts_flow] in F; cbn [events_of] in O, Ni; inversion Ni as [|? ? N1 N2]; subst; apply Forall_app in N2 as [N2 _].
  - change (flat_map events_of xs) with (items_events xs) in *. cbn [app] in O. rewrite <- app_assoc in O. cbn [app] in O.
    destruct (seq_start _ _ _ _ _ _ _ _ _ _ _ _ _ _ N1 O) as (t' & pw & pt & p1 & l & d & A & P & Tr & C1 & P1 & P2 & Fp & Lp & R). rewrite seq_flows, Gf in R.
    destruct (flow_seq_run xs F s ss _ i is f p1 _ _ _ es mf Hf Hi Fi N2 R) as (p2 & w & xs' & R2 & C2 & T2 & X2 & G2 & _).
    exists p2, (pw ++ sep pw ++ 0x5B :: w), (Sequence a t' (implicit_of t') FlowColl xs'). split; [exact R2|]. split; [|split; [exact T2|split]].
    + rewrite C2, C1, <- app_assoc, (app_assoc (lead p pw)), (lead_gap p pw p1 P1 P2), <- !app_assoc. reflexivity.
    + eapply C_seq; eassumption.
    + constructor; [assumption|intros _; reflexivity|assumption].
  - fold (pairs_events ps) in *. cbn [app] in O. rewrite <- app_assoc in O. cbn [app] in O.
    destruct (map_start _ _ _ _ _ _ _ _ _ _ _ _ _ _ N1 O) as (t' & pw & pt & p1 & l & d & A & P & Tr & C1 & P1 & P2 & Fp & Lp & R). rewrite map_flows, Gf in R.
    destruct (flow_map_run ps F s ss _ i is f p1 _ _ _ es mf Hf Hi Fi N2 R) as (p2 & w & ps' & R2 & C2 & T2 & X2 & G2).
    exists p2, (pw ++ sep pw ++ 0x7B :: w), (Mapping a t' (implicit_of t') FlowColl ps'). split; [exact R2|]. split; [|split; [exact T2|split]].
    + rewrite C2, C1, <- app_assoc, (app_assoc (lead p pw)), (lead_gap p pw p1 P1 P2), <- !app_assoc. reflexivity.
    + eapply C_map; eassumption.
    + constructor; [assumption|intros _; reflexivity|assumption].
Qed.

Lemma flow_run x : flow_node x.
Proof.
  induction x as [a|a t v pi qi style|a t im style xs IH|a t im style ps IH] using tree_induction; intros mapping s ss i is f p es mf Hf Hi Fi Ni O.
  - destruct O as (s0 & mp & si & y & r & d & m1 & El & A & E & R). cbn [events_of app] in El. injection El as <- <-.
    destruct (alias_run g T _ _ _ _ _ _ _ _ _ _ _ _ _ _ _ A E) as (p2 & Em & Ok & Ti & C & Ol). subst m1. rewrite app_nil_r in C.
    exists p2, (0x2A :: a), (Alias a). split; [eexists; eexists; eexists; eexists; exact R|]. split; [exact C|]. split; [exact Ti|]. split; [|constructor]. eapply F_leaf. apply L_alias. exact Ok.
  - destruct O as (s0 & mp & si & y & r & d & m1 & El & A & E & R). cbn [events_of app] in El. injection El as <- <-. inversion Ni as [|? ? N1 _]; subst.
    destruct (scalar_run g T e lim Hind HT NT He _ _ _ _ _ _ _ _ _ _ _ _ _ _ _ _ _ _ _ _ A N1 Hi (fits_content _ _ Fi) E) as (p2 & d2 & t' & style' & pw & pt & Em & P & Tr & Fp & Lp & X). subst m1.
    inversion X as [st w C Ti Sx Sw|? Hz|? ? Hz]; [subst st|lia|lia]. replace (negb (f =? 0)%Z) with true in Sx by (destruct (f =? 0)%Z eqn:Q; [lia|reflexivity]).
    exists p2, (pw ++ sep pw ++ w), (read_scalar a t' v style'). split; [eexists; eexists; eexists; eexists; exact R|]. split; [exact C|]. split; [exact Ti|]. split; [|constructor; [apply Tr|apply Tr|split; [left; reflexivity|reflexivity]]].
    eapply F_leaf. apply L_scalar; eassumption.
  - assert (Hf0 : (0 <= f)%Z) by lia. assert (Gf : goes_flow f (Sequence a t im style xs) = true) by (cbn [goes_flow]; destruct (f =? 0)%Z eqn:Q; [lia|reflexivity]).
    destruct (coll_run (Sequence a t im style xs) IH _ _ _ _ _ _ _ _ _ _ Hf0 Hi Fi Ni Gf O) as (p2 & w & x' & R2 & C2 & T2 & X2 & G2). exists p2, w, x'. do 3 (split; [assumption|]). split; [apply F_coll; exact X2|exact G2].
  - assert (Hf0 : (0 <= f)%Z) by lia. assert (Gf : goes_flow f (Mapping a t im style ps) = true) by (cbn [goes_flow]; destruct (f =? 0)%Z eqn:Q; [lia|reflexivity]).
    destruct (coll_run (Mapping a t im style ps) IH _ _ _ _ _ _ _ _ _ _ Hf0 Hi Fi Ni Gf O) as (p2 & w & x' & R2 & C2 & T2 & X2 & G2). exists p2, w, x'. do 3 (split; [assumption|]). split; [apply F_coll; exact X2|exact G2].
Qed.
Lemma parts_run x : parts_flow x.
Proof. destruct x; cbn; try exact Logic.I; apply Forall_forall; intros; [|split]; apply flow_run. Qed.
End Flow.
