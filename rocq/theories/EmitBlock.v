(* The emitter writes the texts of TextGrammar: nodes in block context. *)
From Verif Require Import Base ReaderModel Utf8Spec Utf8Lemmas CharSpec Types WriterModel WriterSpec ParserModel PenModel PenText EmitModel EmitSpec TreeSpec GrammarSpec AgreeSpec RoundSpec TagRun TagTrip DoubleTrip SingleTrip PlainTrip BlockTrip TextGrammar EmitRun EmitPen EmitLeaf EmitFlow.
From Verif Require EmitInv.

Lemma ptext_nil e a t pt : ptext e a t [] pt -> a = None /\ t = None.
Proof.
  inversion 1 as [|x F|w h s y F|x w h s y F F']; subst; auto. exfalso. inversion F as [h0 x0 ? ? ? Fi E]; subst. unfold tag_text, tag_fits in *. destruct h0 as [h0|]; [|discriminate].
  destruct Fi as [_ [(n & Eh & _)| ->]]; [subst h0|]; discriminate.
Qed.

Section Block.
Variables (g : cfg) (T : list tagdir) (e : env) (lim : Z).
Hypothesis Hind : (2 <= g_indent g <= 9)%Z.
Hypothesis HT : Forall (fun td => valid_handle (fst td)) T.
Hypothesis NT : NoDup (map fst T).
Hypothesis He : forall h s t, resolve_tag (utf8_tags T) h s = Some t -> resolves e h s t.

Notation em := (em g T).
Notation resumes := (resumes g T).
Notation opens := (opens g T).
Notation opens_key := (opens_key g T).
Notation nice := (nice (g_canonical g) T lim (g_width g)).
Notation canonical := (g_canonical g).
Notation fits := (fits g lim).
Notation node_event := EmitInv.node_event.

Lemma stepped s ss l i is f p mp si d x r mf : run (x :: r) (em s ss l i is f p mp si d) = EOk mf ->
  exists d' m1, analyze_event g T x = inr d' /\ state_machine (em s ss (x :: r) i is f p mp si d') x = EOk m1 /\ run r m1 = EOk mf.
Proof.
  intros R. cbn [run] in R. unfold emit_one in R. cbn [em EmitLeaf.em set_events m_cfg m_tags] in R.
  destruct (analyze_event g T x) as [y|d'] eqn:A; [discriminate|].
  change (set_data (set_events (em s ss l i is f p mp si d) (x :: r)) d') with (em s ss (x :: r) i is f p mp si d') in R.
  destruct (state_machine (em s ss (x :: r) i is f p mp si d') x) as [m1|y m1|] eqn:S; cbn [ebind] in R; try discriminate.
  exists d', m1. split; [reflexivity|]. split; [exact S|]. rewrite run_events in R. exact R.
Qed.
Definition ready (i : Z) (p : pen) : Prop := p_indention p = true -> (p_column p <= inner g i)%Z /\ (p_white p = false -> (p_column p < inner g i)%Z).
Definition comp_of (p : pen) : option Z := if p_indention p then Some (p_column p) else None.
Definition block_node (x : tree) : Prop := forall mapping s ss i is p es mf, (-1 <= i)%Z -> (mapping = true -> (0 <= i)%Z) -> fits i (height x) -> Forall nice (events_of x) -> ready i p ->
  opens mapping false (s :: ss) i is 0 p (events_of x ++ es) mf ->
  exists p2 ws w nl x', resumes s ss i is 0 p2 es mf /\ chars p2 = chars p ++ ws ++ w /\ btext g e mapping i (p_white p) (comp_of p) x' ws w nl /\ pen_after nl p2 /\ agrees canonical x x'.

(* after '-', '?' or ':' in the indentation *)
Definition marked (j : Z) (p : pen) : Prop := p_white p = false /\ p_indention p = true /\ p_column p = (j + 1)%Z.
Lemma marked_ready j p : (0 <= j)%Z -> marked j p -> ready j p /\ p_white p = false /\ comp_of p = Some (j + 1)%Z.
Proof. intros J (A & B & C). unfold ready, comp_of. rewrite B, C. split; [|auto]. intros _. unfold inner. replace (j <? 0)%Z with false by lia. lia. Qed.
(* at column [j], in the indentation *)
Definition placed (j : Z) (p : pen) : Prop := p_white p = true /\ p_indention p = true /\ p_column p = j.
Lemma mark_step c j p : placed j p -> chars (write_indicator [c] true false true p) = chars p ++ [c] /\ marked j (write_indicator [c] true false true p).
Proof. intros (A & B & C). destruct (indicator_is [c] true false true p) as (E1 & E2 & E3 & E4). rewrite A in E1, E2. rewrite B in E4. rewrite C in E2. cbn [gap_text length app] in *. split; [exact E1|]. split; [exact E3|]. split; [exact E4|]. lia. Qed.

(* ---- sequences ---- *)
Definition dash (j : Z) (p : pen) : pen := write_indicator [0x2D] true false true (write_indent g j p).
Lemma dash_step (first : bool) ss l i is p mp si d x r m1 mf : node_event x = true -> analyze_event g T x = inr d -> l = x :: r ->
  emit_block_sequence_item (em (if first then BlockSeqFirst else BlockSeqItem) ss l i is 0 p mp si d) x first = EOk m1 -> run r m1 = EOk mf ->
  let j := if (i <? 0)%Z then 0%Z else if mp && negb (p_indention p) then i else (i + g_indent g)%Z in
  if first then opens false false (BlockSeqItem :: ss) j (i :: is) 0 (dash j p) (x :: r) mf else opens false false (BlockSeqItem :: ss) i is 0 (dash i p) (x :: r) mf.
Proof.
  intros Nx A -> E R j. unfold emit_block_sequence_item in E. cbv zeta in E.
  set (m0 := if first then _ else _) in E. assert (K : emit_node (push_state (indicator [0x2D] true false true (indent_ m0)) BlockSeqItem) x false false = EOk m1) by (destruct x; try exact E; discriminate). subst m0. clear E. rename K into E.
  destruct first.
  - exists BlockSeqFirst, mp, si, x, r, d, m1. split; [reflexivity|]. split; [exact A|]. split; [|exact R]. rewrite <- E. unfold j, dash, em, EmitLeaf.em, increase_indent, indent_, indicator, push_state, on_pen, set_indents, set_pen, set_states. cbn. destruct (i <? 0)%Z, (mp && negb (p_indention p)); reflexivity.
  - exists BlockSeqItem, mp, si, x, r, d, m1. split; [reflexivity|]. split; [exact A|]. split; [exact E|exact R].
Qed.
Lemma seq_ends s ss j i0 is p es mf : resumes BlockSeqItem (s :: ss) j (i0 :: is) 0 p (ESeqEnd :: es) mf -> resumes s ss i0 is 0 p es mf.
Proof.
  intros R. apply resumed in R as (mp & si & d & m1 & A & S & R). unfold state_machine in S. cbn [m_state em EmitLeaf.em] in S. unfold emit_block_sequence_item in S. cbn in S. injection S as <-.
  eexists; eexists; eexists; eexists; exact R.
Qed.

Lemma bseq_run xs : forall x, block_node x -> Forall block_node xs -> forall s ss j i0 is p es mf, (0 <= j)%Z -> fits j (heights (x :: xs)) -> Forall nice (items_events (x :: xs)) -> marked j p ->
  opens false false (BlockSeqItem :: s :: ss) j (i0 :: is) 0 p (items_events (x :: xs) ++ ESeqEnd :: es) mf ->
  exists p2 w nl xs', resumes s ss i0 is 0 p2 es mf /\ chars p2 = chars p ++ w /\ bseq g e j xs' (0x2D :: w) nl /\ pen_after nl p2 /\ Forall2 (agrees canonical) (x :: xs) xs'.
Proof.
  induction xs as [|y xs IH]; intros x Bx Bxs s ss j i0 is p es mf Hj Fi Ni M O; destruct (marked_ready j p Hj M) as (Rd & Wp & Cp); assert (Hj1 : (-1 <= j)%Z) by lia.
  - cbn [items_events flat_map] in O, Ni. rewrite app_nil_r in O, Ni. rewrite heights_cons in Fi.
    destruct (Bx _ _ _ _ _ _ _ _ Hj1 (fun _ => Hj) (EmitFlow.fits_less g lim Hind j _ _ Fi (Nat.le_max_l _ _)) Ni Rd O) as (p2 & ws & w & nl & x' & R2 & C2 & X2 & T2 & G2). rewrite Wp, Cp in X2.
    exists p2, (ws ++ w), nl, [x']. split; [apply seq_ends in R2; exact R2|]. split; [exact C2|]. split; [apply BQ_one; exact X2|]. split; [exact T2|]. repeat constructor. exact G2.
  - inversion Bxs as [|? ? By Bys]; subst. rewrite heights_cons in Fi. change (items_events (x :: y :: xs)) with (events_of x ++ items_events (y :: xs)) in O, Ni. apply Forall_app in Ni as [Nx Nys]. rewrite <- app_assoc in O.
    destruct (Bx _ _ _ _ _ _ _ _ Hj1 (fun _ => Hj) (EmitFlow.fits_less g lim Hind j _ _ Fi (Nat.le_max_l _ _)) Nx Rd O) as (p1 & ws & w & nl & x' & R1 & C1 & X1 & T1 & G1). rewrite Wp, Cp in X1.
    destruct (events_head y) as (y0 & r & Ey & Ny). assert (El : items_events (y :: xs) ++ ESeqEnd :: es = y0 :: (r ++ items_events xs) ++ ESeqEnd :: es) by (change (items_events (y :: xs)) with (events_of y ++ items_events xs); rewrite Ey; reflexivity).
    rewrite El in R1. apply resumed in R1 as (mp & si & d & m1 & A & S & R). unfold state_machine in S. cbn [m_state em EmitLeaf.em] in S.
    pose proof (dash_step false (s :: ss) _ j (i0 :: is) p1 mp si d y0 _ m1 mf Ny A eq_refl S R) as O2. cbv zeta in O2. rewrite <- El in O2.
    destruct (after_indent g nl p1 j Hj T1) as (D1 & D2 & D3 & D4). destruct (mark_step 0x2D j (write_indent g j p1) (conj D3 (conj D4 D2))) as [D5 D6].
    destruct (IH y By Bys _ _ _ _ _ _ _ _ Hj (EmitFlow.fits_less g lim Hind j _ _ Fi (Nat.le_max_r _ _)) Nys D6 O2) as (p2 & w' & nl' & xs' & R2 & C2 & X2 & T2 & G2).
    exists p2, (ws ++ w ++ brk g nl ++ spaces j ++ 0x2D :: w'), nl', (x' :: xs'). split; [exact R2|].
    split; [rewrite C2; unfold dash; rewrite D5, D1, C1; repeat (rewrite <- !app_assoc; cbn [app]); reflexivity|]. split; [eapply BQ_more; eassumption|]. split; [exact T2|]. constructor; assumption.
Qed.

(* ---- mappings ---- *)
Definition opens_entry (ss : list estate) (i : Z) (is : list Z) (p : pen) (l : list ev) (mf : emitter) : Prop :=
  opens_key (BlockMapSimple :: ss) i is 0 p l mf \/ opens true false (BlockMapValue :: ss) i is 0 (write_indicator [0x3F] true false true p) l mf.
Lemma entry_step (first : bool) ss l i is p mp si d x r m1 mf : node_event x = true -> analyze_event g T x = inr d -> l = x :: r ->
  emit_block_mapping_key (em (if first then BlockMapFirst else BlockMapKey) ss l i is 0 p mp si d) x first = EOk m1 -> run r m1 = EOk mf ->
  if first then opens_entry ss (inner g i) (i :: is) (write_indent g (inner g i) p) (x :: r) mf else opens_entry ss i is (write_indent g i p) (x :: r) mf.
Proof.
  intros Nx A -> E R. unfold emit_block_mapping_key in E. cbv zeta in E.
  set (m0 := if first then _ else _) in E. assert (K : (if check_simple_key (indent_ m0) then emit_node (push_state (indent_ m0) BlockMapSimple) x true true
      else emit_node (push_state (indicator [0x3F] true false true (indent_ m0)) BlockMapValue) x true false) = EOk m1) by (destruct x; try exact E; discriminate). subst m0. clear E. rename K into E.
  destruct first.
  - match type of E with context [increase_indent ?m false false] => change (increase_indent m false false) with (em BlockMapFirst ss (x :: r) (inner g i) (i :: is) 0 p mp si d) in E end. destruct (check_simple_key _) eqn:Ck.
    + left. exists BlockMapFirst, mp, si, x, r, d, m1. split; [reflexivity|]. split; [exact A|]. split; [exact Ck|]. split; [exact E|exact R].
    + right. exists BlockMapFirst, mp, si, x, r, d, m1. split; [reflexivity|]. split; [exact A|]. split; [exact E|exact R].
  - destruct (check_simple_key _) eqn:Ck.
    + left. exists BlockMapKey, mp, si, x, r, d, m1. split; [reflexivity|]. split; [exact A|]. split; [exact Ck|]. split; [exact E|exact R].
    + right. exists BlockMapKey, mp, si, x, r, d, m1. split; [reflexivity|]. split; [exact A|]. split; [exact E|exact R].
Qed.
Lemma entry_value (simple : bool) ss i is p x es mf : resumes (if simple then BlockMapSimple else BlockMapValue) ss i is 0 p (events_of x ++ es) mf ->
  opens true false (BlockMapKey :: ss) i is 0 (if simple then write_indicator [0x3A] false false false p else write_indicator [0x3A] true false true (write_indent g i p)) (events_of x ++ es) mf.
Proof.
  intros R. destruct (events_head x) as (y & r & Ex & Ny). rewrite Ex in *. cbn [app] in *. apply resumed in R as (mp & si & d & m1 & A & S & R). destruct simple; unfold state_machine in S; cbn [m_state em EmitLeaf.em] in S; unfold emit_block_mapping_value in S; cbv zeta in S.
  - exists BlockMapSimple, mp, si, y, (r ++ es), d, m1. split; [reflexivity|]. split; [exact A|]. split; [exact S|exact R].
  - exists BlockMapValue, mp, si, y, (r ++ es), d, m1. split; [reflexivity|]. split; [exact A|]. split; [exact S|exact R].
Qed.
Lemma map_ends s ss j i0 is p es mf : resumes BlockMapKey (s :: ss) j (i0 :: is) 0 p (EMapEnd :: es) mf -> resumes s ss i0 is 0 p es mf.
Proof.
  intros R. apply resumed in R as (mp & si & d & m1 & A & S & R). unfold state_machine in S. cbn [m_state em EmitLeaf.em] in S. unfold emit_block_mapping_key in S. cbn in S. injection S as <-.
  eexists; eexists; eexists; eexists; exact R.
Qed.
Lemma entry_run k v : block_node k -> block_node v -> forall ss j is p es mf, (0 <= j)%Z -> fits j (Nat.max (height k) (height v)) -> Forall nice (events_of k) -> Forall nice (events_of v) -> placed j p ->
  opens_entry ss j is p (events_of k ++ events_of v ++ es) mf ->
  exists p2 w nl k' v', resumes BlockMapKey ss j is 0 p2 es mf /\ chars p2 = chars p ++ w /\ bpair g e j (k', v') w nl /\ pen_after nl p2 /\ agrees canonical k k' /\ agrees canonical v v'.
Proof.
  intros Bk Bv ss j is p es mf Hj Fi Nk Nv P O. assert (Hj1 : (-1 <= j)%Z) by lia.
  pose proof (EmitFlow.fits_less g lim Hind _ _ _ Fi (Nat.le_max_l _ _)) as Fik. pose proof (EmitFlow.fits_less g lim Hind _ _ _ Fi (Nat.le_max_r _ _)) as Fiv. destruct O as [O|O].
  - destruct (key_run g T e lim Hind HT NT He k _ _ _ _ _ _ _ _ (Z.le_refl 0) Hj1 Fik Nk O) as (p1 & kw & tail & k' & R1 & C1 & T1 & K1 & G1). destruct P as (P1 & _). rewrite P1 in C1.
    pose proof (entry_value true _ _ _ _ _ _ _ R1) as O2. cbn iota in O2. destruct (indicator_is [0x3A] false false false p1) as (E1 & _ & E3 & E4). rewrite andb_false_r in E4.
    set (q := write_indicator [0x3A] false false false p1) in *. assert (Rd : ready j q) by (intros K; rewrite E4 in K; discriminate).
    destruct (Bv _ _ _ _ _ _ _ _ Hj1 (fun _ => Hj) Fiv Nv Rd O2) as (p2 & ws & w & nl & v' & R2 & C2 & X2 & T2 & G2). unfold comp_of in X2. rewrite E3, E4 in X2.
    exists p2, (kw ++ tail ++ 0x3A :: ws ++ w), nl, k', v'. split; [exact R2|]. split; [rewrite C2, E1, C1; repeat (rewrite <- !app_assoc; cbn [app gap_text]); reflexivity|]. split; [apply BP_simple; assumption|]. auto.
  - destruct (mark_step 0x3F j p P) as [D1 D2]. destruct (marked_ready j _ Hj D2) as (Rd & Wp & Cp). set (q := write_indicator [0x3F] true false true p) in *.
    destruct (Bk _ _ _ _ _ _ _ _ Hj1 (fun _ => Hj) Fik Nk Rd O) as (p1 & ks & kw & knl & k' & R1 & C1 & X1 & T1 & G1). rewrite Wp, Cp in X1.
    pose proof (entry_value false _ _ _ _ _ _ _ R1) as O2. cbn iota in O2. destruct (after_indent g knl p1 j Hj T1) as (I1 & I2 & I3 & I4). destruct (mark_step 0x3A j (write_indent g j p1) (conj I3 (conj I4 I2))) as [D5 D6].
    destruct (marked_ready j _ Hj D6) as (Rd2 & Wp2 & Cp2). set (q2 := write_indicator [0x3A] true false true (write_indent g j p1)) in *.
    destruct (Bv _ _ _ _ _ _ _ _ Hj1 (fun _ => Hj) Fiv Nv Rd2 O2) as (p2 & ws & w & nl & v' & R2 & C2 & X2 & T2 & G2). rewrite Wp2, Cp2 in X2.
    exists p2, (0x3F :: ks ++ kw ++ brk g knl ++ spaces j ++ 0x3A :: ws ++ w), nl, k', v'. split; [exact R2|]. split; [rewrite C2, D5, I1, C1, D1; repeat (rewrite <- !app_assoc; cbn [app]); reflexivity|]. split; [apply BP_explicit; assumption|]. auto.
Qed.
Definition block_pair (p : tree * tree) : Prop := block_node (fst p) /\ block_node (snd p).
Lemma bmap_run ps : forall k v, block_node k -> block_node v -> Forall block_pair ps -> forall s ss j i0 is p es mf, (0 <= j)%Z -> fits j (pheights ((k, v) :: ps)) -> Forall nice (pairs_events ((k, v) :: ps)) -> placed j p ->
  opens_entry (s :: ss) j (i0 :: is) p (pairs_events ((k, v) :: ps) ++ EMapEnd :: es) mf ->
  exists p2 w nl ps', resumes s ss i0 is 0 p2 es mf /\ chars p2 = chars p ++ w /\ bmap g e j ps' w nl /\ pen_after nl p2 /\ pairs_ok g ((k, v) :: ps) ps'.
Proof.
  induction ps as [|[k2 v2] ps IH]; intros k v Bk Bv Bps s ss j i0 is p es mf Hj Fi Ni P O; rewrite pheights_cons in Fi.
  - cbn [pairs_events flat_map] in O, Ni. rewrite app_nil_r in O, Ni. apply Forall_app in Ni as [Nk Nv]. rewrite <- app_assoc in O.
    destruct (entry_run k v Bk Bv _ _ _ _ _ _ Hj (EmitFlow.fits_less g lim Hind j _ _ Fi (Nat.le_max_l _ _)) Nk Nv P O) as (p2 & w & nl & k' & v' & R2 & C2 & X2 & T2 & G2 & G2').
    exists p2, w, nl, [(k', v')]. split; [apply map_ends in R2; exact R2|]. split; [exact C2|]. split; [apply BM_one; exact X2|]. split; [exact T2|]. repeat constructor; assumption.
  - inversion Bps as [|? ? [Bk2 Bv2] Bqs]; subst. cbn [fst snd] in Bk2, Bv2. change (pairs_events ((k, v) :: (k2, v2) :: ps)) with ((events_of k ++ events_of v) ++ pairs_events ((k2, v2) :: ps)) in O, Ni. apply Forall_app in Ni as [Nx Nys]. apply Forall_app in Nx as [Nk Nv]. rewrite <- !app_assoc in O.
    destruct (entry_run k v Bk Bv _ _ _ _ _ _ Hj (EmitFlow.fits_less g lim Hind j _ _ Fi (Nat.le_max_l _ _)) Nk Nv P O) as (p1 & w & nl & k' & v' & R1 & C1 & X1 & T1 & G1 & G1').
    destruct (events_head k2) as (y0 & r & Ey & Ny). assert (El : pairs_events ((k2, v2) :: ps) ++ EMapEnd :: es = y0 :: ((r ++ events_of v2) ++ pairs_events ps) ++ EMapEnd :: es) by (change (pairs_events ((k2, v2) :: ps)) with ((events_of k2 ++ events_of v2) ++ pairs_events ps); rewrite Ey; reflexivity).
    rewrite El in R1. apply resumed in R1 as (mp & si & d & m1 & A & S & R). unfold state_machine in S. cbn [m_state em EmitLeaf.em] in S.
    pose proof (entry_step false (s :: ss) _ j (i0 :: is) p1 mp si d y0 _ m1 mf Ny A eq_refl S R) as O2. cbv zeta in O2. rewrite <- El in O2.
    destruct (after_indent g nl p1 j Hj T1) as (D1 & D2 & D3 & D4).
    destruct (IH k2 v2 Bk2 Bv2 Bqs _ _ _ _ _ _ _ _ Hj (EmitFlow.fits_less g lim Hind j _ _ Fi (Nat.le_max_r _ _)) Nys (conj D3 (conj D4 D2)) O2) as (p2 & w' & nl' & ps' & R2 & C2 & X2 & T2 & G2).
    exists p2, (w ++ brk g nl ++ spaces j ++ w'), nl', ((k', v') :: ps'). split; [exact R2|].
    split; [rewrite C2, D1, C1; repeat (rewrite <- !app_assoc; cbn [app]); reflexivity|]. split; [eapply BM_more; eassumption|]. split; [exact T2|]. constructor; [split; assumption|exact G2].
Qed.

(* ---- the place of the first item ---- *)
Lemma inner_nonneg i : (-1 <= i)%Z -> (0 <= inner g i)%Z.
Proof. unfold inner. destruct (i <? 0)%Z eqn:E; lia. Qed.
Lemma first_placed i p j : ready i p -> (0 <= j)%Z -> (p_indention p = true -> j = inner g i) ->
  chars (write_indent g j p) = chars p ++ pad g (comp_of p) j /\ placed j (write_indent g j p) /\ (j = inner g i -> pad_ok (p_white p) (comp_of p) j).
Proof.
  intros Rd Hj Hi. unfold comp_of, placed. destruct (p_indention p) eqn:I.
  - destruct (Rd I) as [L1 L2]. rewrite <- (Hi eq_refl) in L1, L2. destruct (compact_indent g p j Hj I L1 L2) as (A & B & C & D). split; [exact A|]. split; [auto|]. intros _. split; assumption.
  - destruct (after_indent g false p j Hj I) as (A & B & C & D). split; [exact A|]. split; [auto|]. intros _. exact Logic.I.
Qed.
Lemma fits_inner i h : (-1 <= i)%Z -> fits i (S h) -> fits (inner g i) h.
Proof. unfold EmitFlow.fits, inner. intros Hi H. destruct (i <? 0)%Z eqn:E; nia. Qed.

Lemma lead_pad p pw : pw <> [] -> lead p pw = gap_text (p_white p) ++ pw.
Proof. destruct pw; [congruence|reflexivity]. Qed.

Lemma not_flow style (empty : bool) : negb (0 =? 0)%Z || canonical || cstyle_eqb style FlowColl || empty = false -> coll_style_read canonical empty style BlockColl.
Proof. cbn [Z.eqb negb orb]. intros H [K|[-> |K]]; [rewrite K in H; discriminate|rewrite orb_true_r in H; discriminate|rewrite K, orb_true_r in H; discriminate]. Qed.
Theorem block_run x : block_node x.
Proof.
  induction x as [a|a t v pi qi style|a t im style xs IH|a t im style ps IH] using tree_induction; intros mapping s ss i is p es mf Hi Hm Fi Ni Rd O.
  - destruct O as (s0 & mp & si & y & r & d & m1 & El & A & E & R). cbn [events_of app] in El. injection El as <- <-.
    destruct (alias_run g T _ _ _ _ _ _ _ _ _ _ _ _ _ _ _ A E) as (p2 & Em & Ok & Ti & C & Ol). subst m1. rewrite app_nil_r in C.
    exists p2, (gap_text (p_white p)), (0x2A :: a), false, (Alias a). split; [eexists; eexists; eexists; eexists; exact R|]. split; [exact C|]. split; [|split; [apply tight_after; exact Ti|constructor]]. eapply B_leaf. apply L_alias. exact Ok.
  - destruct O as (s0 & mp & si & y & r & d & m1 & El & A & E & R). cbn [events_of app] in El. injection El as <- <-. inversion Ni as [|? ? N1 _]; subst.
    destruct (scalar_run g T e lim Hind HT NT He _ _ _ _ _ _ _ _ _ _ _ _ _ _ _ _ _ _ _ _ A N1 Hi (fits_content g lim Hind _ _ Fi) E) as (p2 & d2 & t' & style' & pw & pt & Em & P & Tr & Fp & Lp & X). subst m1.
    assert (Rs : resumes s ss i is 0 p2 es mf) by (eexists; eexists; eexists; eexists; exact R). clear R. inversion X as [st w C Ti Sx Sw|Ev _ _ C Ti|lit w _ _ Nv C B Dg Hf Pa].
    + subst st. exists p2, (gap_text (p_white p)), (pw ++ sep pw ++ w), false, (read_scalar a t' v style'). split; [exact Rs|]. split; [exact C|]. split; [|split; [apply tight_after; exact Ti|constructor; [apply Tr|apply Tr|split; [left; reflexivity|reflexivity]]]].
      eapply B_leaf. apply L_scalar; eassumption.
    + subst v style'. destruct pw as [|c pw].
      * destruct (ptext_nil _ _ _ _ P) as [-> ->]. exists p2, [], [], false, null. split; [exact Rs|]. split; [exact C|]. split; [apply B_null|]. split; [apply tight_after; exact Ti|]. apply (A_scalar canonical None t None [] pi qi true false style Plain (proj1 Tr) (proj2 Tr)). split; [left; reflexivity|reflexivity].
      * exists p2, (gap_text (p_white p)), (c :: pw), false, (Scalar a t' [] (implicit_of t') false Plain). split; [exact Rs|]. split; [exact C|]. split; [eapply B_empty; [exact P|discriminate]|]. split; [apply tight_after; exact Ti|]. apply (A_scalar canonical a t t' [] pi qi _ _ style Plain (proj1 Tr) (proj2 Tr)). split; [right; auto|destruct t'; reflexivity].
    + exists p2, (gap_text (p_white p)), (pw ++ sep pw ++ block_body g lit v w), (is_break (last v 0)), (read_scalar a t' v style'). split; [exact Rs|]. split; [exact C|]. split; [|split; [exact Pa|constructor; [apply Tr|apply Tr|split; [left; reflexivity|reflexivity]]]].
      subst style'. eapply B_block; eassumption.
  - destruct (goes_flow g 0 (Sequence a t im style xs)) eqn:Gf.
    + destruct (coll_run g T e lim Hind HT NT He _ (parts_run g T e lim Hind HT NT He _) _ _ _ _ _ _ _ _ _ _ (Z.le_refl 0) Hi Fi Ni Gf O) as (p2 & w & x' & R2 & C2 & T2 & X2 & G2).
      exists p2, (gap_text (p_white p)), w, false, x'. split; [exact R2|]. split; [exact C2|]. split; [apply B_coll; exact X2|]. split; [apply tight_after; exact T2|exact G2].
    + cbn [events_of] in O, Ni. inversion Ni as [|? ? N1 N2]; subst; apply Forall_app in N2 as [N2 _]. change (flat_map events_of xs) with (items_events xs) in *. cbn [app] in O. rewrite <- app_assoc in O. cbn [app] in O.
      destruct (seq_start g T e lim HT NT He _ _ _ _ _ _ _ _ _ _ _ _ _ _ N1 O) as (t' & pw & pt & p1 & l & d & A & P & Tr & C1 & P1 & P2 & _ & _ & R). rewrite seq_flows, Gf in R.
      destruct xs as [|x xs]; [cbn [goes_flow] in Gf; rewrite orb_true_r in Gf; discriminate|]. inversion IH as [|? ? Bx Bxs]; subst.
      destruct (events_head x) as (y0 & r & Ey & Ny). assert (El : items_events (x :: xs) ++ ESeqEnd :: es = y0 :: (r ++ items_events xs) ++ ESeqEnd :: es) by (change (items_events (x :: xs)) with (events_of x ++ items_events xs); rewrite Ey; reflexivity).
      rewrite El in R. apply stepped in R as (d1 & m1 & A1 & S & R). unfold state_machine in S. cbn [m_state em EmitLeaf.em] in S.
      pose proof (dash_step true (s :: ss) _ i is p1 mapping false d1 y0 _ m1 mf Ny A1 eq_refl S R) as O2. cbv zeta in O2. set (j := if (i <? 0)%Z then 0%Z else if mapping && negb (p_indention p1) then i else (i + g_indent g)%Z) in *. rewrite <- El in O2.
      assert (Hj : (0 <= j)%Z) by (unfold j; destruct (i <? 0)%Z eqn:Q; [lia|]; destruct (mapping && _); lia).
      assert (Rd1 : ready i p1) by (destruct pw; [rewrite (P1 eq_refl); exact Rd|destruct P2 as [_ K]; [discriminate|]; intros Q; congruence]).
      assert (J1 : p_indention p1 = true -> j = inner g i) by (intros Q; unfold j, inner; rewrite Q, andb_false_r; reflexivity).
      assert (J2 : j = inner g i \/ (j = i /\ mapping = true /\ (0 <= i)%Z /\ p_indention p1 = false)).
      { unfold j, inner. destruct (i <? 0)%Z eqn:Q; [left; reflexivity|]. destruct mapping; [|left; reflexivity]. destruct (p_indention p1); [left; reflexivity|right]. repeat split; lia. }
      destruct (first_placed i p1 j Rd1 Hj J1) as (D1 & D2 & D3). destruct (mark_step 0x2D j (write_indent g j p1) D2) as [D5 D6].
      assert (Fj : fits j (heights (x :: xs))) by (destruct J2 as [-> |(-> & _)]; [apply fits_inner; [exact Hi|exact Fi]|apply (EmitFlow.fits_less g lim Hind i _ _ Fi); cbn [height]; unfold heights; lia]).
      destruct (bseq_run xs x Bx Bxs _ _ _ _ _ _ _ _ Hj Fj N2 D6 O2) as (p2 & w & nl & xs' & R2 & C2 & X2 & T2 & G2).
      destruct pw as [|c pw].
      * specialize (P1 eq_refl). subst p1. destruct (ptext_nil _ _ _ _ P) as [-> ->].
        exists p2, (pad g (comp_of p) j), (0x2D :: w), nl, (Sequence None None true BlockColl xs'). split; [exact R2|].
        split; [rewrite C2; unfold dash; rewrite D5, D1; repeat (rewrite <- !app_assoc; cbn [app]); reflexivity|]. split; [|split; [exact T2|constructor; [assumption|apply (not_flow _ _ Gf)|assumption]]].
        destruct J2 as [J2|(J2 & -> & J3 & J4)].
        -- pose proof (D3 J2) as PO. rewrite J2 in *. apply B_seq; assumption.
        -- unfold comp_of. rewrite J4. rewrite J2 in *. apply B_indentless; assumption.
      * destruct P2 as [W2 I2]; [discriminate|]. assert (Cm : comp_of p1 = None) by (unfold comp_of; rewrite I2; reflexivity). rewrite Cm in D1.
        exists p2, (gap_text (p_white p)), ((c :: pw) ++ pad g None j ++ 0x2D :: w), nl, (Sequence a t' (implicit_of t') BlockColl xs'). split; [exact R2|].
        split; [rewrite C2; unfold dash; rewrite D5, D1, C1, lead_pad by discriminate; repeat (rewrite <- !app_assoc; cbn [app]); reflexivity|]. split; [|split; [exact T2|constructor; [assumption|apply (not_flow _ _ Gf)|assumption]]].
        destruct J2 as [J2|(J2 & -> & J3 & J4)]; rewrite J2 in *.
        -- eapply B_seq_props; [exact P|discriminate|exact X2].
        -- eapply B_indentless_props; [exact J3|exact P|discriminate|exact X2].
  - destruct (goes_flow g 0 (Mapping a t im style ps)) eqn:Gf.
    + destruct (coll_run g T e lim Hind HT NT He _ (parts_run g T e lim Hind HT NT He _) _ _ _ _ _ _ _ _ _ _ (Z.le_refl 0) Hi Fi Ni Gf O) as (p2 & w & x' & R2 & C2 & T2 & X2 & G2).
      exists p2, (gap_text (p_white p)), w, false, x'. split; [exact R2|]. split; [exact C2|]. split; [apply B_coll; exact X2|]. split; [apply tight_after; exact T2|exact G2].
    + cbn [events_of] in O, Ni. inversion Ni as [|? ? N1 N2]; subst; apply Forall_app in N2 as [N2 _]. fold (pairs_events ps) in *. cbn [app] in O. rewrite <- app_assoc in O. cbn [app] in O.
      destruct (map_start g T e lim HT NT He _ _ _ _ _ _ _ _ _ _ _ _ _ _ N1 O) as (t' & pw & pt & p1 & l & d & A & P & Tr & C1 & P1 & P2 & _ & _ & R). rewrite map_flows, Gf in R.
      destruct ps as [|[k v] ps]; [cbn [goes_flow] in Gf; rewrite orb_true_r in Gf; discriminate|]. inversion IH as [|? ? [Bk Bv] Bps]; subst. cbn [fst snd] in Bk, Bv.
      destruct (events_head k) as (y0 & r & Ey & Ny). assert (El : pairs_events ((k, v) :: ps) ++ EMapEnd :: es = y0 :: ((r ++ events_of v) ++ pairs_events ps) ++ EMapEnd :: es) by (change (pairs_events ((k, v) :: ps)) with ((events_of k ++ events_of v) ++ pairs_events ps); rewrite Ey; reflexivity).
      rewrite El in R. apply stepped in R as (d1 & m1 & A1 & S & R). unfold state_machine in S. cbn [m_state em EmitLeaf.em] in S.
      pose proof (entry_step true (s :: ss) _ i is p1 mapping false d1 y0 _ m1 mf Ny A1 eq_refl S R) as O2. cbv zeta in O2. pose proof (inner_nonneg i Hi) as Hj. rewrite <- El in O2.
      assert (Rd1 : ready i p1) by (destruct pw; [rewrite (P1 eq_refl); exact Rd|destruct P2 as [_ K]; [discriminate|]; intros Q; congruence]).
      destruct (first_placed i p1 (inner g i) Rd1 Hj (fun _ => eq_refl)) as (D1 & D2 & D3). specialize (D3 eq_refl).
      assert (Fj : fits (inner g i) (pheights ((k, v) :: ps))) by (apply fits_inner; [exact Hi|exact Fi]).
      destruct (bmap_run ps k v Bk Bv Bps _ _ _ _ _ _ _ _ Hj Fj N2 D2 O2) as (p2 & w & nl & ps' & R2 & C2 & X2 & T2 & G2).
      destruct pw as [|c pw].
      * specialize (P1 eq_refl). subst p1. destruct (ptext_nil _ _ _ _ P) as [-> ->].
        exists p2, (pad g (comp_of p) (inner g i)), w, nl, (Mapping None None true BlockColl ps'). split; [exact R2|].
        split; [rewrite C2, D1; repeat (rewrite <- !app_assoc; cbn [app]); reflexivity|]. split; [|split; [exact T2|constructor; [assumption|apply (not_flow _ _ Gf)|assumption]]]. apply B_map; assumption.
      * destruct P2 as [W2 I2]; [discriminate|]. assert (Cm : comp_of p1 = None) by (unfold comp_of; rewrite I2; reflexivity). rewrite Cm in D1.
        exists p2, (gap_text (p_white p)), ((c :: pw) ++ pad g None (inner g i) ++ w), nl, (Mapping a t' (implicit_of t') BlockColl ps'). split; [exact R2|].
        split; [rewrite C2, D1, C1, lead_pad by discriminate; repeat (rewrite <- !app_assoc; cbn [app]); reflexivity|]. split; [|split; [exact T2|constructor; [assumption|apply (not_flow _ _ Gf)|assumption]]].
        eapply B_map_props; [exact P|discriminate|exact X2].
Qed.
End Block.
