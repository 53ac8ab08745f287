(* The marks of events and of the errors of the parser (C74). *)
From Verif Require Import Base Types ReaderModel CursorModel ScannerModel ScannerSpec ScannerFinal ParserModel EventMarksSpec.

(* the tokens come in order, none of them before [lo] *)
Fixpoint ord (lo : N) (l : list token) : Prop :=
  match l with
  | [] => True
  | t :: r => lo <= m_index (t_start t) /\ m_index (t_start t) <= m_index (t_end t) /\ ord (m_index (t_end t)) r
  end.
(* the event that opens a collection ends with a token that is taken by the next call *)
Definition ord1 (lo : N) (l : list token) : Prop :=
  match l with [] => True | t :: r => m_index (t_start t) <= m_index (t_end t) /\ lo <= m_index (t_end t) /\ ord (m_index (t_end t)) r end.
Definition ahead (lo : N) (s : pstate) (l : list token) : Prop :=
  match s with
  | PS_BSeqFirst | PS_BMapFirst | PS_FSeqFirst | PS_FMapFirst => ord1 lo l
  | PS_Indentless => ord lo l \/ ord1 lo l /\ match l with t :: _ => t_tok t = TBlockEntry | [] => False end
  | _ => ord lo l
  end.
Lemma ord_ord1 lo l : ord lo l -> ord1 lo l.
Proof. destruct l as [|t r]; cbn; [auto|]. intros (H1 & H2 & H3). split; [exact H2|]. split; [lia|exact H3]. Qed.
Lemma ord_ahead lo s l : ord lo l -> ahead lo s l.
Proof. intros H. destruct s; cbn [ahead]; auto using ord_ord1. Qed.
Lemma ord_le lo lo' l : lo' <= lo -> ord lo l -> ord lo' l.
Proof. destruct l; cbn; [auto|]. intros H (H1 & H2). split; [lia|exact H2]. Qed.

Section Marks.
Variable P : mark -> Prop.
Definition tok_ok (t : token) : Prop := P (t_start t) /\ P (t_end t).
Definition opt_ok (m : option mark) : Prop := match m with Some m => P m | None => True end.
Definition err_ok (e : option perr) : Prop := match e with Some e => opt_ok (pe_context e) /\ opt_ok (pe_mark e) | None => True end.
Record marks_ok (p : parser) : Prop := mkMarksOk {
  mo_in : Forall tok_ok (p_in p);
  mo_marks : Forall P (p_marks p);
  mo_error : err_ok (p_error p) }.
Definition good (lo : N) (o : pout) : Prop :=
  match o with
  | PEvent e p' => lo <= m_index (e_start e) /\ m_index (e_start e) <= m_index (e_end e) /\ P (e_start e) /\ P (e_end e) /\
                   ahead (m_index (e_end e)) (p_state p') (p_in p') /\ marks_ok p'
  | PNothing p' => True
  | PFail p' => err_ok (p_error p')
  | PUB => True
  end.

Lemma mo_skip p : marks_ok p -> marks_ok (skip p).
Proof. intros [A B C]. unfold skip. destruct (p_in p) eqn:E; [constructor; rewrite ?E; auto|]. inversion A; subst. constructor; assumption. Qed.
Lemma mo_set p s : marks_ok p -> marks_ok (set_state p s).
Proof. intros []. constructor; assumption. Qed.
Lemma mo_push p s : marks_ok p -> marks_ok (push_state p s).
Proof. intros []. constructor; assumption. Qed.
Lemma mo_tags p s : marks_ok p -> marks_ok (set_tags p s).
Proof. intros []. constructor; assumption. Qed.
Lemma good_pop_state lo p k : (forall s ss, marks_ok p -> good lo (k (mkParser (p_in p) (p_end p) (p_error p) s ss (p_marks p) (p_tags p)))) -> marks_ok p -> good lo (pop_state p k).
Proof. intros H M. unfold pop_state. destruct (p_states p); [exact I|]. apply H. exact M. Qed.
Lemma good_pop_mark lo p k : (forall m ms, P m -> marks_ok (mkParser (p_in p) (p_end p) (p_error p) (p_state p) (p_states p) ms (p_tags p)) -> good lo (k m (mkParser (p_in p) (p_end p) (p_error p) (p_state p) (p_states p) ms (p_tags p)))) -> marks_ok p -> good lo (pop_mark p k).
Proof. intros H [A B C]. unfold pop_mark. destruct (p_marks p); [exact I|]. inversion B; subst. apply H; [assumption|constructor; assumption]. Qed.
Lemma good_peek lo p k : (forall t r, p_in p = t :: r -> tok_ok t -> good lo (k t)) -> marks_ok p -> good lo (peek p k).
Proof. intros H [A B C]. unfold peek. destruct (p_in p); [split; exact I|]. inversion A; subst. exact (H _ _ eq_refl H2). Qed.
Lemma good_error lo p pr m : P m -> good lo (error p pr m).
Proof. intros H. split; [exact I|exact H]. Qed.
Lemma good_error_context lo p pr c m : P c -> P m -> good lo (error_context p pr c m).
Proof. intros H H'. split; assumption. Qed.
Lemma good_ret lo e s m p : lo <= m_index s -> m_index s <= m_index m -> P s -> P m -> ord (m_index m) (p_in p) -> marks_ok p -> good lo (ret e s m p).
Proof. intros. cbn. repeat (split; [solve [auto using ord_ahead]|]). assumption. Qed.

Lemma good_content p block indentless anchor tag s m t r lo :
  p_in p = t :: r -> marks_ok p -> lo <= m_index s -> m_index s <= m_index m -> m_index s <= m_index (t_start t) -> P s -> P m ->
  ord (m_index m) (t :: r) -> good lo (parse_content p block indentless anchor tag s m t).
Proof.
  intros E M H1 H2 H3 Ps Pm (O1 & O2 & O3). pose proof (mo_in _ M) as A. rewrite E in A. inversion A as [|tx rx HT A']; subst; destruct HT as [T1 T2].
  unfold parse_content. destruct (indentless && _) eqn:B.
  { apply andb_prop in B as [_ B]. cbn. rewrite E. split; [exact H1|]. split; [lia|]. split; [exact Ps|]. split; [exact T2|]. split; [|apply mo_set; exact M].
    right. cbn. split; [split; [lia|]; split; [lia|exact O3]|]. destruct (t_tok t); try discriminate. reflexivity. }
  assert (F : good lo (match anchor, tag with None, None => error_context p (NoNodeContent block) s (t_start t)
     | _, _ => pop_state p (fun p => ret (EScalar anchor tag [] (match tag with None => true | Some [] => true | Some _ => false end) false Plain) s m p) end)).
  { assert (G : good lo (pop_state p (fun p => ret (EScalar anchor tag [] (match tag with None => true | Some [] => true | Some _ => false end) false Plain) s m p))).
    { apply good_pop_state; [|exact M]. intros st ss [M1 M2 M3]. apply good_ret; auto; [cbn [p_in]; rewrite E; cbn; auto|constructor; assumption]. }
    destruct anchor; [exact G|]. destruct tag; [exact G|]. apply good_error_context; assumption. }
  assert (C : forall e st, (st = PS_BSeqFirst \/ st = PS_BMapFirst \/ st = PS_FSeqFirst \/ st = PS_FMapFirst) ->
     good lo (if t_deep t then error_context p MaxNesting s (t_start t) else ret e s (t_end t) (set_state p st))).
  { intros e st Hst. destruct (t_deep t); [apply good_error_context; assumption|]. cbn. rewrite E. split; [exact H1|]. split; [lia|]. split; [exact Ps|]. split; [exact T2|]. split; [|apply mo_set; exact M].
    assert (ord1 (m_index (t_end t)) (t :: r)) by (cbn; split; [lia|]; split; [lia|exact O3]). destruct Hst as [Hs|[Hs|[Hs|Hs]]]; subst st; cbn [ahead]; assumption. }
  destruct (t_tok t); destruct block; try exact F; try (apply C; auto).
  all: apply good_pop_state; [|exact M]; intros st ss [M1 M2 M3]; apply good_ret; auto; try lia.
  all: try (unfold skip; cbn [p_in]; rewrite E; cbn [p_in]; exact O3).
  all: apply mo_skip; constructor; assumption.
Qed.

Lemma good_with_tag lo p tag s k : P s -> match tag with Some (_, _, m) => P m | None => True end -> (forall t, good lo (k t)) -> good lo (with_tag p tag s k).
Proof. intros Ps Pm K. unfold with_tag. destruct tag as [[[h u] m]|]; [|apply K]. destruct (resolve_tag _ _ _); [apply K|apply good_error_context; assumption]. Qed.
Lemma skip_in p t r : p_in p = t :: r -> p_in (skip p) = r.
Proof. unfold skip. intros ->. reflexivity. Qed.

Lemma good_node p block indentless lo : marks_ok p -> ord lo (p_in p) -> good lo (parse_node p block indentless).
Proof.
  intros M O. unfold parse_node. apply good_peek; [|exact M]. intros t r E [T1 T2]. rewrite E in O. pose proof O as (O1 & O2 & O3).
  assert (Z : good lo (parse_content p block indentless None None (t_start t) (t_start t) t)).
  { apply (good_content _ _ _ _ _ _ _ t r); auto; try lia. cbn. split; [lia|]. auto. }
  destruct (t_tok t) eqn:Et; try exact Z; clear Z.
  - apply good_pop_state; [|exact M]. intros st ss [M1 M2 M3]. apply good_ret; auto.
    + unfold skip. cbn [p_in]. rewrite E. exact O3.
    + apply mo_skip. constructor; assumption.
  - cbv zeta. apply good_peek; [|apply mo_skip; exact M]. intros t2 r2 E2 [U1 U2]. rewrite (skip_in _ _ _ E) in E2. subst r. destruct O3 as (Q1 & Q2 & Q3).
    assert (Z : good lo (parse_content (skip p) block indentless (Some name) None (t_start t) (t_end t) t2)).
    { apply (good_content _ _ _ _ _ _ _ t2 r2); auto; try lia; [exact (skip_in _ _ _ E)|apply mo_skip; exact M|cbn; auto]. }
    destruct (t_tok t2); try exact Z. apply good_peek; [|apply mo_skip, mo_skip; exact M]. intros t3 r3 E3 [V1 V2].
    rewrite (skip_in _ _ _ (skip_in _ _ _ E)) in E3. subst r2. destruct Q3 as (R1 & R2 & R3).
    apply good_with_tag; auto. intros tg. apply (good_content _ _ _ _ _ _ _ t3 r3); auto; try lia; [exact (skip_in _ _ _ (skip_in _ _ _ E))|apply mo_skip, mo_skip; exact M|cbn; auto].
  - cbv zeta. apply good_peek; [|apply mo_skip; exact M]. intros t2 r2 E2 [U1 U2]. rewrite (skip_in _ _ _ E) in E2. subst r. destruct O3 as (Q1 & Q2 & Q3).
    assert (Z : good lo (with_tag (skip p) (Some (handle, suffix, t_start t)) (t_start t) (fun tag => parse_content (skip p) block indentless None tag (t_start t) (t_end t) t2))).
    { apply good_with_tag; auto. intros tg. apply (good_content _ _ _ _ _ _ _ t2 r2); auto; try lia; [exact (skip_in _ _ _ E)|apply mo_skip; exact M|cbn; auto]. }
    destruct (t_tok t2); try exact Z. apply good_peek; [|apply mo_skip, mo_skip; exact M]. intros t3 r3 E3 [V1 V2].
    rewrite (skip_in _ _ _ (skip_in _ _ _ E)) in E3. subst r2. destruct Q3 as (R1 & R2 & R3).
    apply good_with_tag; auto. intros tg. apply (good_content _ _ _ _ _ _ _ t3 r3); auto; try lia; [exact (skip_in _ _ _ (skip_in _ _ _ E))|apply mo_skip, mo_skip; exact M|cbn; auto].
Qed.

Lemma good_peek_ord lo0 lo p k : marks_ok p -> ord lo0 (p_in p) ->
  (forall t r, p_in p = t :: r -> P (t_start t) -> P (t_end t) -> lo0 <= m_index (t_start t) -> m_index (t_start t) <= m_index (t_end t) -> ord (m_index (t_end t)) r -> good lo (k t)) ->
  good lo (peek p k).
Proof. intros M O K. apply good_peek; [|exact M]. intros t r E [T1 T2]. rewrite E in O. destruct O as (O1 & O2 & O3). exact (K t r E T1 T2 O1 O2 O3). Qed.
Lemma good_node_from lo0 lo p block indentless : lo <= lo0 -> marks_ok p -> ord lo0 (p_in p) -> good lo (parse_node p block indentless).
Proof. intros H M O. apply good_node; [exact M|]. exact (ord_le _ _ _ H O). Qed.
Lemma in_skip_set p s t r : p_in p = t :: r -> p_in (skip (set_state p s)) = r.
Proof. unfold skip, set_state. cbn [p_in]. intros ->. reflexivity. Qed.
Lemma good_enter lo p (first : bool) k : marks_ok p -> (if first then ord1 lo (p_in p) else ord lo (p_in p)) ->
  (forall p', marks_ok p' -> ord lo (p_in p') -> good lo (k p')) -> good lo (enter p first k).
Proof.
  intros M O K. unfold enter. destruct first; [|auto]. unfold peek_unchecked. destruct (p_in p) as [|t r] eqn:E; [exact I|]. destruct O as (O1 & O2 & O3).
  pose proof (mo_in _ M) as A. rewrite E in A. inversion A as [|tx rx HT A']; subst. apply K.
  - apply mo_skip. destruct M as [M1 M2 M3]. constructor; [exact M1|constructor; [exact (proj1 HT)|exact M2]|exact M3].
  - unfold skip, push_mark. cbn [p_in]. rewrite E. cbn [p_in]. exact (ord_le _ _ _ O2 O3).
Qed.
Lemma good_end lo p e t r : marks_ok p -> p_in p = t :: r -> P (t_start t) -> P (t_end t) -> lo <= m_index (t_start t) -> m_index (t_start t) <= m_index (t_end t) -> ord (m_index (t_end t)) r ->
  good lo (end_collection p e t).
Proof.
  intros M E T1 T2 H1 H2 O. unfold end_collection. apply good_pop_state; [|exact M]. intros s ss [M1 M2 M3]. apply good_pop_mark; [|constructor; assumption].
  intros m ms _ M'. apply good_ret; auto; [unfold skip; cbn [p_in]; rewrite E; exact O|apply mo_skip; exact M'].
Qed.

Ltac mo := repeat first [assumption | apply mo_skip | apply mo_set | apply mo_push | apply mo_tags].
Ltac ins := cbn [set_state push_state set_tags p_in]; repeat match goal with
  | E : p_in ?p = ?t :: ?r |- context [p_in (skip ?p)] => rewrite (skip_in _ _ _ E)
  | E : p_in ?p = ?t :: ?r |- context [p_in (skip (set_state ?p ?s))] => rewrite (in_skip_set p s _ _ E)
  | E : p_in ?p = ?t :: ?r |- context [p_in ?p] => rewrite E end.
Ltac ordg := ins; cbn [ord]; repeat split; try assumption; try lia.
Ltac pk lo0 := apply (good_peek_ord lo0); [mo|solve [ordg]|].
Ltac fin := unfold process_empty_scalar; apply good_ret; [lia|lia|assumption|assumption|solve [ordg]|mo].
Ltac node lo0 := apply (good_node_from lo0); [lia|mo|solve [ordg]].

Lemma good_block_sequence lo p (first : bool) : marks_ok p -> (if first then ord1 lo (p_in p) else ord lo (p_in p)) -> good lo (parse_block_sequence_entry p first).
Proof.
  intros M O. apply good_enter; [exact M|exact O|]. clear p M O. intros p M O. pk lo. intros t r E T1 T2 H1 H2 O2.
  assert (Z : good lo (pop_mark p (fun m p0 => error_context p0 NoBlockEntry m (t_start t)))) by (apply good_pop_mark; [|exact M]; intros; apply good_error_context; assumption).
  destruct (t_tok t); try exact Z; clear Z.
  - exact (good_end lo p ESeqEnd t r M E T1 T2 H1 H2 O2).
  - cbv zeta. pk (m_index (t_end t)). intros t2 r2 E2 U1 U2 K1 K2 O3. rewrite (skip_in _ _ _ E) in E2. subst r.
    destruct (t_tok t2); first [fin|node (m_index (t_end t))].
Qed.
Lemma good_indentless lo p : marks_ok p -> ahead lo PS_Indentless (p_in p) -> good lo (parse_indentless_sequence_entry p).
Proof.
  intros M O. unfold parse_indentless_sequence_entry. apply good_peek; [|exact M]. intros t r E [T1 T2].
  assert (K : m_index (t_start t) <= m_index (t_end t) /\ lo <= m_index (t_end t) /\ ord (m_index (t_end t)) r /\ (t_tok t = TBlockEntry \/ lo <= m_index (t_start t))).
  { rewrite E in O. destruct O as [(O1 & O2 & O3)|[(O1 & O2 & O3) Et]]; repeat split; auto; lia. }
  clear O. destruct K as (H2 & H3 & O2 & H1).
  assert (Z : lo <= m_index (t_start t) -> good lo (pop_state p (fun p0 => ret ESeqEnd (t_start t) (t_start t) p0))).
  { intros H. apply good_pop_state; [|exact M]. intros s ss M'. apply good_ret; auto; [lia|ordg|destruct M; constructor; assumption]. }
  destruct (t_tok t); try (apply Z; destruct H1 as [H1|H1]; [discriminate|exact H1]); clear Z.
  cbv zeta. pk (m_index (t_end t)). intros t2 r2 E2 U1 U2 K1 K2 O3. rewrite (skip_in _ _ _ E) in E2. subst r.
  destruct (t_tok t2); first [fin|node (m_index (t_end t))].
Qed.
Lemma good_block_key lo p (first : bool) : marks_ok p -> (if first then ord1 lo (p_in p) else ord lo (p_in p)) -> good lo (parse_block_mapping_key p first).
Proof.
  intros M O. apply good_enter; [exact M|exact O|]. clear p M O. intros p M O. pk lo. intros t r E T1 T2 H1 H2 O2.
  assert (Z : good lo (pop_mark p (fun m p0 => error_context p0 NoKey m (t_start t)))) by (apply good_pop_mark; [|exact M]; intros; apply good_error_context; assumption).
  destruct (t_tok t); try exact Z; clear Z.
  - exact (good_end lo p EMapEnd t r M E T1 T2 H1 H2 O2).
  - cbv zeta. pk (m_index (t_end t)). intros t2 r2 E2 U1 U2 K1 K2 O3. rewrite (skip_in _ _ _ E) in E2. subst r.
    destruct (t_tok t2); first [fin|node (m_index (t_end t))].
Qed.
Lemma good_block_value lo p : marks_ok p -> ord lo (p_in p) -> good lo (parse_block_mapping_value p).
Proof.
  intros M O. unfold parse_block_mapping_value. pk lo. intros t r E T1 T2 H1 H2 O2. destruct (t_tok t); try fin.
  cbv zeta. pk (m_index (t_end t)). intros t2 r2 E2 U1 U2 K1 K2 O3. rewrite (skip_in _ _ _ E) in E2. subst r.
  destruct (t_tok t2); first [fin|node (m_index (t_end t))].
Qed.
Lemma good_flow_sequence lo p (first : bool) : marks_ok p -> (if first then ord1 lo (p_in p) else ord lo (p_in p)) -> good lo (parse_flow_sequence_entry p first).
Proof.
  intros M O. apply good_enter; [exact M|exact O|]. clear p M O. intros p M O. pk lo. intros t r E T1 T2 H1 H2 O2.
  assert (En : forall p t r, marks_ok p -> p_in p = t :: r -> P (t_start t) -> P (t_end t) -> lo <= m_index (t_start t) -> m_index (t_start t) <= m_index (t_end t) -> ord (m_index (t_end t)) r ->
    good lo (match t_tok t with
          | TKey => ret (EMapStart None None true FlowColl) (t_start t) (t_end t) (skip (set_state p PS_FSeqMapKey))
          | TFlowSeqEnd => end_collection p ESeqEnd t
          | _ => parse_node (push_state p PS_FSeqEntry) false false
          end)).
  { clear. intros p t r M E T1 T2 H1 H2 O2. pose proof (good_end lo p ESeqEnd t r M E T1 T2 H1 H2 O2) as G. destruct (t_tok t); first [exact G|fin|node lo]. }
  pose proof (good_end lo p ESeqEnd t r M E T1 T2 H1 H2 O2) as G. pose proof (En p t r M E T1 T2 H1 H2 O2) as EnT.
  assert (Z : good lo (pop_mark p (fun m p0 => error_context p0 NoFlowSeqEntry m (t_start t)))) by (apply good_pop_mark; [|exact M]; intros; apply good_error_context; assumption).
  cbv zeta. destruct first.
  - destruct (t_tok t); first [exact G|exact EnT].
  - clear EnT. destruct (t_tok t); try exact G; try exact Z. pk (m_index (t_end t)). intros t2 r2 E2 U1 U2 K1 K2 O3. apply (En _ _ r2); auto; [mo|lia].
Qed.
Lemma good_pair_key lo p : marks_ok p -> ord lo (p_in p) -> good lo (parse_flow_sequence_entry_mapping_key p).
Proof.
  intros M O. unfold parse_flow_sequence_entry_mapping_key. pk lo. intros t r E T1 T2 H1 H2 O2. destruct (t_tok t); first [fin|node lo].
Qed.
Lemma good_pair_value lo p : marks_ok p -> ord lo (p_in p) -> good lo (parse_flow_sequence_entry_mapping_value p).
Proof.
  intros M O. unfold parse_flow_sequence_entry_mapping_value. pk lo. intros t r E T1 T2 H1 H2 O2. destruct (t_tok t); try fin.
  cbv zeta. pk (m_index (t_end t)). intros t2 r2 E2 U1 U2 K1 K2 O3. rewrite (skip_in _ _ _ E) in E2. subst r.
  destruct (t_tok t2); first [fin|node (m_index (t_end t))].
Qed.
Lemma good_pair_end lo p : marks_ok p -> ord lo (p_in p) -> good lo (parse_flow_sequence_entry_mapping_end p).
Proof. intros M O. unfold parse_flow_sequence_entry_mapping_end. pk lo. intros t r E T1 T2 H1 H2 O2. fin. Qed.
Lemma good_flow_key lo p (first : bool) : marks_ok p -> (if first then ord1 lo (p_in p) else ord lo (p_in p)) -> good lo (parse_flow_mapping_key p first).
Proof.
  intros M O. apply good_enter; [exact M|exact O|]. clear p M O. intros p M O. pk lo. intros t r E T1 T2 H1 H2 O2.
  assert (En : forall p t r, marks_ok p -> p_in p = t :: r -> P (t_start t) -> P (t_end t) -> lo <= m_index (t_start t) -> m_index (t_start t) <= m_index (t_end t) -> ord (m_index (t_end t)) r ->
    good lo (match t_tok t with
          | TKey =>
              let p := skip p in
              peek p (fun token2 =>
                match t_tok token2 with
                | TValue | TFlowEntry | TFlowMapEnd =>
                    process_empty_scalar (set_state p PS_FMapValue) (t_start token2)
                | _ => parse_node (push_state p PS_FMapValue) false false
                end)
          | TFlowMapEnd => end_collection p EMapEnd t
          | _ => parse_node (push_state p PS_FMapEmptyValue) false false
          end)).
  { clear. intros p t r M E T1 T2 H1 H2 O2. pose proof (good_end lo p EMapEnd t r M E T1 T2 H1 H2 O2) as G. destruct (t_tok t); first [exact G|node lo|idtac].
    cbv zeta. pk (m_index (t_end t)). intros t2 r2 E2 U1 U2 K1 K2 O3. rewrite (skip_in _ _ _ E) in E2. subst r. destruct (t_tok t2); first [fin|node (m_index (t_end t))]. }
  pose proof (good_end lo p EMapEnd t r M E T1 T2 H1 H2 O2) as G. pose proof (En p t r M E T1 T2 H1 H2 O2) as EnT.
  assert (Z : good lo (pop_mark p (fun m p0 => error_context p0 NoFlowMapEntry m (t_start t)))) by (apply good_pop_mark; [|exact M]; intros; apply good_error_context; assumption).
  cbv zeta. destruct first.
  - destruct (t_tok t); first [exact G|exact EnT].
  - clear EnT. destruct (t_tok t); try exact G; try exact Z. pk (m_index (t_end t)). intros t2 r2 E2 U1 U2 K1 K2 O3. apply (En _ _ r2); auto; [mo|lia].
Qed.
Lemma good_flow_value lo p empty : marks_ok p -> ord lo (p_in p) -> good lo (parse_flow_mapping_value p empty).
Proof.
  intros M O. unfold parse_flow_mapping_value. pk lo. intros t r E T1 T2 H1 H2 O2. destruct empty; [fin|]. destruct (t_tok t); try fin.
  cbv zeta. pk (m_index (t_end t)). intros t2 r2 E2 U1 U2 K1 K2 O3. rewrite (skip_in _ _ _ E) in E2. subst r.
  destruct (t_tok t2); first [fin|node (m_index (t_end t))].
Qed.
Lemma good_doc_content lo p : marks_ok p -> ord lo (p_in p) -> good lo (parse_document_content p).
Proof.
  intros M O. unfold parse_document_content. pk lo. intros t r E T1 T2 H1 H2 O2.
  assert (Z : good lo (pop_state p (fun p => process_empty_scalar p (t_start t)))).
  { apply good_pop_state; [|exact M]. intros s ss M'. apply good_ret; auto; [lia|ordg|destruct M; constructor; assumption]. }
  destruct (t_tok t); first [exact Z|node lo].
Qed.
Lemma good_doc_end lo p : marks_ok p -> ord lo (p_in p) -> good lo (parse_document_end p).
Proof. intros M O. unfold parse_document_end. pk lo. intros t r E T1 T2 H1 H2 O2. destruct (t_tok t); fin. Qed.
Lemma good_stream_start lo p : marks_ok p -> ord lo (p_in p) -> good lo (parse_stream_start p).
Proof. intros M O. unfold parse_stream_start. pk lo. intros t r E T1 T2 H1 H2 O2. destruct (t_tok t); try (apply good_error; assumption). apply good_ret; auto; [lia| |mo]. ins. exact (ord_le _ _ _ H2 O2). Qed.

Definition dirs_good (lo : N) (o : dirs_out) : Prop :=
  match o with DirsOk _ _ p' => marks_ok p' /\ ord lo (p_in p') | DirsFail p' => err_ok (p_error p') end.
Lemma good_directive_loop lo fuel : forall ver dirs p, marks_ok p -> ord lo (p_in p) -> dirs_good lo (directive_loop fuel ver dirs p).
Proof.
  induction fuel as [|x fuel IH]; intros ver dirs p M O; cbn [directive_loop]; [split; exact I|].
  destruct (p_in p) as [|t r] eqn:E; [split; exact I|]. pose proof (mo_in _ M) as A. rewrite E in A. inversion A as [|tx rx HT A']; subst. destruct HT as [T1 T2]. pose proof O as (O1 & O2 & O3).
  assert (Z : dirs_good lo (DirsOk ver dirs p)) by (split; [exact M|rewrite E; exact O]).
  destruct (t_tok t); try exact Z; clear Z.
  - destruct ver; [split; [exact I|exact T1]|]. destruct (_ || _); [split; [exact I|exact T1]|]. apply IH; [mo|]. rewrite (skip_in _ _ _ E). apply (ord_le (m_index (t_end t))); [lia|exact O3].
  - destruct (append_tag_directive _ _ _); [|split; [exact I|exact T1]]. apply IH; [mo|]. unfold skip, set_tags. cbn [p_in]. rewrite E. cbn [p_in]. apply (ord_le (m_index (t_end t))); [lia|exact O3].
Qed.
Lemma good_directives lo p : marks_ok p -> ord lo (p_in p) -> dirs_good lo (process_directives p).
Proof.
  intros M O. unfold process_directives. pose proof (good_directive_loop lo (p_in p) None [] p M O) as K. destruct (directive_loop _ _ _ _); [|exact K].
  destruct K as [K1 K2]. split; [mo|exact K2].
Qed.
Lemma good_skip_doc_ends lo fuel : forall p, marks_ok p -> ord lo (p_in p) -> marks_ok (skip_doc_ends fuel p) /\ ord lo (p_in (skip_doc_ends fuel p)).
Proof.
  induction fuel as [|x fuel IH]; intros p M O; cbn [skip_doc_ends]; [auto|]. destruct (p_in p) as [|t r] eqn:E; [rewrite E; auto|].
  assert (Z : marks_ok p /\ ord lo (p_in p)) by (rewrite E; auto). destruct (t_tok t); try exact Z. apply IH; [mo|]. rewrite (skip_in _ _ _ E). destruct O as (O1 & O2 & O3). apply (ord_le (m_index (t_end t))); [lia|exact O3].
Qed.
Lemma good_doc_start lo p implicit : marks_ok p -> ord lo (p_in p) -> good lo (parse_document_start p implicit).
Proof.
  intros M O. unfold parse_document_start. pk lo. intros t0 r0 _ _ _ _ _ _. cbv zeta.
  assert (K : marks_ok (if implicit then p else skip_doc_ends (p_in p) p) /\ ord lo (p_in (if implicit then p else skip_doc_ends (p_in p) p))).
  { destruct implicit; [auto|]. apply good_skip_doc_ends; assumption. }
  revert K. generalize (if implicit then p else skip_doc_ends (p_in p) p). clear p M O. intros p [M O]. pk lo. intros t r E T1 T2 H1 H2 O2.
  assert (O' : ord (m_index (t_start t)) (p_in p)) by ordg.
  pose proof (good_directives _ _ M O') as D.
  destruct (_ && _ && _).
  - destruct (process_directives p) as [ver dirs p'|p']; [|exact D]. destruct D as [D1 D2]. apply good_ret; auto; [lia|]. mo.
  - destruct (negb _).
    + destruct (process_directives p) as [ver dirs p'|p']; [|exact D]. destruct D as [D1 D2]. pk (m_index (t_start t)). intros t2 r2 E2 U1 U2 K1 K2 O3.
      destruct (t_tok t2); try (apply good_error; assumption). apply good_ret; auto; [lia| |mo]. unfold skip. cbn [push_state set_state p_in]. rewrite E2. exact O3.
    + fin.
Qed.

Theorem good_parse lo p : marks_ok p -> ahead lo (p_state p) (p_in p) -> good lo (parse p).
Proof.
  intros M O. unfold parse. destruct (_ || _ || _); [exact I|]. unfold state_machine. destruct (p_state p) eqn:S; cbn [ahead] in O.
  - apply good_stream_start; assumption.
  - apply good_doc_start; assumption.
  - apply good_doc_start; assumption.
  - apply good_doc_content; assumption.
  - apply good_doc_end; assumption.
  - apply good_node; assumption.
  - apply good_node; assumption.
  - apply good_node; assumption.
  - apply good_block_sequence; assumption.
  - apply good_block_sequence; assumption.
  - apply good_indentless; assumption.
  - apply good_block_key; assumption.
  - apply good_block_key; assumption.
  - apply good_block_value; assumption.
  - apply good_flow_sequence; assumption.
  - apply good_flow_sequence; assumption.
  - apply good_pair_key; assumption.
  - apply good_pair_value; assumption.
  - apply good_pair_end; assumption.
  - apply good_flow_key; assumption.
  - apply good_flow_key; assumption.
  - apply good_flow_value; assumption.
  - apply good_flow_value; assumption.
  - exact (mo_error _ M).
Qed.
End Marks.

Lemma in_order_cons t l : in_order (t :: l) -> in_order l.
Proof.
  intros [A B]. split; [intros x H; apply A; right; exact H|]. intros a x b y c ->. exact (B (t :: a) x b y c eq_refl).
Qed.
Lemma in_order_ord l : forall lo, in_order l -> (forall t r, l = t :: r -> lo <= m_index (t_start t)) -> ord lo l.
Proof.
  induction l as [|t l IH]; intros lo H F; cbn [ord]; [exact I|]. split; [exact (F t l eq_refl)|]. split; [exact (proj1 H t (or_introl eq_refl))|].
  apply IH; [exact (in_order_cons _ _ H)|]. intros t2 r ->. exact (proj2 H [] t [] t2 r eq_refl).
Qed.

(* all events from [lo] on *)
Fixpoint eord (lo : N) (l : list event) : Prop :=
  match l with [] => True | x :: r => lo <= m_index (e_start x) /\ m_index (e_start x) <= m_index (e_end x) /\ eord (m_index (e_end x)) r end.
Lemma eord_ge l : forall lo y, eord lo l -> In y l -> lo <= m_index (e_start y) /\ m_index (e_start y) <= m_index (e_end y).
Proof.
  induction l as [|x l IH]; intros lo y H Hy; [destruct Hy|]. destruct H as (H1 & H2 & H3). destruct Hy as [<-|Hy]; [auto|]. destruct (IH _ _ H3 Hy). split; [lia|assumption].
Qed.
Lemma eord_in_order lo l : eord lo l -> events_in_order l.
Proof.
  intros H. split; [intros x Hx; exact (proj2 (eord_ge _ _ _ H Hx))|]. intros a x b y c ->. revert lo H. induction a as [|z a IH]; intros lo H.
  - destruct H as (_ & _ & H). apply (proj1 (eord_ge _ _ y H ltac:(apply in_or_app; right; left; reflexivity))).
  - destruct H as (_ & _ & H). exact (IH _ H).
Qed.

Lemma good_all P n : forall lo p, marks_ok P p -> ahead lo (p_state p) (p_in p) ->
  let (es, o) := parse_all n p in eord lo es /\ Forall (fun x => P (e_start x) /\ P (e_end x)) es /\
  forall er, o = ParserModel.Failed (Some er) -> err_ok P (Some er).
Proof.
  induction n as [|n IH]; intros lo p M O; cbn [parse_all]; [repeat split; [constructor|discriminate..]|].
  pose proof (good_parse P lo p M O) as G. destruct (parse p) as [e p'|p'|p'|]; cbn [good] in G.
  - destruct G as (G1 & G2 & G3 & G4 & G5 & G6). specialize (IH _ _ G6 G5). destruct (parse_all n p') as [es o]. destruct IH as (I1 & I2 & I3).
    split; [cbn; auto|]. split; [constructor; auto|exact I3].
  - split; [exact I|]. split; [constructor|discriminate].
  - split; [exact I|]. split; [constructor|]. intros er E. injection E as E. rewrite E in G. exact G.
  - split; [exact I|]. split; [constructor|discriminate].
Qed.
Theorem event_marks e nest T bad plan l s n : scans (init_scanner e nest T bad plan) l s ->
  let (es, o) := parse_all n (init_parser l) in
  events_in_order es /\
  Forall (fun x => is_end_position T (e_start x) /\ is_end_position T (e_end x)) es /\
  forall er m, o = ParserModel.Failed (Some er) -> pe_context er = Some m \/ pe_mark er = Some m -> is_end_position T m.
Proof.
  intros H. assert (M : marks_ok (is_end_position T) (init_parser l)).
  { constructor; [|constructor|exact I]. apply Forall_forall. intros t Ht. cbn [init_parser p_in] in Ht.
    destruct (scan_marks _ _ _ _ _ _ _ _ H Ht) as [[A B]|(_ & A & B)]; [split; left; assumption|]. split; [exact B|rewrite A; exact B]. }
  assert (O : ahead 0 (p_state (init_parser l)) (p_in (init_parser l))).
  { cbn [init_parser p_state p_in ahead]. apply in_order_ord; [exact (scan_in_order _ _ _ _ _ _ _ H)|intros; lia]. }
  pose proof (good_all (is_end_position T) n 0 _ M O) as K. destruct (parse_all n (init_parser l)) as [es o]. destruct K as (K1 & K2 & K3).
  split; [exact (eord_in_order _ _ K1)|]. split; [exact K2|]. intros er m E Hm. destruct (K3 er E) as [A B].
  destruct Hm as [Hm|Hm]; rewrite Hm in *; assumption.
Qed.
