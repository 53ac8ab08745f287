(* Completeness of parser.c with respect to the implemented grammar: every
   derivation is followed by the state machine. *)
From Verif Require Import Base ReaderModel Types TreeSpec GrammarSpec EventAcc ParserModel ParserInv ParserProofs ParserSound.

Inductive runs : parser -> list ev -> parser -> Prop :=
| Runs_nil p : runs p [] p
| Runs_cons p e p1 es p2 : parse p = PEvent e p1 -> runs p1 es p2 -> runs p (e_ev e :: es) p2.
Inductive emits : pout -> list ev -> parser -> Prop :=
| Emits e p1 es p2 : runs p1 es p2 -> emits (PEvent e p1) (e_ev e :: es) p2.

Lemma runs_app p es p1 fs p2 : runs p es p1 -> runs p1 fs p2 -> runs p (es ++ fs) p2.
Proof. induction 1; intros; cbn; auto. econstructor; eauto. Qed.
Lemma emits_app o es p1 fs p2 : emits o es p1 -> runs p1 fs p2 -> emits o (es ++ fs) p2.
Proof. destruct 1; intros; cbn. constructor. eapply runs_app; eauto. Qed.
Lemma emits_one e p : emits (PEvent e p) [e_ev e] p.
Proof. constructor. constructor. Qed.

Definition ready (p : parser) : Prop := p_error p = None /\ p_end p = false.
Lemma parse_ready p : ready p -> is_end_state (p_state p) = false -> parse p = state_machine p.
Proof. intros [A B] C. unfold parse. rewrite A, B, C. reflexivity. Qed.
Lemma runs_emits p es p' : ready p -> is_end_state (p_state p) = false -> emits (state_machine p) es p' -> runs p es p'.
Proof. intros R S H. rewrite <- (parse_ready p R S) in H. inversion H; subst. econstructor; eauto. Qed.

Section complete.
Variable e : env.
Hypothesis ND : NoDup (map fst e).
Notation G := implemented.

Definition ok (p : parser) : Prop := ready p /\ p_tags p = e.
Definition shallow (t : token) : Prop := t_deep t = false.
Definition at_pos (p : parser) (ts : list tok) (rest : list token) : Prop :=
  exists tin, p_in p = tin ++ rest /\ map t_tok tin = ts /\ Forall shallow tin /\ ok p.
(* where the parser is after a construct *)
Definition after (p' : parser) (rest : list token) (s : pstate) (ss : list pstate) (ms : list mark) : Prop :=
  p_in p' = rest /\ p_state p' = s /\ p_states p' = ss /\ p_marks p' = ms /\ ok p'.

Lemma at_cons p t ts rest : at_pos p (t :: ts) rest -> exists tk r, p_in p = tk :: r /\ t_tok tk = t /\ t_deep tk = false /\ ok p /\
  (is_stream_end t = false -> at_pos (skip p) ts rest).
Proof.
  intros ([|tk tin] & A & B & C & D); [discriminate|]. inversion B; subst. inversion C; subst.
  exists tk, (tin ++ rest). repeat split; auto; try apply D. intros NE. exists tin. unfold skip. rewrite A. cbn.
  repeat split; auto; try apply D.
Qed.
Lemma at_nil p rest : at_pos p [] rest -> p_in p = rest /\ ok p.
Proof. intros ([|] & A & B & C & D); [auto|discriminate]. Qed.
Lemma at_app p a b rest : at_pos p (a ++ b) rest -> exists mid, at_pos p a mid /\ map t_tok mid = b ++ map t_tok rest /\
  (forall p', p_in p' = mid -> ok p' -> at_pos p' b rest).
Proof.
  intros (tin & A & B & C & D). apply map_eq_app in B. destruct B as (t1 & t2 & -> & <- & <-).
  apply Forall_app in C as [C1 C2].
  exists (t2 ++ rest). split; [|split].
  - exists t1. rewrite A, <- app_assoc. auto.
  - apply map_app.
  - intros p' H K. exists t2. auto.
Qed.
Lemma at_same p p' ts rest : at_pos p ts rest -> p_in p' = p_in p -> p_error p' = p_error p -> p_end p' = p_end p -> p_tags p' = p_tags p ->
  at_pos p' ts rest.
Proof. intros (tin & A & B & C & (D1 & D2) & D3) H1 H2 H3 H4. exists tin. repeat split; auto; congruence. Qed.
Lemma at_ok p ts rest : at_pos p ts rest -> ok p.
Proof. intros (tin & A & B & C & D). auto. Qed.
Lemma after_ok p r s ss ms : after p r s ss ms -> ok p.
Proof. unfold after. tauto. Qed.

Definition follow (k : kind) (t : tok) : bool :=
  match k, t with
  | Block, (TBlockEntry | TBlockEnd | TKey | TValue | TVersion _ _ | TTagDirective _ _ | TDocStart | TDocEnd | TStreamEnd) => true
  | BlockOrIndentless, (TKey | TValue | TBlockEnd) => true
  | Flow, (TValue | TFlowEntry | TFlowSeqEnd | TFlowMapEnd) => true
  | _, _ => false
  end.
Definition follows (k : kind) (rest : list token) : Prop := exists t r, rest = t :: r /\ follow k (t_tok t) = true.
Definition starts (k : kind) (t : tok) : bool :=
  match k, t with
  | _, (TAlias _ | TAnchor _ | TTag _ _ | TScalar _ _ | TFlowSeqStart | TFlowMapStart) => true
  | (Block | BlockOrIndentless), (TBlockSeqStart | TBlockMapStart) => true
  | BlockOrIndentless, TBlockEntry => true
  | _, _ => false
  end.
Definition blk (k : kind) : bool := match k with Flow => false | _ => true end.
Definition ind (k : kind) : bool := match k with BlockOrIndentless => true | _ => false end.

Lemma content_starts k a t ts x : content G e k a t ts x -> exists h r, ts = h :: r /\ starts k h = true.
Proof.
  intros H. inversion H; subst; try (do 2 eexists; split; [reflexivity|destruct k; reflexivity]);
    try (do 2 eexists; split; [reflexivity|destruct k; try reflexivity; congruence]).
  inversion H0; subst; do 2 eexists; split; reflexivity.
Qed.
Lemma node_starts k ts x : node G e k ts x -> exists h r, ts = h :: r /\ starts k h = true.
Proof.
  intros H. inversion H; subst.
  - do 2 eexists; split; [reflexivity|destruct k; reflexivity].
  - inversion H0; subst; do 2 eexists; (split; [reflexivity|destruct k; reflexivity]).
  - inversion H0; subst; cbn.
    + apply content_starts in H1. auto.
    + inversion H2; subst; do 2 eexists; (split; [reflexivity|destruct k; reflexivity]).
Qed.

(* entry points of flow collections, after '[' / '{' or ',' *)
Definition seq_entry (p : parser) : pout :=
  peek p (fun token => match t_tok token with
    | TKey => ret (EMapStart None None true FlowColl) (t_start token) (t_end token) (skip (set_state p PS_FSeqMapKey))
    | TFlowSeqEnd => end_collection p ESeqEnd token
    | _ => parse_node (push_state p PS_FSeqEntry) false false
    end).
Definition map_entry (p : parser) : pout :=
  peek p (fun token => match t_tok token with
    | TKey =>
        let p := skip p in
        peek p (fun token2 => match t_tok token2 with
          | TValue | TFlowEntry | TFlowMapEnd => process_empty_scalar (set_state p PS_FMapValue) (t_start token2)
          | _ => parse_node (push_state p PS_FMapValue) false false
          end)
    | TFlowMapEnd => end_collection p EMapEnd token
    | _ => parse_node (push_state p PS_FMapEmptyValue) false false
    end).

Definition P_node (k : kind) (ts : list tok) (x : tree) : Prop :=
  forall p rest s ss, at_pos p ts rest -> p_states p = s :: ss -> follows k rest ->
  exists p', emits (parse_node p (blk k) (ind k)) (events_of x) p' /\ after p' rest s ss (p_marks p).
Definition P_content (k : kind) (a t : option (list N)) (ts : list tok) (x : tree) : Prop :=
  forall p rest s ss tk r sm em, at_pos p ts rest -> p_states p = s :: ss -> follows k rest -> p_in p = tk :: r ->
  exists p', emits (parse_content p (blk k) (ind k) a t sm em tk) (events_of x) p' /\ after p' rest s ss (p_marks p).
Definition P_opt (k : kind) (ts : list tok) (x : tree) : Prop :=
  (ts = [] /\ x = null) \/ (P_node k ts x /\ exists h r, ts = h :: r /\ starts k h = true).
Definition tail_in (l : list tok) (rest : list token) : Prop := exists t r, rest = t :: r /\ In (t_tok t) l.
Definition P_value (k : kind) (ts : list tok) (x : tree) : Prop :=
  forall p rest, at_pos p ts rest ->
  (k = BlockOrIndentless -> tail_in [TKey; TBlockEnd] rest ->
     exists p', emits (parse_block_mapping_value p) (events_of x) p' /\ after p' rest PS_BMapKey (p_states p) (p_marks p)) /\
  (k = Flow -> tail_in [TFlowEntry; TFlowSeqEnd] rest ->
     exists p', emits (parse_flow_sequence_entry_mapping_value p) (events_of x) p' /\ after p' rest PS_FSeqMapEnd (p_states p) (p_marks p)) /\
  (k = Flow -> tail_in [TFlowEntry; TFlowMapEnd] rest ->
     exists p', emits (parse_flow_mapping_value p false) (events_of x) p' /\ after p' rest PS_FMapKey (p_states p) (p_marks p)).
Definition P_bseq (ts : list tok) (xs : list tree) : Prop :=
  forall p rest s ss m ms, at_pos p ts rest -> p_states p = s :: ss -> p_marks p = m :: ms ->
  exists p', emits (parse_block_sequence_entry p false) (items_events xs ++ [ESeqEnd]) p' /\ after p' rest s ss ms.
Definition P_ind (ts : list tok) (xs : list tree) : Prop :=
  forall p rest s ss, at_pos p ts rest -> p_states p = s :: ss -> follows BlockOrIndentless rest ->
  exists p', emits (parse_indentless_sequence_entry p) (items_events xs ++ [ESeqEnd]) p' /\ after p' rest s ss (p_marks p).
Definition P_bmap (ts : list tok) (ps : list (tree * tree)) : Prop :=
  forall p rest s ss m ms, at_pos p ts rest -> p_states p = s :: ss -> p_marks p = m :: ms ->
  exists p', emits (parse_block_mapping_key p false) (pairs_events ps ++ [EMapEnd]) p' /\ after p' rest s ss ms.
Definition P_fseq (ts : list tok) (xs : list tree) : Prop :=
  forall p rest s ss m ms, at_pos p ts rest -> p_states p = s :: ss -> p_marks p = m :: ms ->
  exists p', emits (seq_entry p) (items_events xs ++ [ESeqEnd]) p' /\ after p' rest s ss ms.
Definition P_fse (ts : list tok) (x : tree) : Prop :=
  forall p rest, at_pos p ts rest -> tail_in [TFlowEntry; TFlowSeqEnd] rest ->
  exists p', emits (seq_entry p) (events_of x) p' /\ after p' rest PS_FSeqEntry (p_states p) (p_marks p).
Definition P_fmap (ts : list tok) (ps : list (tree * tree)) : Prop :=
  forall p rest s ss m ms, at_pos p ts rest -> p_states p = s :: ss -> p_marks p = m :: ms ->
  exists p', emits (map_entry p) (pairs_events ps ++ [EMapEnd]) p' /\ after p' rest s ss ms.
Definition P_fme (ts : list tok) (kv : tree * tree) : Prop :=
  forall p rest, at_pos p ts rest -> tail_in [TFlowEntry; TFlowMapEnd] rest ->
  exists p', emits (map_entry p) (events_of (fst kv) ++ events_of (snd kv)) p' /\ after p' rest PS_FMapKey (p_states p) (p_marks p).

Lemma resolve_complete h s t : resolves e h s t -> resolve_tag e h s = Some t.
Proof.
  destruct h as [|c h]; cbn; [congruence|]. intros (pre & I & ->).
  assert (F : find (fun td => str_eqb (fst td) (c :: h)) e = Some (c :: h, pre)).
  { clear -ND I. induction e as [|[h' p'] r IH]; [contradiction|]. cbn [find fst]. cbn in ND. inversion ND; subst.
    destruct I as [I|I].
    - inversion I; subst. rewrite str_eqb_refl. reflexivity.
    - destruct (str_eqb_spec h' (c :: h)) as [->|N]; [|auto].
      exfalso. apply H1. change (c :: h) with (fst (c :: h, pre)). apply in_map. auto. }
  rewrite F. reflexivity.
Qed.

Definition no_prop (t : tok) : bool := match t with TAlias _ | TAnchor _ | TTag _ _ => false | _ => true end.

Lemma at_toks p ts rest : at_pos p ts rest -> toks p = ts ++ map t_tok rest.
Proof. intros (tin & A & B & C & D). unfold toks. rewrite A, map_app, B. reflexivity. Qed.
Lemma at_head p ts rest h r : at_pos p ts rest -> ts ++ map t_tok rest = h :: r -> exists tk l, p_in p = tk :: l /\ t_tok tk = h.
Proof.
  intros A H. apply at_toks in A. rewrite H in A. unfold toks in A. destruct (p_in p) as [|tk l]; inversion A. eauto.
Qed.
Lemma skip_marks p : p_marks (skip p) = p_marks p.
Proof. unfold skip. destruct (p_in p); reflexivity. Qed.

Lemma props_node p ps cs rest a t b i h r :
  opt_properties e ps a t -> at_pos p (ps ++ cs) rest -> cs ++ map t_tok rest = h :: r -> no_prop h = true ->
  exists p2 tk l sm em, parse_node p b i = parse_content p2 b i a t sm em tk /\ at_pos p2 cs rest /\ p_in p2 = tk :: l /\
    p_states p2 = p_states p /\ p_marks p2 = p_marks p.
Proof.
  intros OP A HN NP. inversion OP as [|ps' a' t' PP]; subst.
  - cbn in A. destruct (at_head _ _ _ _ _ A HN) as (tk & l & E & T).
    exists p, tk, l, (t_start tk), (t_start tk). repeat split; auto.
    unfold parse_node, peek. rewrite E. rewrite T. destruct h; try reflexivity; discriminate.
  - inversion PP; subst; cbn [app] in A.
    + destruct (at_cons _ _ _ _ A) as (tk & l & E & T & _ & _ & A2). specialize (A2 eq_refl).
      destruct (at_head _ _ _ _ _ A2 HN) as (tk2 & l2 & E2 & T2).
      do 5 eexists. split; [|split; [exact A2|split; [exact E2|rewrite skip_states, skip_marks; auto]]].
      unfold parse_node, peek at 1. rewrite E, T. unfold peek. rewrite E2. rewrite T2. destruct h; try reflexivity; discriminate.
    + destruct (at_cons _ _ _ _ A) as (tk & l & E & T & _ & [_ Ht] & A2). specialize (A2 eq_refl).
      destruct (at_head _ _ _ _ _ A2 HN) as (tk2 & l2 & E2 & T2).
      do 5 eexists. split; [|split; [exact A2|split; [exact E2|rewrite skip_states, skip_marks; auto]]].
      unfold parse_node, peek at 1. rewrite E, T. unfold peek. rewrite E2. rewrite T2.
      unfold with_tag. rewrite skip_tags, Ht. 
      match goal with K : resolves _ _ _ _ |- _ => rewrite (resolve_complete _ _ _ K) end.
      destruct h; try reflexivity; discriminate.
    + destruct (at_cons _ _ _ _ A) as (tk & l & E & T & _ & [_ Ht] & A2). specialize (A2 eq_refl).
      destruct (at_cons _ _ _ _ A2) as (tk2 & l2 & E2 & T2 & _ & _ & A3). specialize (A3 eq_refl).
      destruct (at_head _ _ _ _ _ A3 HN) as (tk3 & l3 & E3 & T3).
      do 5 eexists. split; [|split; [exact A3|split; [exact E3|rewrite !skip_states, !skip_marks; auto]]].
      unfold parse_node, peek at 1. rewrite E, T. unfold peek at 1. rewrite E2. rewrite T2. unfold peek. rewrite E3.
      unfold with_tag. rewrite !skip_tags, Ht. 
      match goal with K : resolves _ _ _ _ |- _ => rewrite (resolve_complete _ _ _ K) end. reflexivity.
    + destruct (at_cons _ _ _ _ A) as (tk & l & E & T & _ & [_ Ht] & A2). specialize (A2 eq_refl).
      destruct (at_cons _ _ _ _ A2) as (tk2 & l2 & E2 & T2 & _ & _ & A3). specialize (A3 eq_refl).
      destruct (at_head _ _ _ _ _ A3 HN) as (tk3 & l3 & E3 & T3).
      do 5 eexists. split; [|split; [exact A3|split; [exact E3|rewrite !skip_states, !skip_marks; auto]]].
      unfold parse_node, peek at 1. rewrite E, T. unfold peek at 1. rewrite E2. rewrite T2. unfold peek. rewrite E3.
      unfold with_tag. rewrite !skip_tags, Ht. 
      match goal with K : resolves _ _ _ _ |- _ => rewrite (resolve_complete _ _ _ K) end. reflexivity.
Qed.

Lemma follow_no_prop k t : follow k t = true -> no_prop t = true.
Proof. destruct k, t; try reflexivity; discriminate. Qed.
Lemma content_no_prop k a t ts x : content G e k a t ts x -> exists h r, ts = h :: r /\ no_prop h = true.
Proof.
  intros H. inversion H; subst; try (do 2 eexists; split; reflexivity).
  inversion H0; subst; do 2 eexists; split; reflexivity.
Qed.
Lemma content_empty p k a t sm em tk : follow k (t_tok tk) = true -> a <> None \/ t <> None ->
  parse_content p (blk k) (ind k) a t sm em tk = pop_state p (fun p => ret (EScalar a t [] (implicit_of t) false Plain) sm em p).
Proof.
  intros F N. unfold parse_content. rewrite !implicit_model.
  destruct a, t; try (destruct N; congruence); destruct k; destruct (t_tok tk); try discriminate F; reflexivity.
Qed.

Lemma ok_eq p p' : ok p -> p_error p' = p_error p -> p_end p' = p_end p -> p_tags p' = p_tags p -> ok p'.
Proof. intros [[A B] C] H1 H2 H3. repeat split; congruence. Qed.

(* process_empty_scalar / set_state *)
Lemma emits_empty p s m : emits (process_empty_scalar (set_state p s) m) (events_of null) (set_state p s).
Proof. apply (emits_one (mkEvent empty_scalar m m)). Qed.
Lemma after_set p s rest : p_in p = rest -> ok p -> after (set_state p s) rest s (p_states p) (p_marks p).
Proof. intros A B. repeat split; auto; apply B. Qed.
Lemma at_set p s ts rest : at_pos p ts rest -> at_pos (set_state p s) ts rest.
Proof. intros A. eapply at_same; eauto. Qed.
Lemma at_push p s ts rest : at_pos p ts rest -> at_pos (push_state p s) ts rest.
Proof. intros A. eapply at_same; eauto. Qed.
Lemma at_mark p m ts rest : at_pos p ts rest -> at_pos (push_mark p m) ts rest.
Proof. intros A. eapply at_same; eauto. Qed.
Lemma ok_skip p t r : ok p -> p_in p = t :: r -> is_stream_end (t_tok t) = false -> ok (skip p).
Proof. intros A E N. unfold skip. rewrite E. repeat split; try apply A. exact N. Qed.

Lemma case_alias k name : P_node k [TAlias name] (Alias name).
Proof.
  intros p rest s ss A S F. destruct (at_cons _ _ _ _ A) as (tk & r & E & T & _ & O & A2).
  specialize (A2 eq_refl). apply at_nil in A2. destruct A2 as [E2 _]. unfold skip in E2. rewrite E in E2. cbn in E2. subst r.
  eexists. split.
  - unfold parse_node, peek. rewrite E, T. unfold pop_state. rewrite S. apply (emits_one (mkEvent (EAlias name) _ _)).
  - unfold skip. cbn. rewrite E. cbn. rewrite T. repeat split; auto; apply O.
Qed.
Lemma case_empty k ts a t : properties e ts a t -> P_node k ts (Scalar a t [] (implicit_of t) false Plain).
Proof.
  intros PR p rest s ss A S (tk & r & -> & F).
  destruct (props_node p ts [] (tk :: r) a t (blk k) (ind k) (t_tok tk) (map t_tok r)) as (p2 & tk2 & l & sm & em & E & A2 & E2 & S2 & M2); auto.
  { constructor. auto. } { rewrite app_nil_r. auto. } { eapply follow_no_prop; eauto. }
  apply at_nil in A2. destruct A2 as [A2 O]. rewrite A2 in E2. inversion E2; subst tk2 l.
  rewrite E, content_empty; [|auto|inversion PR; subst; first [left; discriminate|right; discriminate]].
  unfold pop_state. rewrite S2, S. eexists. split.
  - apply (emits_one (mkEvent _ sm em)).
  - repeat split; auto; try apply O.
Qed.
Lemma case_content k ps a t cs x : opt_properties e ps a t -> content G e k a t cs x -> P_content k a t cs x -> P_node k (ps ++ cs) x.
Proof.
  intros OP C IH p rest s ss A S F. destruct (content_no_prop _ _ _ _ _ C) as (h & r & E & NP).
  destruct (props_node p ps cs rest a t (blk k) (ind k) h (r ++ map t_tok rest)) as (p2 & tk2 & l & sm & em & E1 & A2 & E2 & S2 & M2); auto.
  { rewrite E. reflexivity. }
  rewrite E1. rewrite <- M2. eapply IH; eauto. congruence.
Qed.
Lemma case_scalar k a t v st : P_content k a t [TScalar v st] (Scalar a t v (plain_implicit_of t st) (quoted_implicit_of t st) st).
Proof.
  intros p rest s ss tk r sm em A S F E. destruct (at_cons _ _ _ _ A) as (tk' & r' & E' & T & _ & O & A2).
  rewrite E in E'. inversion E'; subst tk' r'.
  specialize (A2 eq_refl). apply at_nil in A2. destruct A2 as [E2 _]. unfold skip in E2. rewrite E in E2. cbn in E2. subst r.
  eexists. split.
  - unfold parse_content. rewrite T. rewrite andb_false_r. unfold pop_state. rewrite S.
    cbn [events_of]. unfold plain_implicit_of, quoted_implicit_of.
    assert (Q : (if match t with Some t0 => is_bang t0 | None => sstyle_eqb st Plain end then false
       else match t with Some _ => false | None => true end) = match t with Some _ => false | None => negb (sstyle_eqb st Plain) end).
    { destruct t as [t|]; [destruct (is_bang t); reflexivity|]. destruct (sstyle_eqb st Plain); reflexivity. }
    rewrite Q. apply (emits_one (mkEvent (EScalar a t v _ _ st) _ _)).
  - unfold skip. cbn. rewrite E. cbn. rewrite T. repeat split; auto; apply O.
Qed.

Lemma mid_head (mid rest : list token) (rs : list tok) h r (f : tok -> bool) : map t_tok mid = rs ++ map t_tok rest -> rs = h :: r -> f h = true ->
  exists tk l, mid = tk :: l /\ f (t_tok tk) = true.
Proof. intros H -> F. destruct mid as [|tk l]; inversion H; subst. eauto. Qed.

Lemma opt_run k ts x p mid s (m : token -> mark) (stop : tok -> bool) (X : token -> pout) :
  P_opt k ts x -> at_pos p ts mid -> (exists tk r, mid = tk :: r /\ stop (t_tok tk) = true) ->
  (forall t, starts k t = true -> stop t = false) -> (forall t, stop t = true -> follow k t = true) ->
  (forall tk, X tk = if stop (t_tok tk) then process_empty_scalar (set_state p s) (m tk) else parse_node (push_state p s) (blk k) (ind k)) ->
  exists p1, emits (peek p X) (events_of x) p1 /\ after p1 mid s (p_states p) (p_marks p).
Proof.
  intros PO A (tk & r & -> & ST) NS FO HX. destruct PO as [[-> ->]|(PN & h & r' & -> & SH)].
  - apply at_nil in A. destruct A as [E O]. unfold peek. rewrite E, HX, ST.
    eexists. split; [apply emits_empty|]. apply after_set; auto.
  - destruct (at_cons _ _ _ _ A) as (tk1 & r1 & E1 & T1 & _ & _ & _).
    unfold peek. rewrite E1, HX, T1, (NS _ SH).
    apply (PN (push_state p s) (tk :: r) s (p_states p)).
    + apply at_push; auto.
    + reflexivity.
    + exists tk, r. auto.
Qed.

Definition in_bseq (t : tok) : bool := match t with TBlockEntry | TBlockEnd => true | _ => false end.
Lemma bseq_head ts xs : block_sequence G e ts xs -> exists h r, ts = h :: r /\ in_bseq h = true.
Proof. intros H. inversion H; subst; do 2 eexists; split; reflexivity. Qed.
Lemma ind_head ts xs : indentless G e ts xs -> exists r, ts = TBlockEntry :: r.
Proof. intros H. inversion H; subst; eexists; reflexivity. Qed.
Definition in_ind (t : tok) : bool := match t with TBlockEntry | TKey | TValue | TBlockEnd => true | _ => false end.
Definition in_bmap (t : tok) : bool := match t with TKey | TBlockEnd => true | _ => false end.
Definition in_bval (t : tok) : bool := match t with TKey | TValue | TBlockEnd => true | _ => false end.
Lemma bmap_head ts xs : block_mapping G e ts xs -> exists h r, ts = h :: r /\ in_bmap h = true.
Proof. intros H. inversion H; subst; try discriminate; do 2 eexists; split; reflexivity. Qed.
Lemma value_head k ts x : opt_value G e k ts x -> ts = [] \/ exists r, ts = TValue :: r.
Proof. intros H. inversion H; subst; eauto. Qed.

Lemma after_at p mid s ss ms ts rest : after p mid s ss ms -> (forall p', p_in p' = mid -> ok p' -> at_pos p' ts rest) -> at_pos p ts rest.
Proof. intros (A & B & C & D & O) K. auto. Qed.

Lemma case_bs_end : P_bseq [TBlockEnd] [].
Proof.
  intros p rest s ss m ms A S M. destruct (at_cons _ _ _ _ A) as (tk & r & E & T & _ & O & A2).
  specialize (A2 eq_refl). apply at_nil in A2. destruct A2 as [E2 _].
  unfold parse_block_sequence_entry, enter, peek. rewrite E, T. unfold pop_state. rewrite S. unfold pop_mark. cbn [p_marks]. rewrite M.
  eexists. split; [apply (emits_one (mkEvent ESeqEnd _ _))|].
  unfold skip in *. cbn. rewrite E in *. cbn in *. rewrite T. repeat split; auto; apply O.
Qed.
Lemma case_bs_entry ts x rs xs : P_opt Block ts x -> block_sequence G e rs xs -> P_bseq rs xs -> P_bseq (TBlockEntry :: ts ++ rs) (x :: xs).
Proof.
  intros PO B IH p rest s ss m ms A S M. destruct (at_cons _ _ _ _ A) as (tk & r & E & T & _ & O & A2).
  specialize (A2 eq_refl). destruct (at_app _ _ _ _ A2) as (mid & A3 & EM & K).
  destruct (bseq_head _ _ B) as (h & r' & EH & FH).
  unfold parse_block_sequence_entry, enter, peek at 1. rewrite E, T.
  match goal with |- exists p', emits (peek ?q ?X) _ p' /\ _ => destruct (opt_run Block ts x q mid PS_BSeqEntry (fun _ => t_end tk) in_bseq X) as (p1 & R1 & AF) end; auto.
  { eapply mid_head; eauto. } 
  all: try solve [intros t; destruct t; cbn; congruence | intros t; destruct (t_tok t); reflexivity].
  pose proof AF as (AF1 & AF2 & AF3 & AF4 & AF5). rewrite skip_states in AF3. rewrite skip_marks in AF4.
  destruct (IH p1 rest s ss m ms) as (p2 & R2 & AF'); [auto|congruence|congruence|].
  exists p2. split; [|exact AF'].
  cbn [items_events flat_map]. rewrite <- app_assoc. eapply emits_app; [exact R1|].
  apply runs_emits; [apply AF5|rewrite AF2; reflexivity|]. unfold state_machine. rewrite AF2. exact R2.
Qed.
Lemma ind_stop (h : tok) : in_ind h = true -> follow Block h = true. Proof. destruct h; cbn; congruence. Qed.
Lemma ind_start (h : tok) : starts Block h = true -> in_ind h = false. Proof. destruct h; cbn; congruence. Qed.
Lemma follows_ind mid : follows BlockOrIndentless mid -> exists tk r, mid = tk :: r /\ in_ind (t_tok tk) = true.
Proof. intros (t & r & -> & F). exists t, r. split; auto. destruct (t_tok t); cbn in *; congruence. Qed.

Lemma case_is_last ts x : P_opt Block ts x -> P_ind (TBlockEntry :: ts) [x].
Proof.
  intros PO p rest s ss A S F. destruct (at_cons _ _ _ _ A) as (tk & r & E & T & _ & O & A2). specialize (A2 eq_refl).
  unfold parse_indentless_sequence_entry, peek at 1. rewrite E, T.
  match goal with |- exists p', emits (peek ?q ?X) _ p' /\ _ => destruct (opt_run Block ts x q rest PS_Indentless (fun _ => t_end tk) in_ind X) as (p1 & R1 & AF) end; auto using ind_stop, ind_start, follows_ind.
  { intros t; destruct (t_tok t); reflexivity. }
  pose proof AF as (AF1 & AF2 & AF3 & AF4 & AF5). rewrite skip_states in AF3. rewrite skip_marks in AF4.
  eexists. split.
  - cbn [items_events flat_map]. rewrite app_nil_r. eapply emits_app; [exact R1|].
    apply runs_emits; [apply AF5|rewrite AF2; reflexivity|]. unfold state_machine. rewrite AF2.
    destruct F as (t & r2 & -> & F). unfold parse_indentless_sequence_entry, peek. rewrite AF1.
    destruct (t_tok t); try discriminate F; unfold pop_state; rewrite AF3, S; apply (emits_one (mkEvent ESeqEnd _ _)).
  - repeat split; auto; apply AF5.
Qed.
Lemma case_is_entry ts x rs xs : P_opt Block ts x -> indentless G e rs xs -> P_ind rs xs -> P_ind (TBlockEntry :: ts ++ rs) (x :: xs).
Proof.
  intros PO B IH p rest s ss A S F. destruct (at_cons _ _ _ _ A) as (tk & r & E & T & _ & O & A2).
  specialize (A2 eq_refl). destruct (at_app _ _ _ _ A2) as (mid & A3 & EM & K).
  destruct (ind_head _ _ B) as (r' & EH).
  unfold parse_indentless_sequence_entry, peek at 1. rewrite E, T.
  match goal with |- exists p', emits (peek ?q ?X) _ p' /\ _ => destruct (opt_run Block ts x q mid PS_Indentless (fun _ => t_end tk) in_ind X) as (p1 & R1 & AF) end; auto using ind_stop, ind_start.
  { eapply mid_head; eauto. }
  { intros t; destruct (t_tok t); reflexivity. }
  pose proof AF as (AF1 & AF2 & AF3 & AF4 & AF5). rewrite skip_states in AF3. rewrite skip_marks in AF4.
  destruct (IH p1 rest s ss) as (p2 & R2 & AF'); [auto|congruence|auto|].
  exists p2. split; [|rewrite <- AF4; exact AF'].
  cbn [items_events flat_map]. rewrite <- app_assoc. eapply emits_app; [exact R1|].
  apply runs_emits; [apply AF5|rewrite AF2; reflexivity|]. unfold state_machine. rewrite AF2. exact R2.
Qed.
Lemma case_bm_end : P_bmap [TBlockEnd] [].
Proof.
  intros p rest s ss m ms A S M. destruct (at_cons _ _ _ _ A) as (tk & r & E & T & _ & O & A2).
  specialize (A2 eq_refl). apply at_nil in A2. destruct A2 as [E2 _].
  unfold parse_block_mapping_key, enter, peek. rewrite E, T. unfold pop_state. rewrite S. unfold pop_mark. cbn [p_marks]. rewrite M.
  eexists. split; [apply (emits_one (mkEvent EMapEnd _ _))|].
  unfold skip in *. cbn. rewrite E in *. cbn in *. rewrite T. repeat split; auto; apply O.
Qed.
Lemma case_bm_pair ks k vs v rs ps : P_opt BlockOrIndentless ks k -> opt_value G e BlockOrIndentless vs v -> P_value BlockOrIndentless vs v ->
  block_mapping G e rs ps -> P_bmap rs ps -> P_bmap (TKey :: ks ++ vs ++ rs) ((k, v) :: ps).
Proof.
  intros PK OV PV B IH p rest s ss m ms A S M. destruct (at_cons _ _ _ _ A) as (tk & r & E & T & _ & O & A2).
  specialize (A2 eq_refl). destruct (at_app _ _ _ _ A2) as (mid & A3 & EM & K).
  destruct (bmap_head _ _ B) as (h & r' & EH & FH).
  unfold parse_block_mapping_key, enter, peek at 1. rewrite E, T.
  match goal with |- exists p', emits (peek ?q ?X) _ p' /\ _ => destruct (opt_run BlockOrIndentless ks k q mid PS_BMapValue (fun _ => t_end tk) in_bval X) as (p1 & R1 & AF) end; auto.
  { destruct (value_head _ _ _ OV) as [->|(r2 & ->)].
    - eapply mid_head; [exact EM|exact EH|]. destruct h; cbn in *; congruence.
    - eapply mid_head; [exact EM|reflexivity|reflexivity]. }
  all: try solve [intros t; destruct t; cbn; congruence | intros t; destruct (t_tok t); reflexivity].
  pose proof AF as (AF1 & AF2 & AF3 & AF4 & AF5). rewrite skip_states in AF3. rewrite skip_marks in AF4.
  specialize (K p1 AF1 AF5). destruct (at_app _ _ _ _ K) as (mid2 & A4 & EM2 & K2).
  destruct (PV p1 mid2 A4) as (PV1 & _). destruct (PV1 eq_refl) as (p2 & R2 & AG).
  { destruct (mid_head mid2 rest rs h r' in_bmap EM2 EH FH) as (t2 & l2 & -> & Q). exists t2, l2. split; auto. destruct (t_tok t2); try discriminate Q; cbn; auto. }
  pose proof AG as (AG1 & AG2 & AG3 & AG4 & AG5).
  destruct (IH p2 rest s ss m ms) as (p3 & R3 & AF'); [auto|congruence|congruence|].
  exists p3. split; [|exact AF'].
  cbn [pairs_events flat_map fst snd]. rewrite <- !app_assoc. eapply emits_app; [exact R1|].
  eapply runs_app. { apply runs_emits; [apply AF5|rewrite AF2; reflexivity|]. unfold state_machine. rewrite AF2. exact R2. }
  apply runs_emits; [apply AG5|rewrite AG2; reflexivity|]. unfold state_machine. rewrite AG2. exact R3.
Qed.

Lemma case_v_none k : P_value k [] null.
Proof.
  intros p rest A. apply at_nil in A. destruct A as [E O].
  repeat split; intros -> (t & r & -> & I); eexists; (split; [|apply after_set; eauto]);
    unfold parse_block_mapping_value, parse_flow_sequence_entry_mapping_value, parse_flow_mapping_value, peek; rewrite E;
    destruct (t_tok t); cbn in I; try (exfalso; intuition discriminate); apply emits_empty.
Qed.
Definition in_fs (t : tok) : bool := match t with TFlowEntry | TFlowSeqEnd => true | _ => false end.
Definition in_fm (t : tok) : bool := match t with TFlowEntry | TFlowMapEnd => true | _ => false end.
Definition in_fmv (t : tok) : bool := match t with TValue | TFlowEntry | TFlowMapEnd => true | _ => false end.
Lemma tail_stop l rest (f : tok -> bool) : tail_in l rest -> (forall t, In t l -> f t = true) -> exists tk r, rest = tk :: r /\ f (t_tok tk) = true.
Proof. intros (t & r & -> & I) H. eauto. Qed.
Lemma mid_tail (mid rest : list token) rs l h r : map t_tok mid = rs ++ map t_tok rest -> rs = h :: r -> In h l -> tail_in l mid.
Proof. intros H -> F. destruct mid as [|tk l']; inversion H; subst. exists tk, l'. auto. Qed.
Lemma case_v_some k ts x : P_opt k ts x -> P_value k (TValue :: ts) x.
Proof.
  intros PO p rest A. destruct (at_cons _ _ _ _ A) as (tk & r & E & T & _ & O & A2). specialize (A2 eq_refl).
  repeat split; intros -> TI.
  - unfold parse_block_mapping_value, peek at 1. rewrite E, T.
    match goal with |- exists p', emits (peek ?q ?X) _ p' /\ _ => destruct (opt_run BlockOrIndentless ts x q rest PS_BMapKey (fun _ => t_end tk) in_bval X) as (p1 & R1 & AF) end; auto.
    { eapply tail_stop; eauto. cbn. intuition (subst; reflexivity). }
    all: try solve [intros t; destruct t; cbn; congruence | intros t; destruct (t_tok t); reflexivity].
    rewrite skip_states, skip_marks in AF. eauto.
  - unfold parse_flow_sequence_entry_mapping_value, peek at 1. rewrite E, T.
    match goal with |- exists p', emits (peek ?q ?X) _ p' /\ _ => destruct (opt_run Flow ts x q rest PS_FSeqMapEnd t_start in_fs X) as (p1 & R1 & AF) end; auto.
    { eapply tail_stop; eauto. cbn. intuition (subst; reflexivity). }
    all: try solve [intros t; destruct t; cbn; congruence | intros t; destruct (t_tok t); reflexivity].
    rewrite skip_states, skip_marks in AF. eauto.
  - unfold parse_flow_mapping_value, peek at 1. rewrite E, T.
    match goal with |- exists p', emits (peek ?q ?X) _ p' /\ _ => destruct (opt_run Flow ts x q rest PS_FMapKey t_start in_fm X) as (p1 & R1 & AF) end; auto.
    { eapply tail_stop; eauto. cbn. intuition (subst; reflexivity). }
    all: try solve [intros t; destruct t; cbn; congruence | intros t; destruct (t_tok t); reflexivity].
    rewrite skip_states, skip_marks in AF. eauto.
Qed.

Lemma end_coll p rest s ss m ms ev tk r : p_in p = tk :: rest -> is_stream_end (t_tok tk) = false -> ok p -> p_states p = s :: ss -> p_marks p = m :: ms -> r = tk ->
  exists p', emits (end_collection p ev r) [ev] p' /\ after p' rest s ss ms.
Proof.
  intros E NE O S M ->. unfold end_collection, pop_state. rewrite S. unfold pop_mark. cbn [p_marks]. rewrite M.
  eexists. split; [apply (emits_one (mkEvent ev _ _))|].
  unfold skip. cbn. rewrite E. cbn. repeat split; auto; apply O.
Qed.
Lemma at_end p t rest : at_pos p [t] rest -> exists tk, p_in p = tk :: rest /\ t_tok tk = t /\ ok p.
Proof.
  intros (tin & A & B & C & D). destruct tin as [|tk [|]]; try discriminate. inversion B; subst. exists tk. auto.
Qed.

Lemma case_fs_end : P_fseq [TFlowSeqEnd] [].
Proof.
  intros p rest s ss m ms A S M. destruct (at_end _ _ _ A) as (tk & E & T & O).
  unfold seq_entry, peek. rewrite E, T. cbn. eapply end_coll; eauto. rewrite T. reflexivity.
Qed.
Lemma case_fm_end : P_fmap [TFlowMapEnd] [].
Proof.
  intros p rest s ss m ms A S M. destruct (at_end _ _ _ A) as (tk & E & T & O).
  unfold map_entry, peek. rewrite E, T. cbn. eapply end_coll; eauto. rewrite T. reflexivity.
Qed.
(* the end and the separator after an entry *)
Lemma fseq_end p rest ss ms s' ss' m ms' : after p rest PS_FSeqEntry ss ms -> ss = s' :: ss' -> ms = m :: ms' -> forall rest', at_pos p [TFlowSeqEnd] rest' ->
  exists p', runs p [ESeqEnd] p' /\ after p' rest' s' ss' ms'.
Proof.
  intros (A1 & A2 & A3 & A4 & A5) Es Em rest' A. destruct (at_end _ _ _ A) as (tk & E & T & O).
  destruct (end_coll p rest' s' ss' m ms' ESeqEnd tk tk) as (p' & R & AF); auto; try congruence. { rewrite T. reflexivity. }
  exists p'. split; auto. apply runs_emits; [apply O|rewrite A2; reflexivity|]. unfold state_machine. rewrite A2.
  unfold parse_flow_sequence_entry, enter, peek. rewrite E, T. exact R.
Qed.
Lemma fmap_end p rest ss ms s' ss' m ms' : after p rest PS_FMapKey ss ms -> ss = s' :: ss' -> ms = m :: ms' -> forall rest', at_pos p [TFlowMapEnd] rest' ->
  exists p', runs p [EMapEnd] p' /\ after p' rest' s' ss' ms'.
Proof.
  intros (A1 & A2 & A3 & A4 & A5) Es Em rest' A. destruct (at_end _ _ _ A) as (tk & E & T & O).
  destruct (end_coll p rest' s' ss' m ms' EMapEnd tk tk) as (p' & R & AF); auto; try congruence. { rewrite T. reflexivity. }
  exists p'. split; auto. apply runs_emits; [apply O|rewrite A2; reflexivity|]. unfold state_machine. rewrite A2.
  unfold parse_flow_mapping_key, enter, peek. rewrite E, T. exact R.
Qed.
Lemma case_fs_last ts x : P_fse ts x -> P_fseq (ts ++ [TFlowSeqEnd]) [x].
Proof.
  intros IH p rest s ss m ms A S M. destruct (at_app _ _ _ _ A) as (mid & A3 & EM & K).
  destruct (IH p mid A3) as (p1 & R1 & AF). { eapply mid_tail; eauto. cbn. auto. }
  destruct (fseq_end _ _ _ _ s ss m ms AF S M rest) as (p2 & R2 & AG). { apply K; apply AF. }
  exists p2. split; auto. cbn [items_events flat_map]. rewrite app_nil_r. eapply emits_app; eauto.
Qed.
Lemma case_fm_last ts x : P_fme ts x -> P_fmap (ts ++ [TFlowMapEnd]) [x].
Proof.
  intros IH p rest s ss m ms A S M. destruct (at_app _ _ _ _ A) as (mid & A3 & EM & K).
  destruct (IH p mid A3) as (p1 & R1 & AF). { eapply mid_tail; eauto. cbn. auto. }
  destruct (fmap_end _ _ _ _ s ss m ms AF S M rest) as (p2 & R2 & AG). { apply K; apply AF. }
  exists p2. split; auto. destruct x as [k v]. cbn [pairs_events flat_map fst snd] in *. rewrite app_nil_r. eapply emits_app; eauto.
Qed.
Lemma case_fs_entry ts x rs xs : P_fse ts x -> P_fseq rs xs -> P_fseq (ts ++ TFlowEntry :: rs) (x :: xs).
Proof.
  intros IH IHs p rest s ss m ms A S M. destruct (at_app _ _ _ _ A) as (mid & A3 & EM & K).
  destruct (IH p mid A3) as (p1 & R1 & AF). { eapply mid_tail; eauto. cbn. auto. }
  pose proof AF as (AF1 & AF2 & AF3 & AF4 & AF5). specialize (K p1 AF1 AF5).
  destruct (at_cons _ _ _ _ K) as (tk & r & E & T & _ & O & A2). specialize (A2 eq_refl).
  destruct (IHs (skip p1) rest s ss m ms A2) as (p2 & R2 & AG). { rewrite skip_states. congruence. } { rewrite skip_marks. congruence. }
  exists p2. split; auto. cbn [items_events flat_map]. rewrite <- app_assoc. eapply emits_app; eauto.
  apply runs_emits; [apply O|rewrite AF2; reflexivity|]. unfold state_machine. rewrite AF2.
  unfold parse_flow_sequence_entry, enter, peek at 1. rewrite E, T. exact R2.
Qed.
Lemma case_fm_entry ts x rs xs : P_fme ts x -> P_fmap rs xs -> P_fmap (ts ++ TFlowEntry :: rs) (x :: xs).
Proof.
  intros IH IHs p rest s ss m ms A S M. destruct (at_app _ _ _ _ A) as (mid & A3 & EM & K).
  destruct (IH p mid A3) as (p1 & R1 & AF). { eapply mid_tail; eauto. cbn. auto. }
  pose proof AF as (AF1 & AF2 & AF3 & AF4 & AF5). specialize (K p1 AF1 AF5).
  destruct (at_cons _ _ _ _ K) as (tk & r & E & T & _ & O & A2). specialize (A2 eq_refl).
  destruct (IHs (skip p1) rest s ss m ms A2) as (p2 & R2 & AG). { rewrite skip_states. congruence. } { rewrite skip_marks. congruence. }
  exists p2. split; auto. destruct x as [k v]. cbn [pairs_events flat_map fst snd] in *. rewrite <- app_assoc. eapply emits_app; eauto.
  apply runs_emits; [apply O|rewrite AF2; reflexivity|]. unfold state_machine. rewrite AF2.
  unfold parse_flow_mapping_key, enter, peek at 1. rewrite E, T. exact R2.
Qed.

Lemma start_flow_entry (h : tok) (X Y Z : pout) : starts Flow h = true ->
  match h with TKey => X | TFlowSeqEnd => Y | _ => Z end = Z.
Proof. destruct h; cbn; congruence. Qed.
Lemma case_fse_node ts x : node G e Flow ts x -> P_node Flow ts x -> P_fse ts x.
Proof.
  intros N PN p rest A TI. destruct (node_starts _ _ _ N) as (h & r & -> & SH).
  destruct (at_cons _ _ _ _ A) as (tk & l & E & T & _ & O & _).
  unfold seq_entry, peek. rewrite E, T.
  assert (Q : exists p', emits (parse_node (push_state p PS_FSeqEntry) false false) (events_of x) p' /\ after p' rest PS_FSeqEntry (p_states p) (p_marks p)).
  { apply (PN (push_state p PS_FSeqEntry) rest PS_FSeqEntry (p_states p)); [apply at_push; auto|reflexivity|].
    destruct TI as (t & r' & -> & I). exists t, r'. split; auto. destruct (t_tok t); cbn in I; intuition congruence. }
  destruct h; try discriminate SH; exact Q.
Qed.
Lemma case_fme_node ts x : node G e Flow ts x -> P_node Flow ts x -> P_fme ts (x, null).
Proof.
  intros N PN p rest A TI. destruct (node_starts _ _ _ N) as (h & r & -> & SH).
  destruct (at_cons _ _ _ _ A) as (tk & l & E & T & _ & O & _).
  unfold map_entry, peek. rewrite E, T.
  assert (Q : exists p', emits (parse_node (push_state p PS_FMapEmptyValue) false false) (events_of x ++ events_of null) p' /\ after p' rest PS_FMapKey (p_states p) (p_marks p)).
  { destruct (PN (push_state p PS_FMapEmptyValue) rest PS_FMapEmptyValue (p_states p)) as (p1 & R1 & AF); [apply at_push; auto|reflexivity| |].
    - destruct TI as (t & r' & -> & I). exists t, r'. split; auto. destruct (t_tok t); cbn in I; intuition congruence.
    - pose proof AF as (AF1 & AF2 & AF3 & AF4 & AF5). exists (set_state p1 PS_FMapKey). split.
      + eapply emits_app; eauto. apply runs_emits; [apply AF5|rewrite AF2; reflexivity|]. unfold state_machine. rewrite AF2.
        destruct TI as (t & r' & -> & I). unfold parse_flow_mapping_value, peek. rewrite AF1. apply emits_empty.
      + rewrite <- AF3. cbn in AF4. rewrite <- AF4. apply after_set; auto. }
  destruct h; try discriminate SH; exact Q.
Qed.
Lemma case_fme_pair ks k vs v : P_opt Flow ks k -> opt_value G e Flow vs v -> P_value Flow vs v -> P_fme (TKey :: ks ++ vs) (k, v).
Proof.
  intros PK OV PV p rest A TI. destruct (at_cons _ _ _ _ A) as (tk & r & E & T & _ & O & A2).
  specialize (A2 eq_refl). destruct (at_app _ _ _ _ A2) as (mid & A3 & EM & K).
  unfold map_entry, peek at 1. rewrite E, T. cbv zeta.
  match goal with |- exists p', emits (peek ?q ?X) _ p' /\ _ => destruct (opt_run Flow ks k q mid PS_FMapValue t_start in_fmv X) as (p1 & R1 & AF) end; auto.
  { destruct (value_head _ _ _ OV) as [->|(r2 & ->)].
    - destruct TI as (t & r' & -> & I). destruct mid as [|t2 m2]; inversion EM. exists t2, m2. split; auto.
      rewrite H0. destruct (t_tok t); cbn in I; intuition congruence.
    - eapply mid_head; [exact EM|reflexivity|reflexivity]. }
  all: try solve [intros t; destruct t; cbn; congruence | intros t; destruct (t_tok t); reflexivity].
  pose proof AF as (AF1 & AF2 & AF3 & AF4 & AF5). rewrite skip_states in AF3. rewrite skip_marks in AF4.
  specialize (K p1 AF1 AF5). 
  destruct (PV p1 rest K) as (_ & _ & PV1). destruct (PV1 eq_refl TI) as (p2 & R2 & AG).
  exists p2. split; [|rewrite <- AF3, <- AF4; exact AG].
  cbn [fst snd]. eapply emits_app; [exact R1|].
  apply runs_emits; [apply AF5|rewrite AF2; reflexivity|]. unfold state_machine. rewrite AF2. exact R2.
Qed.

(* the tail of a single-pair mapping, from the state after its key *)
Lemma fse_tail p vs v rest ss ms : P_value Flow vs v -> at_pos p vs rest -> tail_in [TFlowEntry; TFlowSeqEnd] rest ->
  p_state p = PS_FSeqMapValue -> p_states p = ss -> p_marks p = ms ->
  exists p', runs p (events_of v ++ [EMapEnd]) p' /\ after p' rest PS_FSeqEntry ss ms.
Proof.
  intros PV A TI S SS MM. destruct (PV p rest A) as (_ & PV1 & _). destruct (PV1 eq_refl TI) as (p2 & R2 & AG).
  pose proof AG as (AG1 & AG2 & AG3 & AG4 & AG5).
  exists (set_state p2 PS_FSeqEntry). split.
  - eapply runs_app.
    + apply runs_emits; [apply (at_ok _ _ _ A)|rewrite S; reflexivity|]. unfold state_machine. rewrite S. exact R2.
    + apply runs_emits; [apply AG5|rewrite AG2; reflexivity|]. unfold state_machine. rewrite AG2.
      destruct TI as (t & r & -> & I). unfold parse_flow_sequence_entry_mapping_end, peek. rewrite AG1.
      apply (emits_one (mkEvent EMapEnd _ _)).
  - subst. rewrite <- AG3, <- AG4. apply after_set; auto.
Qed.
Lemma key_entry p ts rest : at_pos p (TKey :: ts) rest -> exists p1 sm em, seq_entry p = PEvent (mkEvent (EMapStart None None true FlowColl) sm em) p1 /\
  at_pos p1 ts rest /\ p_state p1 = PS_FSeqMapKey /\ p_states p1 = p_states p /\ p_marks p1 = p_marks p.
Proof.
  intros A. destruct (at_cons _ _ _ _ A) as (tk & r & E & T & _ & O & A2). specialize (A2 eq_refl).
  exists (skip (set_state p PS_FSeqMapKey)), (t_start tk), (t_end tk). split; [|split; [|split; [|split]]].
  - unfold seq_entry, peek. rewrite E, T. reflexivity.
  - eapply at_same; [exact A2|..]; unfold skip; cbn; rewrite E; reflexivity.
  - unfold skip. cbn. rewrite E. reflexivity.
  - rewrite skip_states. reflexivity.
  - rewrite skip_marks. reflexivity.
Qed.
Lemma case_fse_pair ks k vs v : node G e Flow ks k -> P_node Flow ks k -> opt_value G e Flow vs v -> P_value Flow vs v ->
  P_fse (TKey :: ks ++ vs) (Mapping None None true FlowColl [(k, v)]).
Proof.
  intros N PN OV PV p rest A TI. destruct (key_entry _ _ _ A) as (p1 & sm & em & E & A1 & S1 & SS1 & M1). rewrite E.
  destruct (at_app _ _ _ _ A1) as (mid & A3 & EM & K).
  destruct (node_starts _ _ _ N) as (h & r & -> & SH).
  destruct (at_cons _ _ _ _ A3) as (tk & l & Eh & Th & _ & O & _).
  destruct (PN (push_state p1 PS_FSeqMapValue) mid PS_FSeqMapValue (p_states p1)) as (p2 & R2 & AF); [apply at_push; auto|reflexivity| |].
  { destruct (value_head _ _ _ OV) as [->|(r2 & ->)].
    - destruct TI as (t & r' & -> & I). destruct mid as [|t2 m2]; inversion EM. exists t2, m2. split; auto.
      rewrite H0. destruct (t_tok t); cbn in I; intuition congruence.
    - eapply mid_head; [exact EM|reflexivity|reflexivity]. }
  pose proof AF as (AF1 & AF2 & AF3 & AF4 & AF5).
  destruct (fse_tail p2 vs v rest (p_states p) (p_marks p)) as (p3 & R3 & AG); auto; try congruence.
  { cbn in AF4. congruence. }
  exists p3. split; auto. cbn [events_of flat_map]. rewrite app_nil_r, <- app_assoc. constructor.
  eapply runs_app; [|exact R3]. apply runs_emits; [apply O|rewrite S1; reflexivity|]. unfold state_machine. rewrite S1.
  unfold parse_flow_sequence_entry_mapping_key, peek. rewrite Eh, Th. destruct h; try discriminate SH; exact R2.
Qed.
Lemma case_fse_swallow s vs v : s = TValue \/ s = TFlowEntry -> opt_value G e Flow vs v -> P_value Flow vs v ->
  P_fse (TKey :: s :: vs) (Mapping None None true FlowColl [(null, v)]).
Proof.
  intros Hs OV PV p rest A TI. destruct (key_entry _ _ _ A) as (p1 & sm & em & E & A1 & S1 & SS1 & M1). rewrite E.
  destruct (at_cons _ _ _ _ A1) as (tk & l & Eh & Th & _ & O & A2).
  assert (NE : is_stream_end s = false) by (destruct Hs; subst; reflexivity). specialize (A2 NE).
  destruct (fse_tail (set_state (skip p1) PS_FSeqMapValue) vs v rest (p_states p) (p_marks p)) as (p3 & R3 & AG); auto.
  { cbn. rewrite skip_states. auto. } { cbn. rewrite skip_marks. auto. }
  exists p3. split; auto. cbn [events_of flat_map]. rewrite app_nil_r, <- app_assoc. constructor.
  eapply runs_app; [|exact R3]. apply runs_emits; [apply O|rewrite S1; reflexivity|]. unfold state_machine. rewrite S1.
  unfold parse_flow_sequence_entry_mapping_key, peek. rewrite Eh, Th.
  destruct Hs; subst s; apply (emits_one (mkEvent empty_scalar _ _)).
Qed.
Lemma case_fs_last_key : P_fseq [TKey; TFlowSeqEnd] [Mapping None None true FlowColl [(null, null)]].
Proof.
  intros p rest s ss m ms A S M. destruct (key_entry _ _ _ A) as (p1 & sm & em & E & A1 & S1 & SS1 & M1). rewrite E.
  destruct (at_cons _ _ _ _ A1) as (tk & l & Eh & Th & _ & O & _).
  assert (AP : at_pos (set_state p1 PS_FSeqMapValue) [] (p_in p1)).
  { exists []. repeat split; auto; apply O. }
  destruct (fse_tail (set_state p1 PS_FSeqMapValue) [] null (p_in p1) (p_states p) (p_marks p)) as (p3 & R3 & AG); auto.
  { apply case_v_none. } { rewrite Eh. exists tk, l. rewrite Th. cbn. auto. }
  destruct (fseq_end p3 (p_in p1) (p_states p) (p_marks p) s ss m ms AG S M rest) as (p4 & R4 & AH).
  { destruct A1 as (tin & Q1 & Q2 & Q3 & Q4). exists tin. destruct AG as (G1 & G2 & G3 & G4 & G5). rewrite G1. auto. }
  exists p4. split; auto. cbn [items_events flat_map events_of app].
  constructor.
  eapply (runs_app _ (events_of null) _ ((events_of null ++ [EMapEnd]) ++ [ESeqEnd])); [|eapply runs_app; eauto].
  apply runs_emits; [apply O|rewrite S1; reflexivity|]. unfold state_machine. rewrite S1.
  unfold parse_flow_sequence_entry_mapping_key, peek. rewrite Eh, Th. apply emits_empty.
Qed.

(* collections as content *)
Lemma case_flow_seq k a t ts xs : P_fseq ts xs -> P_content k a t (TFlowSeqStart :: ts) (Sequence a t (implicit_of t) FlowColl xs).
Proof.
  intros IH p rest s ss tk r sm em A S F E. destruct (at_cons _ _ _ _ A) as (tk' & r' & E' & T & D & O & A2).
  rewrite E in E'. inversion E'; subst tk' r'. specialize (A2 eq_refl).
  destruct (IH (skip (push_mark (set_state p PS_FSeqFirst) (t_start tk))) rest s ss (t_start tk) (p_marks p)) as (p2 & R2 & AF).
  { eapply at_same; [exact A2|..]; unfold skip; cbn; rewrite E; reflexivity. }
  { rewrite skip_states. exact S. } { rewrite skip_marks. reflexivity. }
  exists p2. split; auto. unfold parse_content. rewrite implicit_model, T, D, andb_false_r. constructor.
  apply runs_emits; [apply O|reflexivity|]. unfold state_machine, parse_flow_sequence_entry, enter, peek_unchecked. cbn [p_state p_in set_state]. rewrite E.
  unfold seq_entry, peek in *. destruct (p_in (skip _)) as [|t0 ?]; [exact R2|]. destruct (t_tok t0); exact R2.
Qed.
Lemma case_flow_map k a t ts xs : P_fmap ts xs -> P_content k a t (TFlowMapStart :: ts) (Mapping a t (implicit_of t) FlowColl xs).
Proof.
  intros IH p rest s ss tk r sm em A S F E. destruct (at_cons _ _ _ _ A) as (tk' & r' & E' & T & D & O & A2).
  rewrite E in E'. inversion E'; subst tk' r'. specialize (A2 eq_refl).
  destruct (IH (skip (push_mark (set_state p PS_FMapFirst) (t_start tk))) rest s ss (t_start tk) (p_marks p)) as (p2 & R2 & AF).
  { eapply at_same; [exact A2|..]; unfold skip; cbn; rewrite E; reflexivity. }
  { rewrite skip_states. exact S. } { rewrite skip_marks. reflexivity. }
  exists p2. split; auto. unfold parse_content. rewrite implicit_model, T, D, andb_false_r. constructor.
  apply runs_emits; [apply O|reflexivity|]. unfold state_machine, parse_flow_mapping_key, enter, peek_unchecked. cbn [p_state p_in set_state]. rewrite E.
  unfold map_entry, peek in *. destruct (p_in (skip _)) as [|t0 ?]; [exact R2|]. destruct (t_tok t0); exact R2.
Qed.
Lemma case_block_seq k a t ts xs : k <> Flow -> P_bseq ts xs -> P_content k a t (TBlockSeqStart :: ts) (Sequence a t (implicit_of t) BlockColl xs).
Proof.
  intros NF IH p rest s ss tk r sm em A S F E. destruct (at_cons _ _ _ _ A) as (tk' & r' & E' & T & D & O & A2).
  rewrite E in E'. inversion E'; subst tk' r'. specialize (A2 eq_refl).
  destruct (IH (skip (push_mark (set_state p PS_BSeqFirst) (t_start tk))) rest s ss (t_start tk) (p_marks p)) as (p2 & R2 & AF).
  { eapply at_same; [exact A2|..]; unfold skip; cbn; rewrite E; reflexivity. }
  { rewrite skip_states. exact S. } { rewrite skip_marks. reflexivity. }
  exists p2. split; auto. unfold parse_content. rewrite implicit_model, T, D, andb_false_r.
  replace (blk k) with true by (destruct k; [reflexivity|reflexivity|congruence]). constructor.
  apply runs_emits; [apply O|reflexivity|]. unfold state_machine. cbn [p_state set_state].
  unfold parse_block_sequence_entry, enter, peek_unchecked in *. cbn [p_in set_state] in *. rewrite E. exact R2.
Qed.
Lemma case_block_map k a t ts xs : k <> Flow -> P_bmap ts xs -> P_content k a t (TBlockMapStart :: ts) (Mapping a t (implicit_of t) BlockColl xs).
Proof.
  intros NF IH p rest s ss tk r sm em A S F E. destruct (at_cons _ _ _ _ A) as (tk' & r' & E' & T & D & O & A2).
  rewrite E in E'. inversion E'; subst tk' r'. specialize (A2 eq_refl).
  destruct (IH (skip (push_mark (set_state p PS_BMapFirst) (t_start tk))) rest s ss (t_start tk) (p_marks p)) as (p2 & R2 & AF).
  { eapply at_same; [exact A2|..]; unfold skip; cbn; rewrite E; reflexivity. }
  { rewrite skip_states. exact S. } { rewrite skip_marks. reflexivity. }
  exists p2. split; auto. unfold parse_content. rewrite implicit_model, T, D, andb_false_r.
  replace (blk k) with true by (destruct k; [reflexivity|reflexivity|congruence]). constructor.
  apply runs_emits; [apply O|reflexivity|]. unfold state_machine. cbn [p_state set_state].
  unfold parse_block_mapping_key, enter, peek_unchecked in *. cbn [p_in set_state] in *. rewrite E. exact R2.
Qed.
Lemma case_indentless a t ts xs : indentless G e ts xs -> P_ind ts xs -> P_content BlockOrIndentless a t ts (Sequence a t (implicit_of t) BlockColl xs).
Proof.
  intros I IH p rest s ss tk r sm em A S F E. destruct (ind_head _ _ I) as (r0 & ->).
  destruct (at_cons _ _ _ _ A) as (tk' & r' & E' & T & D & O & _). rewrite E in E'. inversion E'; subst tk' r'.
  destruct (IH (set_state p PS_Indentless) rest s ss) as (p2 & R2 & AF); auto.
  exists p2. split; auto. unfold parse_content. rewrite implicit_model, T. cbn [andb ind]. constructor.
  apply runs_emits; [apply O|reflexivity|]. exact R2.
Qed.
End complete.

Scheme node_m := Minimality for node Sort Prop
  with content_m := Minimality for content Sort Prop
  with opt_node_m := Minimality for opt_node Sort Prop
  with opt_value_m := Minimality for opt_value Sort Prop
  with bseq_m := Minimality for block_sequence Sort Prop
  with ind_m := Minimality for indentless Sort Prop
  with bmap_m := Minimality for block_mapping Sort Prop
  with fseq_m := Minimality for flow_sequence Sort Prop
  with fse_m := Minimality for flow_sequence_entry Sort Prop
  with fmap_m := Minimality for flow_mapping Sort Prop
  with fme_m := Minimality for flow_mapping_entry Sort Prop.

Theorem node_complete e : NoDup (map fst e) -> forall k ts x, node implemented e k ts x -> P_node e k ts x.
Proof.
  intros ND.
  apply (node_m implemented e (P_node e) (P_content e) (P_opt e) (P_value e) (P_bseq e) (P_ind e) (P_bmap e) (P_fseq e) (P_fse e) (P_fmap e) (P_fme e)); intros.
  - apply case_alias.
  - apply case_empty; auto.
  - eapply case_content; eauto.
  - apply case_scalar.
  - apply case_flow_seq; auto.
  - apply case_flow_map; auto.
  - apply case_block_seq; auto.
  - apply case_block_map; auto.
  - apply case_indentless; auto.
  - left. auto.
  - right. split; auto. eapply node_starts; eauto.
  - apply case_v_none.
  - apply case_v_some; auto.
  - apply case_bs_end.
  - apply case_bs_entry; auto.
  - apply case_is_last; auto.
  - apply case_is_entry; auto.
  - apply case_bm_end.
  - apply case_bm_pair; auto.
  - discriminate.
  - apply case_fs_end.
  - apply case_fs_last; auto.
  - apply case_fs_entry; auto.
  - apply case_fs_last_key.
  - apply case_fse_node; auto.
  - apply case_fse_pair; auto.
  - discriminate.
  - apply case_fse_swallow; auto.
  - apply case_fm_end.
  - apply case_fm_last; auto.
  - apply case_fm_entry; auto.
  - apply case_fme_node; auto.
  - apply case_fme_pair; auto.
Qed.
