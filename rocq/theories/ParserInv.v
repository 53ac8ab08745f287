(* Proofs about parser.c: state invariant, absence of undefined behaviour,
   progress, well-formedness of the events. *)
From Verif Require Import Base ReaderModel Types TreeSpec GrammarSpec EventAcc ParserModel.

Definition toks (p : parser) : list tok := map t_tok (p_in p).

(* states that can be on the stack above DOCUMENT-END *)
Definition inner (s : pstate) : bool :=
  match s with
  | PS_BSeqEntry | PS_Indentless | PS_BMapKey | PS_BMapValue
  | PS_FSeqEntry | PS_FSeqMapValue | PS_FSeqMapEnd
  | PS_FMapKey | PS_FMapValue | PS_FMapEmptyValue => true
  | _ => false
  end.
(* states that own a mark *)
Definition marked (s : pstate) : bool :=
  match s with
  | PS_BSeqEntry | PS_BMapKey | PS_BMapValue
  | PS_FSeqEntry | PS_FSeqMapKey | PS_FSeqMapValue | PS_FSeqMapEnd
  | PS_FMapKey | PS_FMapValue | PS_FMapEmptyValue => true
  | _ => false
  end.
Definition is_bmap (s : pstate) : bool := match s with PS_BMapKey | PS_BMapValue => true | _ => false end.
Definition below_ok (s : pstate) (ss : list pstate) : bool :=
  match s with
  | PS_Indentless => match ss with t :: _ => is_bmap t | [] => false end
  | _ => true
  end.
Fixpoint stack_ok (ss : list pstate) : bool :=
  match ss with
  | [] => false
  | s :: r => match s with
              | PS_DocEnd => match r with [] => true | _ => false end
              | _ => inner s && below_ok s r && stack_ok r
              end
  end.
Definition nmarks (ss : list pstate) : nat := length (filter marked ss).
Definition head_is (t : tok) (p : parser) : Prop := exists r, toks p = t :: r.

Definition wf_state (p : parser) : Prop :=
  let deep := stack_ok (p_states p) = true /\ length (p_marks p) = nmarks (p_state p :: p_states p) in
  match p_state p with
  | PS_StreamStart | PS_ImplicitDocStart | PS_DocStart => p_states p = [] /\ p_marks p = [] /\ p_tags p = []
  | PS_DocEnd => p_states p = [] /\ p_marks p = []
  | PS_DocContent | PS_BlockNode => p_states p = [PS_DocEnd] /\ p_marks p = []
  | PS_BSeqFirst => deep /\ head_is TBlockSeqStart p
  | PS_BMapFirst => deep /\ head_is TBlockMapStart p
  | PS_FSeqFirst => deep /\ head_is TFlowSeqStart p
  | PS_FMapFirst => deep /\ head_is TFlowMapStart p
  | PS_Indentless => deep /\ below_ok PS_Indentless (p_states p) = true
  | PS_BSeqEntry | PS_BMapKey | PS_BMapValue
  | PS_FSeqEntry | PS_FSeqMapKey | PS_FSeqMapValue | PS_FSeqMapEnd
  | PS_FMapKey | PS_FMapValue | PS_FMapEmptyValue => deep
  | PS_BlockNodeOrIndentless | PS_FlowNode | PS_End => False
  end.
Definition wf (p : parser) : Prop := p_error p = None /\ p_end p = false /\ wf_state p.

(* what yaml_parser_parse_node returns *)
Definition kind_of (block indentless : bool) : kind :=
  if block then (if indentless then BlockOrIndentless else Block) else Flow.
(* a collection of kind [k] is opened: next state, head token, event *)
Inductive opens (k : kind) (a t : option (list N)) : pstate -> tok -> ev -> Prop :=
| Op_fseq : opens k a t PS_FSeqFirst TFlowSeqStart (ESeqStart a t (implicit_of t) FlowColl)
| Op_fmap : opens k a t PS_FMapFirst TFlowMapStart (EMapStart a t (implicit_of t) FlowColl)
| Op_bseq : k <> Flow -> opens k a t PS_BSeqFirst TBlockSeqStart (ESeqStart a t (implicit_of t) BlockColl)
| Op_bmap : k <> Flow -> opens k a t PS_BMapFirst TBlockMapStart (EMapStart a t (implicit_of t) BlockColl)
| Op_indentless : k = BlockOrIndentless ->
    opens k a t PS_Indentless TBlockEntry (ESeqStart a t (implicit_of t) BlockColl).

Inductive node_out (k : kind) (p p' : parser) (e : ev) : Prop :=
| NO_done used x s ss :
    toks p = used ++ toks p' -> p_states p = s :: ss -> p_state p' = s -> p_states p' = ss ->
    node implemented (p_tags p) k used x -> events_of x = [e] -> node_out k p p' e
| NO_open used a t hd :
    toks p = used ++ toks p' -> opt_properties (p_tags p) used a t ->
    opens k a t (p_state p') hd e -> head_is hd p' -> p_states p' = p_states p ->
    node_out k p p' e.

Definition same_rest (p p' : parser) : Prop :=
  p_marks p' = p_marks p /\ p_tags p' = p_tags p /\ p_error p' = p_error p /\ p_end p' = false.

Lemma implicit_model tag : (match tag with None => true | Some [] => true | Some _ => false end) = implicit_of tag.
Proof. destruct tag as [[|]|]; reflexivity. Qed.

Lemma resolve_tag_sound tags h s t : resolve_tag tags h s = Some t -> resolves tags h s t.
Proof.
  destruct h as [|c h]; cbn; [congruence|].
  destruct (find (fun td => str_eqb (fst td) (c :: h)) tags) as [[h' pre]|] eqn:F; [|discriminate]. intros [= <-].
  apply find_some in F. destruct F as [I E]. cbn in E.
  destruct (str_eqb_spec h' (c :: h)) as [->|]; [|discriminate]. eauto.
Qed.

Lemma skip_toks p t r : p_in p = t :: r -> toks p = t_tok t :: toks (skip p).
Proof. intros H. unfold toks, skip. rewrite H. reflexivity. Qed.

(* parse_content under already consumed properties *)
Lemma parse_content_out p b i a t sm em token p0 used r :
  (i = true -> b = true) ->
  p_in p = token :: r -> p_states p0 = p_states p -> p_tags p0 = p_tags p -> p_states p <> [] ->
  toks p0 = used ++ toks p -> same_rest p0 p ->
  opt_properties (p_tags p0) used a t ->
  match parse_content p b i a t sm em token with
  | PUB | PNothing _ => False
  | PFail p' => p_error p' <> None
  | PEvent e p' => node_out (kind_of b i) p0 p' (e_ev e) /\ same_rest p0 p'
  end.
Proof.
  intros Hib Hin Hst Htg Hne Htk (S1 & S2 & S3 & S4) Hop.
  assert (Hhd : forall st, head_is (t_tok token) (set_state p st)).
  { intros st. unfold head_is, toks. cbn. rewrite Hin. cbn. eauto. }
  assert (SR : forall st, same_rest p0 (set_state p st)) by (intros st; repeat split; auto).
  destruct (p_states p) as [|s ss] eqn:Ess; [congruence|].
  unfold parse_content. cbv zeta. rewrite !implicit_model.

  assert (OPEN : forall st hd e, hd = t_tok token -> opens (kind_of b i) a t st hd e ->
     node_out (kind_of b i) p0 (set_state p st) e /\ same_rest p0 (set_state p st)).
  { intros st hd e -> O. split; [|apply SR]. eapply NO_open; eauto.
    cbn. congruence. }
  assert (SKIP : is_stream_end (t_tok token) = false ->
     same_rest p0 (skip (mkParser (p_in p) (p_end p) (p_error p) s ss (p_marks p) (p_tags p)))).
  { intros H. unfold skip. cbn. rewrite Hin. cbn. repeat split; auto. }
  assert (EMPTY : match match a, t with
        | None, None => error_context p (NoNodeContent b) sm (t_start token)
        | _, _ => pop_state p (fun p => ret (EScalar a t [] (implicit_of t) false Plain) sm em p)
        end with
      | PUB | PNothing _ => False
      | PFail p' => p_error p' <> None
      | PEvent e p' => node_out (kind_of b i) p0 p' (e_ev e) /\ same_rest p0 p'
      end).
  { assert (K : a <> None \/ t <> None -> match pop_state p (fun p => ret (EScalar a t [] (implicit_of t) false Plain) sm em p) with
      | PUB | PNothing _ => False
      | PFail p' => p_error p' <> None
      | PEvent e p' => node_out (kind_of b i) p0 p' (e_ev e) /\ same_rest p0 p'
      end).
    { intros D. unfold pop_state. rewrite Ess. cbn. split; [|repeat split; auto].
      eapply NO_done with (used := used) (s := s) (ss := ss) (x := Scalar a t [] (implicit_of t) false Plain); eauto; try (rewrite Hst; auto; fail).
      apply N_empty. inversion Hop; subst; [destruct D; congruence|auto]. }
    destruct a, t; try (apply K; (left + right); discriminate). cbn. discriminate. }
  assert (LIM : forall X, match X with
      | PUB | PNothing _ => False
      | PFail p' => p_error p' <> None
      | PEvent e p' => node_out (kind_of b i) p0 p' (e_ev e) /\ same_rest p0 p'
      end -> match (if t_deep token then error_context p MaxNesting sm (t_start token) else X) with
      | PUB | PNothing _ => False
      | PFail p' => p_error p' <> None
      | PEvent e p' => node_out (kind_of b i) p0 p' (e_ev e) /\ same_rest p0 p'
      end).
  { intros X HX. destruct (t_deep token); [cbn; discriminate|exact HX]. }
  destruct (i && match t_tok token with TBlockEntry => true | _ => false end) eqn:Ei.
  { apply andb_prop in Ei as [-> Et]. rewrite (Hib eq_refl) in *. cbn. eapply (OPEN _ TBlockEntry); [|apply Op_indentless; reflexivity].
    destruct (t_tok token); try discriminate; reflexivity. }
  destruct (t_tok token) eqn:Et; try exact EMPTY.
  - destruct b; [|exact EMPTY]. apply LIM. cbn -[kind_of]. eapply (OPEN _ TBlockSeqStart); [auto|constructor]. destruct i; discriminate.
  - destruct b; [|exact EMPTY]. apply LIM. cbn -[kind_of]. eapply (OPEN _ TBlockMapStart); [auto|constructor]. destruct i; discriminate.
  - apply LIM. cbn -[kind_of]. eapply (OPEN _ TFlowSeqStart); [auto|constructor].
  - apply LIM. cbn -[kind_of]. eapply (OPEN _ TFlowMapStart); [auto|constructor].
  - unfold pop_state. rewrite Ess. cbn -[skip kind_of]. split; [|apply SKIP; reflexivity].
    eapply NO_done with (used := used ++ [TScalar value style]).
    + rewrite Htk, <- app_assoc. cbn. unfold toks, skip. cbn. rewrite Hin. cbn. rewrite Et. reflexivity.
    + rewrite Hst. reflexivity.
    + unfold skip; cbn; rewrite Hin; reflexivity.
    + unfold skip; cbn; rewrite Hin; reflexivity.
    + eapply N_content; [exact Hop|]. apply C_scalar.
    + cbn. unfold plain_implicit_of, quoted_implicit_of. unfold is_bang. destruct t as [t|]; [destruct (str_eqb t [33]); reflexivity|].
      destruct (sstyle_eqb style Plain); reflexivity.
Qed.

Lemma same_rest_skip p p' t r : p_in p' = t :: r -> is_stream_end (t_tok t) = false -> same_rest p p' -> same_rest p (skip p').
Proof. intros H E (A & B & C & D). unfold skip. rewrite H. repeat split; auto. Qed.
Lemma skip_states p : p_states (skip p) = p_states p.
Proof. unfold skip. destruct (p_in p); reflexivity. Qed.
Lemma skip_tags p : p_tags (skip p) = p_tags p.
Proof. unfold skip. destruct (p_in p); reflexivity. Qed.
Lemma skip_in p t r : p_in p = t :: r -> p_in (skip p) = r.
Proof. unfold skip. intros ->. reflexivity. Qed.

Lemma parse_node_out p b i :
  (i = true -> b = true) -> p_end p = false -> p_states p <> [] ->
  match parse_node p b i with
  | PUB | PNothing _ => False
  | PFail p' => p_error p' <> None
  | PEvent e p' => node_out (kind_of b i) p p' (e_ev e) /\ same_rest p p'
  end.
Proof.
  intros Hib He Hs. assert (SR0 : same_rest p p) by (repeat split; auto).
  unfold parse_node, peek at 1. destruct (p_in p) as [|t1 r1] eqn:Ein; [cbn; discriminate|].
  assert (DEF : match parse_content p b i None None (t_start t1) (t_start t1) t1 with
     | PUB | PNothing _ => False
     | PFail p' => p_error p' <> None
     | PEvent e p' => node_out (kind_of b i) p p' (e_ev e) /\ same_rest p p' end).
  { eapply parse_content_out with (used := []); eauto. constructor. }
  assert (HSK : is_stream_end (t_tok t1) = false -> same_rest p (skip p)) by (intros; eapply same_rest_skip; eauto).
  destruct (t_tok t1) eqn:Et1; try exact DEF; clear DEF.
  - (* alias *)
    unfold pop_state. destruct (p_states p) as [|s ss] eqn:Ess; [congruence|]. cbn -[skip kind_of]. split.
    + eapply NO_done with (used := [TAlias name]); eauto.
      * unfold toks, skip. cbn. rewrite Ein. cbn. rewrite Et1. reflexivity.
      * unfold skip; cbn; rewrite Ein; reflexivity.
      * unfold skip; cbn; rewrite Ein; reflexivity.
      * constructor.
      * reflexivity.
    + unfold skip. cbn. rewrite Ein. repeat split; auto. cbn. rewrite Et1. reflexivity.
  - (* anchor *)
    specialize (HSK eq_refl). cbv zeta. unfold peek at 1. rewrite (skip_in _ _ _ Ein).
    destruct r1 as [|t2 r2]; [cbn; discriminate|].
    assert (Ein2 : p_in (skip p) = t2 :: r2) by (apply (skip_in _ _ _ Ein)).
    assert (T1 : toks p = [TAnchor name] ++ toks (skip p)) by (rewrite (skip_toks _ _ _ Ein), Et1; reflexivity).
    assert (DEF : match parse_content (skip p) b i (Some name) None (t_start t1) (t_end t1) t2 with
     | PUB | PNothing _ => False
     | PFail p' => p_error p' <> None
     | PEvent e p' => node_out (kind_of b i) p p' (e_ev e) /\ same_rest p p' end).
    { eapply parse_content_out with (used := [TAnchor name]); eauto; rewrite ?skip_states, ?skip_tags; auto.
      constructor. constructor. }
    destruct (t_tok t2) eqn:Et2; try exact DEF; clear DEF.
    unfold peek. rewrite (skip_in _ _ _ Ein2). destruct r2 as [|t3 r3]; [cbn; discriminate|].
    unfold with_tag. destruct (resolve_tag _ handle suffix) as [tag|] eqn:Er; [|cbn; discriminate].
    apply resolve_tag_sound in Er. rewrite !skip_tags in Er.
    eapply parse_content_out with (used := [TAnchor name; TTag handle suffix]) (r := r3); eauto;
      rewrite ?skip_states, ?skip_tags; auto.
    + apply (skip_in _ _ _ Ein2).
    + rewrite T1, (skip_toks _ _ _ Ein2), Et2. reflexivity.
    + eapply same_rest_skip; eauto. rewrite Et2. reflexivity.
    + constructor. constructor. auto.
  - (* tag *)
    specialize (HSK eq_refl). cbv zeta. unfold peek at 1. rewrite (skip_in _ _ _ Ein).
    destruct r1 as [|t2 r2]; [cbn; discriminate|].
    assert (Ein2 : p_in (skip p) = t2 :: r2) by (apply (skip_in _ _ _ Ein)).
    assert (T1 : toks p = [TTag handle suffix] ++ toks (skip p)) by (rewrite (skip_toks _ _ _ Ein), Et1; reflexivity).
    assert (DEF : match with_tag (skip p) (Some (handle, suffix, t_start t1)) (t_start t1) (fun tag =>
              parse_content (skip p) b i None tag (t_start t1) (t_end t1) t2) with
     | PUB | PNothing _ => False
     | PFail p' => p_error p' <> None
     | PEvent e p' => node_out (kind_of b i) p p' (e_ev e) /\ same_rest p p' end).
    { unfold with_tag. destruct (resolve_tag _ handle suffix) as [tag|] eqn:Er; [|cbn; discriminate].
      apply resolve_tag_sound in Er. rewrite !skip_tags in Er.
      eapply parse_content_out with (used := [TTag handle suffix]); eauto; rewrite ?skip_states, ?skip_tags; auto.
      constructor. constructor. auto. }
    destruct (t_tok t2) eqn:Et2; try exact DEF; clear DEF.
    unfold peek. rewrite (skip_in _ _ _ Ein2). destruct r2 as [|t3 r3]; [cbn; discriminate|].
    unfold with_tag. destruct (resolve_tag _ handle suffix) as [tag|] eqn:Er; [|cbn; discriminate].
    apply resolve_tag_sound in Er. rewrite !skip_tags in Er.
    eapply parse_content_out with (used := [TTag handle suffix; TAnchor name]) (r := r3); eauto;
      rewrite ?skip_states, ?skip_tags; auto.
    + apply (skip_in _ _ _ Ein2).
    + rewrite T1, (skip_toks _ _ _ Ein2), Et2. reflexivity.
    + eapply same_rest_skip; eauto. rewrite Et2. reflexivity.
    + constructor. constructor. auto.
Qed.

(** * The transitions of the state machine, one rule per code path *)

Definition is_first (s : pstate) : bool :=
  match s with PS_BSeqFirst | PS_BMapFirst | PS_FSeqFirst | PS_FMapFirst => true | _ => false end.

(* tokens consumed before yaml_parser_parse_node is called, and the state pushed *)
Inductive call : pstate -> kind -> list tok -> list pstate -> Prop :=
| Ca_content : call PS_DocContent Block [] []
| Ca_block : call PS_BlockNode Block [] []
| Ca_bseq1 : call PS_BSeqFirst Block [TBlockSeqStart; TBlockEntry] [PS_BSeqEntry]
| Ca_bseq : call PS_BSeqEntry Block [TBlockEntry] [PS_BSeqEntry]
| Ca_indentless : call PS_Indentless Block [TBlockEntry] [PS_Indentless]
| Ca_bmap1 : call PS_BMapFirst BlockOrIndentless [TBlockMapStart; TKey] [PS_BMapValue]
| Ca_bmap : call PS_BMapKey BlockOrIndentless [TKey] [PS_BMapValue]
| Ca_bval : call PS_BMapValue BlockOrIndentless [TValue] [PS_BMapKey]
| Ca_fseq1 : call PS_FSeqFirst Flow [TFlowSeqStart] [PS_FSeqEntry]
| Ca_fseq : call PS_FSeqEntry Flow [TFlowEntry] [PS_FSeqEntry]
| Ca_fskey : call PS_FSeqMapKey Flow [] [PS_FSeqMapValue]
| Ca_fsval : call PS_FSeqMapValue Flow [TValue] [PS_FSeqMapEnd]
| Ca_fmap1k : call PS_FMapFirst Flow [TFlowMapStart; TKey] [PS_FMapValue]
| Ca_fmap1 : call PS_FMapFirst Flow [TFlowMapStart] [PS_FMapEmptyValue]
| Ca_fmapk : call PS_FMapKey Flow [TFlowEntry; TKey] [PS_FMapValue]
| Ca_fmap : call PS_FMapKey Flow [TFlowEntry] [PS_FMapEmptyValue]
| Ca_fmval : call PS_FMapValue Flow [TValue] [PS_FMapKey].

(* an empty scalar is produced: tokens consumed, token that must follow, next state *)
Inductive empty : pstate -> list tok -> tok -> pstate -> Prop :=
| Em_bseq1 t : t = TBlockEntry \/ t = TBlockEnd -> empty PS_BSeqFirst [TBlockSeqStart; TBlockEntry] t PS_BSeqEntry
| Em_bseq t : t = TBlockEntry \/ t = TBlockEnd -> empty PS_BSeqEntry [TBlockEntry] t PS_BSeqEntry
| Em_indentless t : t = TBlockEntry \/ t = TKey \/ t = TValue \/ t = TBlockEnd ->
    empty PS_Indentless [TBlockEntry] t PS_Indentless
| Em_bmap1 t : t = TKey \/ t = TValue \/ t = TBlockEnd -> empty PS_BMapFirst [TBlockMapStart; TKey] t PS_BMapValue
| Em_bmap t : t = TKey \/ t = TValue \/ t = TBlockEnd -> empty PS_BMapKey [TKey] t PS_BMapValue
| Em_bval t : t = TKey \/ t = TValue \/ t = TBlockEnd -> empty PS_BMapValue [TValue] t PS_BMapKey
| Em_bval0 t : t <> TValue -> empty PS_BMapValue [] t PS_BMapKey
| Em_fskey t : t = TFlowSeqEnd -> empty PS_FSeqMapKey [] t PS_FSeqMapValue
| Em_fsval t : t = TFlowEntry \/ t = TFlowSeqEnd -> empty PS_FSeqMapValue [TValue] t PS_FSeqMapEnd
| Em_fsval0 t : t <> TValue -> empty PS_FSeqMapValue [] t PS_FSeqMapEnd
| Em_fmap1 t : t = TValue \/ t = TFlowEntry \/ t = TFlowMapEnd -> empty PS_FMapFirst [TFlowMapStart; TKey] t PS_FMapValue
| Em_fmap t : t = TValue \/ t = TFlowEntry \/ t = TFlowMapEnd -> empty PS_FMapKey [TFlowEntry; TKey] t PS_FMapValue
| Em_fmval t : t = TFlowEntry \/ t = TFlowMapEnd -> empty PS_FMapValue [TValue] t PS_FMapKey
| Em_fmval0 t : t <> TValue -> empty PS_FMapValue [] t PS_FMapKey
| Em_fmempty t : empty PS_FMapEmptyValue [] t PS_FMapKey.

(* a collection is closed: tokens consumed, event *)
Inductive closes : pstate -> list tok -> ev -> Prop :=
| Cl_bseq1 : closes PS_BSeqFirst [TBlockSeqStart; TBlockEnd] ESeqEnd
| Cl_bseq : closes PS_BSeqEntry [TBlockEnd] ESeqEnd
| Cl_bmap1 : closes PS_BMapFirst [TBlockMapStart; TBlockEnd] EMapEnd
| Cl_bmap : closes PS_BMapKey [TBlockEnd] EMapEnd
| Cl_fseq1 : closes PS_FSeqFirst [TFlowSeqStart; TFlowSeqEnd] ESeqEnd
| Cl_fseq : closes PS_FSeqEntry [TFlowSeqEnd] ESeqEnd
| Cl_fseq2 : closes PS_FSeqEntry [TFlowEntry; TFlowSeqEnd] ESeqEnd
| Cl_fmap1 : closes PS_FMapFirst [TFlowMapStart; TFlowMapEnd] EMapEnd
| Cl_fmap : closes PS_FMapKey [TFlowMapEnd] EMapEnd
| Cl_fmap2 : closes PS_FMapKey [TFlowEntry; TFlowMapEnd] EMapEnd.

Definition b2n (b : bool) : nat := if b then 1%nat else 0%nat.
Definition is_doc_start (s : pstate) : bool :=
  match s with PS_ImplicitDocStart | PS_DocStart => true | _ => false end.
(* DOCUMENT-END tokens are skipped only in DOCUMENT-START state *)
Definition ends_ok (s : pstate) (n : nat) : Prop := s = PS_ImplicitDocStart -> n = O.

Inductive trans (p : parser) : ev -> parser -> Prop :=
| Tr_stream_start enc p' :
    p_state p = PS_StreamStart -> toks p = TStreamStart enc :: toks p' ->
    p_state p' = PS_ImplicitDocStart -> p_states p' = p_states p -> p_marks p' = p_marks p -> p_tags p' = p_tags p ->
    trans p (EStreamStart enc) p'
| Tr_implicit_doc t r p' :
    p_state p = PS_ImplicitDocStart -> toks p = t :: r -> starts_explicit t = false -> is_stream_end t = false ->
    toks p' = toks p -> p_state p' = PS_BlockNode -> p_states p' = PS_DocEnd :: p_states p -> p_marks p' = p_marks p ->
    p_tags p' = env_of [] -> trans p (EDocStart None [] true) p'
| Tr_explicit_doc n ds v dirs p' :
    is_doc_start (p_state p) = true -> ends_ok (p_state p) n ->
    toks p = repeat TDocEnd n ++ ds ++ TDocStart :: toks p' -> directives ds v dirs ->
    p_state p' = PS_DocContent -> p_states p' = PS_DocEnd :: p_states p -> p_marks p' = p_marks p ->
    p_tags p' = env_of dirs -> trans p (EDocStart v dirs false) p'
| Tr_stream_end n p' :
    is_doc_start (p_state p) = true -> ends_ok (p_state p) n -> toks p = repeat TDocEnd n ++ TStreamEnd :: toks p' ->
    p_state p' = PS_End -> p_states p' = p_states p -> trans p EStreamEnd p'
| Tr_doc_end (n : nat) p' :
    p_state p = PS_DocEnd -> (n <= 1)%nat -> toks p = repeat TDocEnd n ++ toks p' -> (n = O -> ~ head_is TDocEnd p) ->
    p_state p' = PS_DocStart -> p_states p' = p_states p -> p_marks p' = p_marks p -> p_tags p' = [] ->
    trans p (EDocEnd (no_end n)) p'
| Tr_empty_doc p' :
    p_state p = PS_DocContent -> toks p' = toks p -> p_states p = p_state p' :: p_states p' ->
    p_marks p' = p_marks p -> p_tags p' = p_tags p ->
    (exists t r, toks p = t :: r /\ (starts_explicit t = true \/ t = TDocEnd \/ t = TStreamEnd)) ->
    trans p empty_scalar p'
| Tr_node k pre push p1 e p' :
    call (p_state p) k pre push -> toks p = pre ++ toks p1 -> p_states p1 = push ++ p_states p ->
    p_tags p1 = p_tags p -> node_out k p1 p' e -> p_tags p' = p_tags p ->
    length (p_marks p') = (length (p_marks p) + b2n (is_first (p_state p)))%nat -> trans p e p'
| Tr_empty pre t st' p' :
    empty (p_state p) pre t st' -> toks p = pre ++ toks p' -> head_is t p' -> p_state p' = st' ->
    p_states p' = p_states p -> p_tags p' = p_tags p ->
    length (p_marks p') = (length (p_marks p) + b2n (is_first (p_state p)))%nat -> trans p empty_scalar p'
| Tr_swallow t p' :
    p_state p = PS_FSeqMapKey -> t = TValue \/ t = TFlowEntry -> toks p = t :: toks p' ->
    p_state p' = PS_FSeqMapValue -> p_states p' = p_states p -> p_tags p' = p_tags p ->
    p_marks p' = p_marks p -> trans p empty_scalar p'
| Tr_close pre e p' :
    closes (p_state p) pre e -> toks p = pre ++ toks p' -> p_states p = p_state p' :: p_states p' -> p_tags p' = p_tags p ->
    (length (p_marks p') + 1 = length (p_marks p) + b2n (is_first (p_state p)))%nat -> trans p e p'
| Tr_indentless_end t r p' :
    p_state p = PS_Indentless -> toks p = t :: r -> t <> TBlockEntry -> toks p' = toks p ->
    p_states p = p_state p' :: p_states p' -> p_tags p' = p_tags p -> p_marks p' = p_marks p -> trans p ESeqEnd p'
| Tr_pair pre p' :
    (p_state p = PS_FSeqFirst /\ pre = [TFlowSeqStart; TKey]) \/ (p_state p = PS_FSeqEntry /\ pre = [TFlowEntry; TKey]) ->
    toks p = pre ++ toks p' -> p_state p' = PS_FSeqMapKey -> p_states p' = p_states p -> p_tags p' = p_tags p ->
    length (p_marks p') = (length (p_marks p) + b2n (is_first (p_state p)))%nat ->
    trans p (EMapStart None None true FlowColl) p'
| Tr_pair_end p' :
    p_state p = PS_FSeqMapEnd -> toks p' = toks p -> toks p <> [] -> p_state p' = PS_FSeqEntry -> p_states p' = p_states p ->
    p_tags p' = p_tags p -> p_marks p' = p_marks p -> trans p EMapEnd p'.

Definition step_out (p : parser) (o : pout) : Prop :=
  match o with
  | PUB | PNothing _ => False
  | PFail p' => p_error p' <> None
  | PEvent e p' => trans p (e_ev e) p' /\ p_error p' = None /\ p_end p' = is_end_state (p_state p')
  end.

Lemma call_step p k pre push p1 :
  call (p_state p) k pre push -> toks p = pre ++ toks p1 -> p_states p1 = push ++ p_states p -> p_tags p1 = p_tags p ->
  length (p_marks p1) = (length (p_marks p) + b2n (is_first (p_state p)))%nat ->
  p_states p1 <> [] -> p_error p1 = None -> p_end p1 = false ->
  (exists s ss, p_states p1 = s :: ss /\ s <> PS_End) ->
  step_out p (parse_node p1 (match k with Flow => false | _ => true end) (match k with BlockOrIndentless => true | _ => false end)).
Proof.
  intros C T S G M NE Er En (s0 & ss0 & HS & HE).
  assert (K : kind_of (match k with Flow => false | _ => true end) (match k with BlockOrIndentless => true | _ => false end) = k)
    by (destruct k; reflexivity).
  pose proof (parse_node_out p1 (match k with Flow => false | _ => true end)
     (match k with BlockOrIndentless => true | _ => false end)) as H.
  rewrite K in H. specialize (H ltac:(destruct k; auto) En NE).
  destruct (parse_node p1 _ _) as [e p'|p'|p'|]; cbn; auto.
  destruct H as [N (A & B & C' & D)]. repeat split.
  - eapply Tr_node; eauto; congruence.
  - congruence.
  - rewrite D. inversion N; subst.
    + rewrite HS in H0. inversion H0; subst. destruct (p_state p'); auto; congruence.
    + inversion H1; subst; reflexivity.
Qed.

(** * Directives *)
Lemma str_eqb_sym a b : str_eqb a b = str_eqb b a.
Proof. destruct (str_eqb_spec a b), (str_eqb_spec b a); congruence. Qed.
Lemma bound_binds tags h : bound tags h = binds tags h.
Proof. unfold bound, binds. induction tags as [|d r IH]; cbn; [reflexivity|]. rewrite IH, str_eqb_sym. reflexivity. Qed.
Lemma binds_app a b h : binds (a ++ b) h = binds a h || binds b h.
Proof. unfold binds. apply existsb_app. Qed.
Lemma binds_In tags h : binds tags h = true <-> In h (map fst tags).
Proof.
  unfold binds. rewrite existsb_exists, in_map_iff. split; intros (d & A & B).
  - exists d. destruct (str_eqb_spec (fst d) h); [auto|discriminate].
  - exists d. subst h. rewrite str_eqb_refl. auto.
Qed.
Lemma add_defaults_env tags : add_defaults tags = env_of tags.
Proof.
  unfold add_defaults, env_of, default_tag_directives, default_env, append_tag_directive.
  cbn [fold_left filter fst snd]. rewrite !bound_binds.
  destruct (binds tags [33]) eqn:E1; cbn [negb].
  - destruct (binds tags [33; 33]) eqn:E2; cbn [negb]; [rewrite app_nil_r|]; reflexivity.
  - rewrite binds_app. cbn [binds existsb fst str_eqb].
    destruct (binds tags [33; 33]) eqn:E2; cbn [negb orb].
    + reflexivity.
    + unfold binds. cbn. rewrite <- app_assoc. reflexivity.
Qed.

Definition ver_out (ver v' : option version) (vs : list version) : Prop :=
  match ver with
  | Some v => v' = Some v /\ vs = []
  | None => vs = match v' with None => [] | Some v => [v] end /\ match v' with None => True | Some v => version_ok v end
  end.

Lemma directive_loop_out fuel : forall ver dirs p,
  length fuel = length (p_in p) -> p_tags p = dirs -> p_end p = false -> p_error p = None -> NoDup (map fst dirs) ->
  match directive_loop fuel ver dirs p with
  | DirsFail p' => p_error p' <> None
  | DirsOk v' dirs' p' => exists ds t r,
      toks p = ds ++ toks p' /\ Forall (fun t => is_directive t = true) ds /\ ver_out ver v' (versions ds) /\
      dirs' = dirs ++ tag_directives ds /\ NoDup (map fst dirs') /\ p_tags p' = dirs' /\
      p_state p' = p_state p /\ p_states p' = p_states p /\ p_marks p' = p_marks p /\
      p_error p' = None /\ p_end p' = false /\ p_in p' = t :: r /\ is_directive (t_tok t) = false
  end.
Proof.
  induction fuel as [|f0 fuel IH]; intros ver dirs p HL HT HE HR ND.
  { cbn. discriminate. }
  cbn [directive_loop]. destruct (p_in p) as [|t r] eqn:Ein; [cbn; discriminate|].
  assert (STOP : is_directive (t_tok t) = false -> exists ds t' r',
      toks p = ds ++ toks p /\ Forall (fun t => is_directive t = true) ds /\ ver_out ver ver (versions ds) /\
      dirs = dirs ++ tag_directives ds /\ NoDup (map fst dirs) /\ p_tags p = dirs /\
      p_state p = p_state p /\ p_states p = p_states p /\ p_marks p = p_marks p /\
      p_error p = None /\ p_end p = false /\ p_in p = t' :: r' /\ is_directive (t_tok t') = false).
  { intros ND'. exists [], t, r. cbn. rewrite app_nil_r. unfold ver_out. destruct ver; repeat split; auto. }
  destruct (t_tok t) eqn:Et; try (apply STOP; reflexivity); clear STOP.
  - destruct ver; [cbn; discriminate|].
    destruct (negb (major =? 1) || negb (minor =? 1) && negb (minor =? 2)) eqn:EV; [cbn; discriminate|].
    specialize (IH (Some (major, minor)) dirs (skip p)).
    rewrite (skip_in _ _ _ Ein), skip_tags in IH.
    assert (S1 : p_state (skip p) = p_state p /\ p_states (skip p) = p_states p /\ p_marks (skip p) = p_marks p
              /\ p_error (skip p) = p_error p /\ p_end (skip p) = false).
    { unfold skip. rewrite Ein. cbn. rewrite Et. auto. }
    destruct S1 as (S1 & S2 & S3 & S4 & S5).
    specialize (IH ltac:(cbn in HL; lia) HT S5 ltac:(congruence) ND).
    destruct (directive_loop fuel (Some (major, minor)) dirs (skip p)) as [v' dirs' p'|p']; [|exact IH].
    destruct IH as (ds & t' & r' & A1 & A2 & [A3 A3'] & A4 & A5 & A6 & A7 & A8 & A9 & A10 & A11 & A12 & A13).
    exists (TVersion major minor :: ds), t', r'. rewrite (skip_toks _ _ _ Ein), Et, A1.
    subst v'. unfold ver_out. change (versions (TVersion major minor :: ds)) with ((major, minor) :: versions ds). rewrite A3'.
    repeat split; auto; try congruence.
    unfold version_ok. rewrite orb_false_iff, andb_false_iff, !negb_false_iff in EV. destruct EV as [E1 E2].
    apply N.eqb_eq in E1. subst. destruct E2 as [E2|E2]; apply N.eqb_eq in E2; subst; auto.
  - unfold append_tag_directive. rewrite HT, bound_binds.
    destruct (binds dirs (fst (handle, prefix))) eqn:EB; [cbn; discriminate|].
    specialize (IH ver (dirs ++ [(handle, prefix)]) (skip (set_tags p (dirs ++ [(handle, prefix)])))).
    assert (S1 : p_state (skip (set_tags p (dirs ++ [(handle, prefix)]))) = p_state p
              /\ p_states (skip (set_tags p (dirs ++ [(handle, prefix)]))) = p_states p
              /\ p_marks (skip (set_tags p (dirs ++ [(handle, prefix)]))) = p_marks p
              /\ p_error (skip (set_tags p (dirs ++ [(handle, prefix)]))) = p_error p
              /\ p_end (skip (set_tags p (dirs ++ [(handle, prefix)]))) = false
              /\ p_in (skip (set_tags p (dirs ++ [(handle, prefix)]))) = r
              /\ toks p = TTagDirective handle prefix :: toks (skip (set_tags p (dirs ++ [(handle, prefix)])))).
    { unfold skip, toks. cbn. rewrite Ein. cbn. rewrite Et. repeat split; auto. }
    rewrite skip_tags in IH. cbn [p_tags set_tags] in IH.
    remember (skip (set_tags p (dirs ++ [(handle, prefix)]))) as q.
    destruct S1 as (S1 & S2 & S3 & S4 & S5 & S6 & S7).
    rewrite S6 in IH. specialize (IH ltac:(cbn in HL; lia) eq_refl S5 ltac:(congruence)).
    assert (ND' : NoDup (map fst (dirs ++ [(handle, prefix)]))).
    { rewrite map_app. cbn. apply NoDup_Add with (a := handle) (l := map fst dirs).
      - rewrite <- (app_nil_r (map fst dirs)) at 1. apply Add_app.
      - split; auto. intros I. apply binds_In in I. cbn in EB. congruence. }
    specialize (IH ND').
    match goal with |- match ?X with _ => _ end => change X with (directive_loop fuel ver (dirs ++ [(handle, prefix)])
      (skip (set_tags p (dirs ++ [(handle, prefix)])))) end.
    rewrite <- Heqq.
    destruct (directive_loop fuel ver (dirs ++ [(handle, prefix)]) q) as [v' dirs' p'|p']; [|exact IH].
    destruct IH as (ds & t' & r' & A1 & A2 & A3 & A4 & A5 & A6 & A7 & A8 & A9 & A10 & A11 & A12 & A13).
    exists (TTagDirective handle prefix :: ds), t', r'. rewrite S7, A1.
    repeat split; auto; try congruence. rewrite A4, <- app_assoc. reflexivity.
Qed.

Lemma process_directives_out p :
  p_tags p = [] -> p_end p = false -> p_error p = None ->
  match process_directives p with
  | DirsFail p' => p_error p' <> None
  | DirsOk v dirs p' => exists ds t r,
      toks p = ds ++ toks p' /\ directives ds v dirs /\ p_tags p' = env_of dirs /\
      p_state p' = p_state p /\ p_states p' = p_states p /\ p_marks p' = p_marks p /\
      p_error p' = None /\ p_end p' = false /\ p_in p' = t :: r /\ is_directive (t_tok t) = false
  end.
Proof.
  intros HT HE HR. unfold process_directives.
  pose proof (directive_loop_out (p_in p) None [] p eq_refl HT HE HR (NoDup_nil _)) as H.
  destruct (directive_loop (p_in p) None [] p) as [v dirs p'|p']; [|exact H].
  destruct H as (ds & t & r & A1 & A2 & [A3 A3'] & A4 & A5 & A6 & A7 & A8 & A9 & A10 & A11 & A12 & A13).
  exists ds, t, r. rewrite A6, add_defaults_env. repeat split; auto.
Qed.

Lemma skip_doc_ends_out fuel : forall p, length fuel = length (p_in p) -> p_end p = false ->
  let p' := skip_doc_ends fuel p in
  exists n, toks p = repeat TDocEnd n ++ toks p' /\ p_tags p' = p_tags p /\ p_state p' = p_state p /\
    p_states p' = p_states p /\ p_marks p' = p_marks p /\ p_error p' = p_error p /\ p_end p' = false /\ ~ head_is TDocEnd p'.
Proof.
  induction fuel as [|f fuel IH]; intros p HL HE.
  { exists O. cbn. repeat split; auto. intros [r H]. unfold toks in H. destruct (p_in p); discriminate. }
  cbn [skip_doc_ends]. destruct (p_in p) as [|t r] eqn:Ein.
  { exists O. cbn. repeat split; auto. intros [r H]. unfold toks in H. rewrite Ein in H. discriminate. }
  assert (STOP : t_tok t <> TDocEnd -> exists n, toks p = repeat TDocEnd n ++ toks p /\ p_tags p = p_tags p /\ p_state p = p_state p /\
    p_states p = p_states p /\ p_marks p = p_marks p /\ p_error p = p_error p /\ p_end p = false /\ ~ head_is TDocEnd p).
  { intros N. exists O. repeat split; auto. intros [r' H]. unfold toks in H. rewrite Ein in H. inversion H. congruence. }
  destruct (t_tok t) eqn:Et; try (apply STOP; discriminate).
  assert (S1 : p_state (skip p) = p_state p /\ p_states (skip p) = p_states p /\ p_marks (skip p) = p_marks p
              /\ p_error (skip p) = p_error p /\ p_end (skip p) = false).
  { unfold skip. rewrite Ein. cbn. rewrite Et. auto. }
  destruct S1 as (S1 & S2 & S3 & S4 & S5).
  destruct (IH (skip p)) as (n & A1 & A2 & A3 & A4 & A5 & A6 & A7 & A8); auto.
  { rewrite (skip_in _ _ _ Ein). cbn in HL. lia. }
  exists (S n). rewrite (skip_toks _ _ _ Ein), Et, A1. rewrite skip_tags in A2. repeat split; auto; congruence.
Qed.

(** * Every step is one of the transitions *)
Ltac tk := unfold toks; cbn; repeat match goal with H : t_tok _ = _ |- _ => rewrite H end; reflexivity.
Ltac tkc := repeat match goal with H : t_tok _ = _ |- _ => rewrite H end; cbn; auto.
Ltac hd := unfold head_is, toks; cbn; repeat match goal with H : t_tok _ = _ |- _ => rewrite H end; eauto.
Ltac stk H := cbn; repeat eexists; try discriminate; try (intros ->; discriminate H).

Lemma stack_top ss : stack_ok ss = true -> exists s r, ss = s :: r /\ s <> PS_End.
Proof. destruct ss as [|s r]; [discriminate|]. intros H. exists s, r. split; auto. intros ->. discriminate. Qed.

Ltac do_node k K := eapply (call_step _ k); cbn;
  [constructor|tk|reflexivity|reflexivity|cbn; lia|try discriminate; try (intros ->; discriminate)|reflexivity|tkc|first [exact K | repeat eexists; discriminate]].
Ltac do_empty t E := cbn; split; [eapply (Tr_empty _ _ (t_tok t)); cbn; [rewrite E; econstructor; tauto|tk|hd|reflexivity|reflexivity|reflexivity|cbn; lia]|split; [reflexivity|tkc]].

Ltac do_close K ss := destruct K as (s & ss' & -> & K); cbn; split;
  [eapply Tr_close; cbn; [constructor|tk|reflexivity|reflexivity|cbn in *; lia]|split; [reflexivity|tkc; destruct s; auto; congruence]].
Ltac do_empty0 t C := cbn; split; [eapply (Tr_empty _ _ (t_tok t)); cbn;
   [eapply C; try congruence|reflexivity|hd|reflexivity|reflexivity|reflexivity|cbn; lia]|split; [reflexivity|tkc]].
Ltac do_pair := cbn; split; [eapply Tr_pair; cbn; [(left + right); split; reflexivity|tk|reflexivity|reflexivity|reflexivity|cbn; lia]
   |split; [reflexivity|tkc]].
Ltac do_swallow := cbn; split; [eapply Tr_swallow; cbn; [reflexivity|(left + right); reflexivity|tk|reflexivity..]
   |split; [reflexivity|tkc]].
Lemma doc_start_step p (implicit : bool) :
  p_tags p = [] -> p_end p = false -> p_error p = None ->
  p_state p = (if implicit then PS_ImplicitDocStart else PS_DocStart) ->
  step_out p (parse_document_start p implicit).
Proof.
  intros HT HE HR HS. unfold parse_document_start, peek at 1.
  destruct (p_in p) as [|t0 r0] eqn:Ein0; [cbn; discriminate|].
  set (q := if implicit then p else skip_doc_ends (t0 :: r0) p).
  assert (Q : exists n, toks p = repeat TDocEnd n ++ toks q /\ p_tags q = p_tags p /\ p_state q = p_state p /\
    p_states q = p_states p /\ p_marks q = p_marks p /\ p_error q = p_error p /\ p_end q = false /\ ends_ok (p_state p) n /\
    (implicit = true -> q = p)).
  { subst q. destruct implicit.
    - exists O. repeat split; auto.
    - destruct (skip_doc_ends_out (t0 :: r0) p) as (n & A1 & A2 & A3 & A4 & A5 & A6 & A7 & A8); [rewrite Ein0; auto|auto|].
      exists n. repeat split; auto; try congruence. }
  destruct Q as (n & Q1 & Q2 & Q3 & Q4 & Q5 & Q6 & Q7 & Q8 & Q9).
  cbv zeta. unfold peek at 1. destruct (p_in q) as [|t r] eqn:Ein; [cbn; discriminate|].
  pose proof (process_directives_out q) as PD.
  rewrite Q2, Q7, Q6 in PD. specialize (PD HT eq_refl HR).
  assert (DS : is_doc_start (p_state p) = true) by (rewrite HS; destruct implicit; reflexivity).
  destruct (implicit && negb (starts_explicit (t_tok t)) && negb (is_stream_end (t_tok t))) eqn:EI.
  - apply andb_prop in EI as [EI E3]. apply andb_prop in EI as [-> E2].
    apply negb_true_iff in E2, E3.
    destruct (process_directives q) as [v dirs p'|p']; [|exact PD].
    destruct PD as (ds & t' & r' & A1 & (B1 & B2 & B3 & B4 & B5) & A3 & A4 & A5 & A6 & A7 & A8 & A9 & A10).
    assert (ds = []).
    { destruct ds as [|d ds]; [reflexivity|]. unfold toks in A1 at 1. rewrite Ein in A1. inversion A1; subst.
      inversion B1; subst. destruct (t_tok t); discriminate. }
    subst ds. cbn in B4. subst dirs. specialize (Q9 eq_refl). clearbody q. subst q.
    cbn. split; [|cbn; auto].
    eapply Tr_implicit_doc with (t := t_tok t) (r := map t_tok r); cbn; auto; try congruence.
    unfold toks. rewrite Ein. reflexivity.
  - destruct (negb (is_stream_end (t_tok t))) eqn:E3.
    + destruct (process_directives q) as [v dirs p'|p']; [|exact PD].
      destruct PD as (ds & t' & r' & A1 & B & A3 & A4 & A5 & A6 & A7 & A8 & A9 & A10).
      unfold peek. rewrite A9. destruct (t_tok t') eqn:Et; cbn; try discriminate.
      unfold skip; cbn. rewrite A9. cbn. rewrite Et. split; [|auto].
      eapply Tr_explicit_doc with (n := n) (ds := ds); cbn; auto; try congruence.
      rewrite Q1, A1. unfold toks. cbn. rewrite A9. cbn. rewrite Et. reflexivity.
    + cbn. unfold skip; cbn. rewrite Ein. cbn. apply negb_false_iff in E3.
      assert (t_tok t = TStreamEnd) by (destruct (t_tok t); try discriminate; reflexivity).
      split; [|split; [congruence|auto]].
      eapply Tr_stream_end with (n := n); cbn; auto. rewrite Q1. unfold toks. rewrite Ein. cbn. rewrite H. reflexivity.
Qed.

Lemma step_cases p : wf p -> step_out p (parse p).
Proof.
  intros (HE & HN & HS). unfold parse. rewrite HN, HE.
  destruct p as [tin en er st ss ms tg]; cbn in HE, HN; subst.
  unfold wf_state in HS. cbn [p_state p_states p_marks p_tags p_in] in *.
  destruct st; cbn [is_end_state orb]; cbn [state_machine p_state]; try contradiction.
  - (* stream start *)
    unfold parse_stream_start, peek. cbn. destruct tin as [|t r]; [cbn; discriminate|].
    destruct (t_tok t) eqn:Et; cbn; try discriminate.
    split; [eapply Tr_stream_start; try reflexivity; tk|split; [reflexivity|tkc]].
  - apply doc_start_step; cbn; tauto.
  - apply doc_start_step; cbn; tauto.
  - (* document content *)
    destruct HS as [-> ->].
    unfold parse_document_content, peek. cbn [p_in]. destruct tin as [|t r]; [cbn; discriminate|].
    assert (EMP : starts_explicit (t_tok t) = true \/ t_tok t = TDocEnd \/ t_tok t = TStreamEnd ->
      step_out (mkParser (t :: r) false None PS_DocContent [PS_DocEnd] [] tg)
       (pop_state (mkParser (t :: r) false None PS_DocContent [PS_DocEnd] [] tg) (fun p => process_empty_scalar p (t_start t)))).
    { intros H. cbn. split; [|auto]. eapply Tr_empty_doc; cbn; auto. exists (t_tok t), (map t_tok r). split; [tk|auto]. }
    destruct (t_tok t) eqn:Et; try (apply EMP; cbn; auto; fail); clear EMP; do_node Block I.
  - (* document end *)
    destruct HS as [-> ->].
    unfold parse_document_end, peek. cbn [p_in]. destruct tin as [|t r]; [cbn; discriminate|].
    assert (DEF : t_tok t <> TDocEnd -> step_out (mkParser (t :: r) false None PS_DocEnd [] [] tg)
      (ret (EDocEnd true) (t_start t) (t_start t) (set_state (set_tags (mkParser (t :: r) false None PS_DocEnd [] [] tg) []) PS_DocStart))).
    { intros H. cbn. split; [|auto]. apply (Tr_doc_end _ 0); cbn; auto. intros _ [r' K]. unfold toks in K. cbn in K. congruence. }
    destruct (t_tok t) eqn:Et; try (apply DEF; discriminate); clear DEF.
    cbn. split; [|split; [auto|tkc]]. apply (Tr_doc_end _ 1); cbn; auto; [tk|discriminate].
  - (* block node *)
    destruct HS as [-> ->]. do_node Block I.


  - (* block sequence first *)
    destruct HS as [[S M] [r0 H]]. unfold toks in H. cbn in H. destruct tin as [|t0 tin]; inversion H. clear H.
    unfold nmarks in M. cbn in M. pose proof (stack_top _ S) as K.
    unfold parse_block_sequence_entry, enter, peek_unchecked. cbn.
    unfold peek. cbn. destruct tin as [|t tin]; [cbn; discriminate|].
    destruct (t_tok t) eqn:Et; try (cbn; discriminate).
    + do_close K ss.
    + cbn. destruct tin as [|t2 tin]; [cbn; discriminate|].
      destruct (t_tok t2) eqn:Et2; first [do_empty t2 Et2|do_node Block K].
  - (* block sequence entry *)
    destruct HS as [S M]. unfold nmarks in M. cbn in M. pose proof (stack_top _ S) as K.
    destruct ms as [|m0 ms]; [discriminate|].
    unfold parse_block_sequence_entry, enter. cbn.
    unfold peek. cbn. destruct tin as [|t tin]; [cbn; discriminate|].
    destruct (t_tok t) eqn:Et; try (cbn; discriminate).
    + do_close K ss.
    + cbn. destruct tin as [|t2 tin]; [cbn; discriminate|].
      destruct (t_tok t2) eqn:Et2; first [do_empty t2 Et2|do_node Block K].
  - (* indentless *)
    destruct HS as [[S M] B]. unfold nmarks in M. cbn in M. pose proof (stack_top _ S) as K.
    unfold parse_indentless_sequence_entry.
    unfold peek. cbn [p_in]. destruct tin as [|t tin]; [cbn; discriminate|].
    assert (DEF : t_tok t <> TBlockEntry -> step_out (mkParser (t :: tin) false None PS_Indentless ss ms tg)
      (pop_state (mkParser (t :: tin) false None PS_Indentless ss ms tg) (fun p => ret ESeqEnd (t_start t) (t_start t) p))).
    { intros N. destruct K as (s & ss' & -> & K). cbn. split; [|split; [auto|destruct s; auto; congruence]].
      eapply Tr_indentless_end with (t := t_tok t) (r := map t_tok tin); cbn; auto. }
    destruct (t_tok t) eqn:Et; try (apply DEF; discriminate); clear DEF.
    cbn. destruct tin as [|t2 tin]; [cbn; discriminate|].
    destruct (t_tok t2) eqn:Et2; first [do_empty t2 Et2|do_node Block K].
  - (* block mapping first *)
    destruct HS as [[S M] [r0 H]]. unfold toks in H. cbn in H. destruct tin as [|t0 tin]; inversion H. clear H.
    unfold nmarks in M. cbn in M. pose proof (stack_top _ S) as K.
    unfold parse_block_mapping_key, enter, peek_unchecked. cbn.
    unfold peek. cbn. destruct tin as [|t tin]; [cbn; discriminate|].
    destruct (t_tok t) eqn:Et; try (cbn; discriminate).
    + do_close K ss.
    + cbn. destruct tin as [|t2 tin]; [cbn; discriminate|].
      destruct (t_tok t2) eqn:Et2; first [do_empty t2 Et2|do_node BlockOrIndentless K].
  - (* block mapping key *)
    destruct HS as [S M]. unfold nmarks in M. cbn in M. pose proof (stack_top _ S) as K.
    destruct ms as [|m0 ms]; [discriminate|].
    unfold parse_block_mapping_key, enter. cbn.
    unfold peek. cbn. destruct tin as [|t tin]; [cbn; discriminate|].
    destruct (t_tok t) eqn:Et; try (cbn; discriminate).
    + do_close K ss.
    + cbn. destruct tin as [|t2 tin]; [cbn; discriminate|].
      destruct (t_tok t2) eqn:Et2; first [do_empty t2 Et2|do_node BlockOrIndentless K].
  - (* block mapping value *)
    destruct HS as [S M]. unfold nmarks in M. cbn in M. pose proof (stack_top _ S) as K.
    unfold parse_block_mapping_value.
    unfold peek. cbn. destruct tin as [|t tin]; [cbn; discriminate|].
    destruct (t_tok t) eqn:Et; try do_empty0 t Em_bval0.
    cbn. destruct tin as [|t2 tin]; [cbn; discriminate|].
    destruct (t_tok t2) eqn:Et2; first [do_empty t2 Et2|do_node BlockOrIndentless K].
  - (* flow sequence first *)
    destruct HS as [[S M] [r0 H]]. unfold toks in H. cbn in H. destruct tin as [|t0 tin]; inversion H. clear H.
    unfold nmarks in M. cbn in M. pose proof (stack_top _ S) as K.
    unfold parse_flow_sequence_entry, enter, peek_unchecked. cbn.
    unfold peek. cbn. destruct tin as [|t tin]; [cbn; discriminate|].
    destruct (t_tok t) eqn:Et; first [do_close K ss | do_pair | do_node Flow K].
  - (* flow sequence entry *)
    destruct HS as [S M]. unfold nmarks in M. cbn in M. pose proof (stack_top _ S) as K.
    destruct ms as [|m0 ms]; [discriminate|].
    unfold parse_flow_sequence_entry, enter. cbn.
    unfold peek. cbn. destruct tin as [|t tin]; [cbn; discriminate|].
    destruct (t_tok t) eqn:Et; try (cbn; discriminate).
    + do_close K ss.
    + cbn. destruct tin as [|t2 tin]; [cbn; discriminate|].
      destruct (t_tok t2) eqn:Et2; first [do_close K ss | do_pair | do_node Flow K].
  - (* pair key *)
    destruct HS as [S M]. unfold nmarks in M. cbn in M. pose proof (stack_top _ S) as K.
    unfold parse_flow_sequence_entry_mapping_key.
    unfold peek. cbn. destruct tin as [|t tin]; [cbn; discriminate|].
    destruct (t_tok t) eqn:Et; first [do_empty t Et | do_swallow | do_node Flow K].
  - (* pair value *)
    destruct HS as [S M]. unfold nmarks in M. cbn in M. pose proof (stack_top _ S) as K.
    unfold parse_flow_sequence_entry_mapping_value.
    unfold peek. cbn. destruct tin as [|t tin]; [cbn; discriminate|].
    destruct (t_tok t) eqn:Et; try do_empty0 t Em_fsval0.
    cbn. destruct tin as [|t2 tin]; [cbn; discriminate|].
    destruct (t_tok t2) eqn:Et2; first [do_empty t2 Et2|do_node Flow K].
  - (* pair end *)
    destruct HS as [S M].
    unfold parse_flow_sequence_entry_mapping_end, peek. cbn. destruct tin as [|t tin]; [cbn; discriminate|].
    cbn. split; [|auto]. apply Tr_pair_end; auto. discriminate.
  - (* flow mapping first *)
    destruct HS as [[S M] [r0 H]]. unfold toks in H. cbn in H. destruct tin as [|t0 tin]; inversion H. clear H.
    unfold nmarks in M. cbn in M. pose proof (stack_top _ S) as K.
    unfold parse_flow_mapping_key, enter, peek_unchecked. cbn.
    unfold peek. cbn. destruct tin as [|t tin]; [cbn; discriminate|].
    destruct (t_tok t) eqn:Et; try first [do_close K ss | do_node Flow K].
    cbn. destruct tin as [|t2 tin]; [cbn; discriminate|].
    destruct (t_tok t2) eqn:Et2; first [do_empty t2 Et2 | do_node Flow K].
  - (* flow mapping key *)
    destruct HS as [S M]. unfold nmarks in M. cbn in M. pose proof (stack_top _ S) as K.
    destruct ms as [|m0 ms]; [discriminate|].
    unfold parse_flow_mapping_key, enter. cbn.
    unfold peek. cbn. destruct tin as [|t tin]; [cbn; discriminate|].
    destruct (t_tok t) eqn:Et; try (cbn; discriminate).
    + do_close K ss.
    + cbn. destruct tin as [|t1 tin]; [cbn; discriminate|].
      destruct (t_tok t1) eqn:Et1; try first [do_close K ss | do_node Flow K].
      cbn. destruct tin as [|t2 tin]; [cbn; discriminate|].
      destruct (t_tok t2) eqn:Et2; first [do_empty t2 Et2 | do_node Flow K].
  - (* flow mapping value *)
    destruct HS as [S M]. unfold nmarks in M. cbn in M. pose proof (stack_top _ S) as K.
    unfold parse_flow_mapping_value.
    unfold peek. cbn. destruct tin as [|t tin]; [cbn; discriminate|].
    destruct (t_tok t) eqn:Et; try do_empty0 t Em_fmval0.
    cbn. destruct tin as [|t2 tin]; [cbn; discriminate|].
    destruct (t_tok t2) eqn:Et2; first [do_empty t2 Et2|do_node Flow K].
  - (* flow mapping, missing value *)
    destruct HS as [S M].
    unfold parse_flow_mapping_value.
    unfold peek. cbn. destruct tin as [|t tin]; [cbn; discriminate|]. do_empty0 t Em_fmempty.
Qed.
