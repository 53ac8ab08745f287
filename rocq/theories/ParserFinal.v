(* From single steps of parser.c to histories of calls. *)
From Verif Require Import Base ReaderModel Types TreeSpec GrammarSpec ParserSpec EventAcc ParserModel ParserInv ParserProofs ParserSound ParserComplete ParserDocs.

Lemma init_wf input : wf (init_parser input).
Proof. repeat split. Qed.
Lemma init_potential input : potential (init_parser input) = (4 * length input)%nat.
Proof. unfold potential, toks. cbn -[Nat.mul]. rewrite map_length. lia. Qed.

(** * What a step consumes *)
Definition neutral (t : tok) : bool :=
  match t with TTagDirective _ _ | TDocStart | TDocEnd => false | _ => true end.
Definition plain_tok (t : tok) : bool := match t with TTag _ _ => false | _ => neutral t end.
Lemma plain_neutral l : forallb plain_tok l = true -> forallb neutral l = true.
Proof. rewrite !forallb_forall. intros H x I. specialize (H x I). destruct x; try discriminate; reflexivity. Qed.

(* tags of a step inside a document *)
Definition tags_ok (env : env) (used : list tok) (e : ev) : Prop :=
  (forall h s, In (TTag h s) used -> exists t, tag_of e = Some t /\ resolves env h s t) /\
  (forall t, tag_of e = Some t -> exists h s, In (TTag h s) used /\ resolves env h s t).

Lemma plain_no_tag l h s : forallb plain_tok l = true -> ~ In (TTag h s) l.
Proof. rewrite forallb_forall. intros H I. apply H in I. discriminate. Qed.
Lemma tags_ok_none env used e : forallb plain_tok used = true -> tag_of e = None -> tags_ok env used e.
Proof. intros P T. split; [intros h s I; exfalso; eapply plain_no_tag; eauto|intros; congruence]. Qed.

Lemma props_tags env used a t : properties env used a t ->
  forallb neutral used = true /\
  (forall h s, In (TTag h s) used -> exists t', t = Some t' /\ resolves env h s t') /\
  (forall t', t = Some t' -> exists h s, In (TTag h s) used /\ resolves env h s t').
Proof.
  intros H. inversion H; subst; (split; [reflexivity|]); split;
   try (intros h' s' I; cbn in I; intuition (try discriminate)); try (intros t' Q; inversion Q; subst; do 2 eexists; split; [|eassumption]; cbn; auto; fail).
  all: try discriminate.
  all: match goal with K : TTag _ _ = TTag _ _ |- _ => inversion K; subst; eauto end.
Qed.
Lemma opt_props_tags env used a t : opt_properties env used a t ->
  forallb neutral used = true /\
  (forall h s, In (TTag h s) used -> exists t', t = Some t' /\ resolves env h s t') /\
  (forall t', t = Some t' -> exists h s, In (TTag h s) used /\ resolves env h s t').
Proof.
  intros H. inversion H; subst.
  - repeat split; try (intros; contradiction); intros; discriminate.
  - eapply props_tags; eauto.
Qed.

Lemma items_two e xs : items_events xs ++ [ESeqEnd] <> [] /\ events_of (Alias e) = [EAlias e].
Proof. split; [destruct (items_events xs); discriminate|reflexivity]. Qed.

Lemma node_single d env k used x e : node d env k used x -> events_of x = [e] -> forallb neutral used = true /\ tags_ok env used e.
Proof.
  intros N E. inversion N; subst.
  - cbn in E. inversion E; subst. split; [reflexivity|]. apply tags_ok_none; reflexivity.
  - cbn in E. inversion E; subst. destruct (props_tags _ _ _ _ H) as (A & B & C). split; auto. split; auto.
  - destruct (opt_props_tags _ _ _ _ H) as (A & B & C).
    inversion H0; subst; cbn in E; try (exfalso; injection E as _ E; match type of E with ?l ++ _ = [] => destruct l; discriminate end).
    inversion E; subst. split; [rewrite forallb_app, A; reflexivity|].
    split.
    + intros h s I. apply in_app_iff in I as [I|[I|[]]]; [|discriminate]. destruct (B _ _ I) as (t' & -> & R). eauto.
    + intros t' Q. destruct (C _ Q) as (h & s & I & R). exists h, s. split; auto. apply in_or_app; auto.
Qed.
Lemma node_out_tags k p1 p' e : node_out k p1 p' e -> exists used, toks p1 = used ++ toks p' /\ forallb neutral used = true /\ tags_ok (p_tags p1) used e.
Proof.
  intros H. inversion H; subst.
  - exists used. split; auto. eapply node_single; eauto.
  - exists used. split; auto. destruct (opt_props_tags _ _ _ _ H1) as (A & B & C). split; auto.
    split; intros.
    + destruct (B _ _ H5) as (t' & -> & R). exists t'. split; auto. inversion H2; reflexivity.
    + apply C. inversion H2; subst; cbn in *; auto.
Qed.
Lemma tags_ok_app env pre used e : forallb plain_tok pre = true -> tags_ok env used e -> tags_ok env (pre ++ used) e.
Proof.
  intros P [A B]. split.
  - intros h s I. apply in_app_iff in I as [I|I]; [exfalso; eapply plain_no_tag; eauto|auto].
  - intros t T. destruct (B t T) as (h & s & I & R). exists h, s. split; auto. apply in_or_app; auto.
Qed.
Lemma call_plain s k pre push : call s k pre push -> forallb plain_tok pre = true.
Proof. intros H; inversion H; reflexivity. Qed.
Lemma empty_plain s pre t s' : empty s pre t s' -> forallb plain_tok pre = true.
Proof. intros H; inversion H; reflexivity. Qed.
Lemma closes_plain s pre e : closes s pre e -> forallb plain_tok pre = true /\ tag_of e = None.
Proof. intros H; inversion H; split; reflexivity. Qed.

Definition in_doc (s : pstate) : bool :=
  match s with PS_StreamStart | PS_ImplicitDocStart | PS_DocStart | PS_End => false | _ => true end.
(* the shape of what one successful call consumes and returns *)
Inductive step_shape (p : parser) (e : ev) (p' : parser) : list tok -> Prop :=
| SS_stream enc : e = EStreamStart enc -> p_state p = PS_StreamStart -> p_state p' = PS_ImplicitDocStart -> step_shape p e p' [TStreamStart enc]
| SS_implicit : e = EDocStart None [] true -> p_state p = PS_ImplicitDocStart -> p_state p' = PS_BlockNode -> p_tags p' = env_of [] ->
    step_shape p e p' []
| SS_explicit n ds v dirs : e = EDocStart v dirs false -> is_doc_start (p_state p) = true -> directives ds v dirs ->
    p_state p' = PS_DocContent -> p_tags p' = env_of dirs -> ends_ok (p_state p) n -> step_shape p e p' (repeat TDocEnd n ++ ds ++ [TDocStart])
| SS_end n : e = EStreamEnd -> is_doc_start (p_state p) = true -> p_state p' = PS_End -> step_shape p e p' (repeat TDocEnd n ++ [TStreamEnd])
| SS_doc_end n : e = EDocEnd (no_end n) -> p_state p = PS_DocEnd -> p_state p' = PS_DocStart -> (n <= 1)%nat -> step_shape p e p' (repeat TDocEnd n)
| SS_inside used : in_doc (p_state p) = true -> in_doc (p_state p') = true -> p_tags p' = p_tags p -> forallb neutral used = true ->
    tags_ok (p_tags p) used e -> (forall v d i, e <> EDocStart v d i) -> step_shape p e p' used.

Lemma call_in_doc s k pre push : call s k pre push -> in_doc s = true.
Proof. intros H; inversion H; reflexivity. Qed.
Lemma empty_in_doc s pre t s' : empty s pre t s' -> in_doc s = true /\ in_doc s' = true.
Proof. intros H; inversion H; split; reflexivity. Qed.
Lemma closes_in_doc s pre e : closes s pre e -> in_doc s = true.
Proof. intros H; inversion H; reflexivity. Qed.
Lemma stack_in_doc s ss : stack_ok (s :: ss) = true -> in_doc s = true.
Proof. destruct s; cbn; auto; discriminate. Qed.
Lemma node_not_doc d env k used x e v ds i : node d env k used x -> events_of x = [e] -> e <> EDocStart v ds i.
Proof. intros N E Q. subst. destruct x; cbn in E; congruence. Qed.
Lemma node_out_not_doc k p1 p' e v ds i : node_out k p1 p' e -> e <> EDocStart v ds i.
Proof.
  intros H Q. inversion H; subst.
  - eapply node_not_doc; eauto.
  - match goal with K : opens _ _ _ _ _ _ |- _ => inversion K end.
Qed.
Lemma node_out_in_doc k p1 p' e : node_out k p1 p' e -> stack_ok (p_states p1) = true -> in_doc (p_state p') = true.
Proof.
  intros H K. inversion H; subst.
  - rewrite H1 in K. eapply stack_in_doc. exact K.
  - match goal with K : opens _ _ _ _ _ _ |- _ => inversion K; reflexivity end.
Qed.

Lemma step_shape_ok p e p' : wf p -> wf p' \/ p_state p' = PS_End -> trans p e p' -> exists used, consumed p p' used /\ step_shape p e p' used.
Proof.
  intros W W' T. unfold consumed. fold (toks p) (toks p'). 
  assert (ND : forall v ds i, empty_scalar <> EDocStart v ds i) by (intros; discriminate).
  inversion T; subst.
  - exists [TStreamStart enc]. split; auto. econstructor; eauto.
  - exists []. split; [cbn; congruence|]. eapply SS_implicit; eauto.
  - exists (repeat TDocEnd n ++ ds ++ [TDocStart]). split; [rewrite H1; rewrite <- !app_assoc; reflexivity|]. eapply SS_explicit; eauto.
  - exists (repeat TDocEnd n ++ [TStreamEnd]). split; [rewrite H1; rewrite <- !app_assoc; reflexivity|]. eapply SS_end; eauto.
  - exists (repeat TDocEnd n). split; auto. eapply SS_doc_end; eauto.
  - exists []. split; [cbn; congruence|]. destruct W as (_ & _ & W). unfold wf_state in W. rewrite H in W. destruct W as [W _].
    rewrite H1 in W. inversion W. apply SS_inside; auto; [rewrite H; reflexivity|rewrite H6; reflexivity|].
    apply tags_ok_none; reflexivity.
  - destruct (node_out_tags _ _ _ _ H3) as (used & A & B & C). exists (pre ++ used). rewrite <- app_assoc, <- A. split; auto.
    destruct (call_wf p k pre push W H) as (K & _).
    apply SS_inside; auto.
    + eapply call_in_doc; eauto.
    + eapply node_out_in_doc; eauto. rewrite H1. exact K.
    + rewrite forallb_app, B. rewrite plain_neutral; [reflexivity|eapply call_plain; eauto].
    + apply tags_ok_app; [eapply call_plain; eauto|]. rewrite <- H2. exact C.
    + intros. eapply node_out_not_doc; eauto.
  - exists pre. split; auto. pose proof (empty_plain _ _ _ _ H) as PL. destruct (empty_in_doc _ _ _ _ H).
    apply SS_inside; auto; [apply plain_neutral; auto|apply tags_ok_none; auto].
  - exists [t]. split; auto. apply SS_inside; auto; try (rewrite H; reflexivity); try (rewrite H2; reflexivity).
    + destruct H0; subst; reflexivity.
    + apply tags_ok_none; [destruct H0; subst; reflexivity|reflexivity].
  - exists pre. split; auto. destruct (closes_plain _ _ _ H) as [PL TG]. apply SS_inside; auto.
    + eapply closes_in_doc; eauto.
    + destruct W' as [W'|W'].
      * pose proof (wf_deep p W) as D. destruct D as [D _]; [inversion H; cbn; auto|]. rewrite H1 in D. eapply stack_in_doc; eauto.
      * pose proof (wf_deep p W) as D. destruct D as [D _]; [inversion H; cbn; auto|]. rewrite H1 in D. eapply stack_in_doc; eauto.
    + apply plain_neutral; auto.
    + apply tags_ok_none; auto.
    + intros. inversion H; discriminate.
  - exists []. split; [cbn; congruence|]. apply SS_inside; auto; try (rewrite H; reflexivity).
    + pose proof (wf_deep p W) as D. destruct D as [D _]; [rewrite H; cbn; auto|]. rewrite H3 in D. eapply stack_in_doc; eauto.
    + apply tags_ok_none; reflexivity.
    + intros; discriminate.
  - exists pre. split; auto. 
    assert (PL : forallb plain_tok pre = true) by (destruct H as [[_ ->]|[_ ->]]; reflexivity).
    apply SS_inside; auto.
    + destruct H as [[-> _]|[-> _]]; reflexivity.
    + rewrite H1. reflexivity.
    + apply plain_neutral; auto.
    + apply tags_ok_none; auto.
    + intros; discriminate.
  - exists []. split; [cbn; congruence|]. apply SS_inside; auto; try (rewrite H; reflexivity); try (rewrite H2; reflexivity).
    + apply tags_ok_none; reflexivity.
    + intros; discriminate.
Qed.

(** * Histories *)
Fixpoint act (st : list tagdir * list tagdir) (ts : list tok) : list tagdir * list tagdir :=
  match ts with
  | [] => st
  | t :: r => act (match t with
                   | TTagDirective h p => (fst st, snd st ++ [(h, p)])
                   | TDocStart => (snd st, [])
                   | TDocEnd => ([], [])
                   | _ => st
                   end) r
  end.
Lemma active_act ts : forall c p, active_from c p ts = fst (act (c, p) ts).
Proof. induction ts as [|t ts IH]; intros c p; cbn; [reflexivity|]. destruct t; apply IH. Qed.
Lemma act_app a b : forall st, act st (a ++ b) = act (act st a) b.
Proof. induction a; intros; cbn; auto. Qed.
Lemma act_neutral l : forall st, forallb neutral l = true -> act st l = st.
Proof. induction l as [|t l IH]; intros st H; cbn in *; [reflexivity|]. destruct t; try discriminate; apply IH; auto. Qed.
Lemma act_directives ds : forall c p, Forall (fun t => is_directive t = true) ds -> act (c, p) ds = (c, p ++ tag_directives ds).
Proof.
  induction ds as [|t ds IH]; intros c p F; cbn [act]; [cbn; rewrite app_nil_r; reflexivity|]. inversion F; subst.
  destruct t; try discriminate; cbn [fst snd]; rewrite IH; auto. cbn. rewrite <- app_assoc. reflexivity.
Qed.
Lemma act_ends n : forall c, act (c, []) (repeat TDocEnd n) = (match n with O => c | _ => [] end, []).
Proof. induction n as [|n IH]; intros c; cbn; [reflexivity|]. rewrite IH. destruct n; reflexivity. Qed.

Definition tags_inv (p : parser) (used : list tok) : Prop :=
  snd (act ([], []) used) = [] /\
  (in_doc (p_state p) = true -> p_tags p = env_of (fst (act ([], []) used))) /\
  (p_state p = PS_ImplicitDocStart \/ p_state p = PS_StreamStart -> fst (act ([], []) used) = []).

Record inv (input : list token) (es : list event) (p : parser) : Prop := mkInv {
  inv_wf : wf p \/ (p_state p = PS_End /\ exists es', map e_ev es = es' ++ [EStreamEnd]);
  inv_err : p_error p = None;
  inv_acc : arun AStart (map e_ev es) = Some (abs p);
  inv_tags : exists used, consumed (init_parser input) p used /\ tags_inv p used;
  inv_pot : (length es + potential p <= 4 * length input)%nat }.

Lemma ended_nothing p : p_state p = PS_End -> parse p = PNothing p.
Proof. intros H. unfold parse. rewrite H. cbn. rewrite orb_true_r. reflexivity. Qed.

Lemma step_tags p e p' u1 u2 : tags_inv p u1 -> step_shape p e p' u2 -> tags_inv p' (u1 ++ u2).
Proof.
  intros (A & B & C) S. unfold tags_inv. rewrite act_app. destruct (act ([], []) u1) as [c pd] eqn:E. cbn [fst snd] in *. subst pd.
  inversion S; subst.
  - cbn. repeat split; auto. { rewrite H1. discriminate. }
  - cbn. repeat split; auto; try (intros _; rewrite H2, C; auto; fail).
  - rewrite act_app, act_ends. destruct H1 as (D1 & D2 & D3 & D4 & D5). rewrite act_app, act_directives by auto. cbn [act app fst snd].
    rewrite H2, H3. cbn. rewrite D4. repeat split; auto. intros [|]; discriminate.
  - rewrite act_app, act_ends. cbn. repeat split; auto; rewrite H1; try discriminate; intros [|]; discriminate.
  - rewrite act_ends. cbn. repeat split; auto; rewrite H1; try discriminate; intros [|]; discriminate.
  - rewrite act_neutral by auto. cbn. repeat split; auto. { intros _. rewrite H1. auto. }
    intros [Q|Q]; rewrite Q in H0; discriminate.
Qed.
Lemma consumed_trans a b c u v : consumed a b u -> consumed b c v -> consumed a c (u ++ v).
Proof. unfold consumed. intros -> ->. rewrite app_assoc. reflexivity. Qed.

Lemma history_inv input es p : history input es p -> inv input es p.
Proof.
  induction 1 as [|es p e p' H IH E].
  - constructor.
    + left. apply init_wf.
    + reflexivity.
    + reflexivity.
    + exists []. split; [reflexivity|]. split; [reflexivity|]. split; [discriminate|reflexivity].
    + cbn [length]. rewrite init_potential. lia.
  - destruct IH as [[W|[S _]] I2 I3 (used & C & T) I5].
    2:{ rewrite (ended_nothing _ S) in E. discriminate. }
    pose proof (step_cases p W) as SC. rewrite E in SC. cbn in SC. destruct SC as (TR & E1 & E2).
    destruct (wf_step _ _ _ W TR E1 E2) as [[W' NE]|[EE S']].
    + destruct (step_shape_ok p (e_ev e) p' W (or_introl W') TR) as (u & CU & SH).
      constructor; auto.
      * rewrite map_app, arun_app, I3. cbn. rewrite (step_acc _ _ _ W TR). reflexivity.
      * exists (used ++ u). split; [eapply consumed_trans; eauto|eapply step_tags; eauto].
      * rewrite app_length. cbn [length]. pose proof (step_progress _ _ _ TR). lia.
    + destruct (step_shape_ok p (e_ev e) p' W (or_intror S') TR) as (u & CU & SH).
      constructor; auto.
      * right. split; auto. exists (map e_ev es). rewrite map_app. cbn. rewrite EE. reflexivity.
      * rewrite map_app, arun_app, I3. cbn. rewrite (step_acc _ _ _ W TR). reflexivity.
      * exists (used ++ u). split; [eapply consumed_trans; eauto|eapply step_tags; eauto].
      * rewrite app_length. cbn [length]. pose proof (step_progress _ _ _ TR). lia.
Qed.

(** C21 *)
Lemma history_prefix input es p : history input es p -> well_formed_prefix (map e_ev es).
Proof. intros H. apply history_inv in H. apply well_formed_prefix_acc. rewrite (inv_acc _ _ _ H). eauto. Qed.
Lemma abs_done p : abs p = ADone -> p_state p = PS_End.
Proof. unfold abs. destruct (p_state p); intros; try discriminate; reflexivity. Qed.
Lemma history_end input es e p : history input (es ++ [e]) p -> e_ev e = EStreamEnd -> well_formed (map e_ev (es ++ [e])).
Proof.
  intros H E. apply history_inv in H. apply well_formed_acc. rewrite (inv_acc _ _ _ H).
  pose proof (inv_acc _ _ _ H) as A. rewrite map_app, arun_app in A. cbn in A.
  destruct (arun AStart (map e_ev es)) as [a|]; [|discriminate]. rewrite E in A.
  destruct a as [| |st|]; cbn in A; try discriminate; [congruence|]. destruct st as [|f [|g st]]; cbn in A; try discriminate; destruct f; discriminate.
Qed.

(** C22, C27 *)
Lemma parse_failed p : p_error p <> None -> parse p = PNothing p.
Proof. intros H. unfold parse. destruct (p_error p); [|congruence]. rewrite orb_true_r. reflexivity. Qed.
Lemma history_next input es p : history input es p ->
  match parse p with
  | PEvent e p' => p_error p' = None
  | PNothing p' => p' = p /\ exists es', map e_ev es = es' ++ [EStreamEnd]
  | PFail p' => p_error p' <> None /\ parse p' = PNothing p'
  | PUB => False
  end.
Proof.
  intros H. apply history_inv in H. destruct H as [[W|[S E]] I2 I3 I4 I5].
  - pose proof (step_cases p W) as SC. destruct (parse p) as [e p'|p'|p'|]; cbn in SC; try contradiction; [tauto|].
    split; auto. apply parse_failed. auto.
  - rewrite (ended_nothing _ S). auto.
Qed.
Lemma history_last input es e p : history input (es ++ [e]) p -> e_ev e = EStreamEnd -> parse p = PNothing p.
Proof.
  intros H E. pose proof (history_end _ _ _ _ H E) as WF. apply history_inv in H.
  apply well_formed_acc in WF. rewrite (inv_acc _ _ _ H) in WF. apply ended_nothing. apply abs_done. congruence.
Qed.

(** C23 *)
Lemma history_length input es p : history input es p -> (length es <= 4 * length input)%nat.
Proof. intros H. apply history_inv in H. pose proof (inv_pot _ _ _ H). lia. Qed.
Lemma parse_all_history input n : forall es0 p es r, history input es0 p -> parse_all n p = (es, r) ->
  (r = MoreToCome -> exists p', history input (es0 ++ es) p' /\ length es = n) /\ r <> Undefined /\
  (r = Parsed -> exists p', history input (es0 ++ es) p' /\ exists es', map e_ev (es0 ++ es) = es' ++ [EStreamEnd]).
Proof.
  induction n as [|n IH]; intros es0 p es r H E; cbn in E.
  - inversion E; subst. rewrite app_nil_r. repeat split; try discriminate. eauto.
  - pose proof (history_next _ _ _ H) as HN. destruct (parse p) as [e p'|p'|p'|] eqn:EP; try contradiction.
    + destruct (parse_all n p') as [es1 r1] eqn:E1. inversion E; subst.
      assert (H' : history input (es0 ++ [e]) p') by (econstructor; eauto).
      destruct (IH _ _ _ _ H' E1) as (A & B & C). rewrite <- app_assoc in A, C. cbn in A, C.
      repeat split; auto. intros Q. destruct (A Q) as (q & K & L). exists q. split; auto. cbn. lia.
    + inversion E; subst. rewrite app_nil_r. repeat split; try discriminate. intros _. exists p. split; auto. apply HN.
    + inversion E; subst. repeat split; discriminate.
Qed.
Lemma parse_all_ends input n : (4 * length input < n)%nat -> snd (parse_all n (init_parser input)) <> MoreToCome.
Proof.
  intros L Q. destruct (parse_all n (init_parser input)) as [es r] eqn:E. cbn in Q. subst.
  destruct (parse_all_history input n [] _ _ _ (H_start input) E) as (A & _ & _). destruct (A eq_refl) as (p & H & LE).
  apply history_length in H. cbn in H. lia.
Qed.
Lemma parse_all_defined input n : snd (parse_all n (init_parser input)) <> Undefined.
Proof.
  destruct (parse_all n (init_parser input)) as [es r] eqn:E. 
  destruct (parse_all_history input n [] _ _ _ (H_start input) E) as (_ & B & _). exact B.
Qed.

(** C20, C24 *)
Lemma parse_all_sound n : forall p es, wf p -> parse_all n p = (es, Parsed) -> exists used rest, toks p = used ++ rest /\ lang p used (map e_ev es).
Proof.
  induction n as [|n IH]; intros p es W E; cbn in E; [discriminate|].
  pose proof (step_cases p W) as SC. destruct (parse p) as [e p'|p'|p'|] eqn:EP; try contradiction; try discriminate.
  destruct (parse_all n p') as [es1 r1] eqn:E1. inversion E; subst. cbn in SC. destruct SC as (TR & X1 & X2).
  destruct (wf_step _ _ _ W TR X1 X2) as [[W' NE]|[EE S']].
  - destruct (IH _ _ W' E1) as (u & rest & U & L). destruct (step_sound _ _ _ _ _ _ W TR L U) as (u0 & U0 & L0).
    exists (u0 ++ u), rest. split; [|exact L0]. rewrite U0, U, app_assoc. reflexivity.
  - assert (es1 = []). { destruct n; cbn in E1; [discriminate|]. rewrite (ended_nothing _ S') in E1. congruence. } subst es1.
    destruct (step_sound _ _ _ [] [] (toks p') W TR (L_end p' S') eq_refl) as (u0 & U0 & L0).
    rewrite app_nil_r in L0. exists u0, (toks p'). split; auto.
Qed.
Lemma lang_start input ts es : lang (init_parser input) ts es -> exists s, stream implemented ts s /\ es = stream_events s.
Proof.
  intros L. inversion L; subst; try discriminate; [eauto|]. exfalso. inversion H; subst.
  match goal with K : frame _ _ _ _ |- _ => inversion K end.
Qed.
Lemma sound_implemented n input es : parse_all n (init_parser input) = (es, Parsed) ->
  exists used rest s, map t_tok input = used ++ rest /\ stream implemented used s /\ map e_ev es = stream_events s.
Proof.
  intros E. destruct (parse_all_sound n _ _ (init_wf input) E) as (u & rest & U & L).
  destruct (lang_start _ _ _ L) as (s & S & Es). exists u, rest, s. auto.
Qed.
Lemma parse_all_more n : forall p es m, (n <= m)%nat -> parse_all n p = (es, Parsed) -> parse_all m p = (es, Parsed).
Proof.
  induction n as [|n IH]; intros p es m L E; cbn in E; [discriminate|]. destruct m as [|m]; [lia|]. cbn.
  destruct (parse p); try discriminate; auto. destruct (parse_all n p0) as [es1 r1] eqn:E1. inversion E; subst.
  rewrite (IH _ _ m ltac:(lia) E1). reflexivity.
Qed.
Lemma complete_implemented input used rest s n : input = used ++ rest -> Forall (fun t => t_deep t = false) used ->
  stream implemented (map t_tok used) s -> (4 * length input < n)%nat ->
  exists es, parse_all n (init_parser input) = (es, Parsed) /\ map e_ev es = stream_events s.
Proof.
  intros -> SH ST L. destruct (stream_complete used rest s ST SH) as (p' & R & N).
  destruct (runs_parse_all _ _ _ R N (S (length (stream_events s))) ltac:(lia)) as (es & E & M).
  exists es. split; auto.
  destruct (Nat.le_gt_cases (S (length (stream_events s))) n) as [Le|Gt]; [eapply parse_all_more; eauto|].
  destruct (parse_all n (init_parser (used ++ rest))) as [es1 r1] eqn:E1.
  exfalso. destruct (parse_all_history _ _ [] _ _ _ (H_start _) E) as (_ & _ & C). destruct (C eq_refl) as (q & H & _).
  apply history_length in H. cbn in H. rewrite <- M, map_length in Gt. lia.
Qed.

(** C25, C26 *)
Lemma history_tags input es p e p' : history input es p -> parse p = PEvent e p' ->
  exists used now, consumed (init_parser input) p used /\ consumed p p' now /\
    (forall h s, In (TTag h s) now -> exists t, tag_of (e_ev e) = Some t /\ resolves (env_of (active used)) h s t) /\
    (forall t, tag_of (e_ev e) = Some t -> exists h s, In (TTag h s) now /\ resolves (env_of (active used)) h s t).
Proof.
  intros H E. pose proof (history_inv _ _ _ (H_call _ _ _ _ _ H E)) as I'. apply history_inv in H.
  destruct H as [[W|[S _]] I2 I3 (used & C & T) I5].
  2:{ rewrite (ended_nothing _ S) in E. discriminate. }
  pose proof (step_cases p W) as SC. rewrite E in SC. cbn in SC. destruct SC as (TR & E1 & E2).
  assert (W' : wf p' \/ p_state p' = PS_End) by (destruct (inv_wf _ _ _ I') as [|[? _]]; auto).
  destruct (step_shape_ok p (e_ev e) p' W W' TR) as (u & CU & SH).
  exists used, u. split; auto. split; auto. unfold active. rewrite active_act.
  assert (NO : forall l, forallb (fun t => match t with TTag _ _ => false | _ => true end) l = true -> forall h s, ~ In (TTag h s) l).
  { intros l F h s I. rewrite forallb_forall in F. apply F in I. discriminate. }
  inversion SH; subst.
  - rewrite H. split; [intros h s [|[]]; discriminate|intros; discriminate].
  - rewrite H. split; [intros h s []|intros; discriminate].
  - rewrite H. split; [|intros; discriminate]. intros h s I. exfalso. apply in_app_iff in I as [I|I]; [apply repeat_spec in I; discriminate|].
    apply in_app_iff in I as [I|[I|[]]]; [|discriminate]. destruct H1 as (F & _). rewrite Forall_forall in F. apply F in I. discriminate.
  - rewrite H. split; [|intros; discriminate]. intros h s I. exfalso. apply in_app_iff in I as [I|[I|[]]]; [apply repeat_spec in I; discriminate|discriminate].
  - rewrite H. split; [|intros; discriminate]. intros h s I. exfalso. apply repeat_spec in I; discriminate.
  - destruct T as (T1 & T2 & T3). rewrite <- (T2 H). exact H3.
Qed.

Lemma history_directives input es p e p' v dirs implicit : history input es p -> parse p = PEvent e p' -> e_ev e = EDocStart v dirs implicit ->
  exists n ds, consumed p p' (repeat TDocEnd n ++ ds ++ (if implicit then [] else [TDocStart])) /\ directives ds v dirs /\
    (implicit = true -> ds = [] /\ n = O).
Proof.
  intros H E EV. pose proof (history_inv _ _ _ (H_call _ _ _ _ _ H E)) as I'. apply history_inv in H.
  destruct H as [[W|[S _]] I2 I3 (used & C & T) I5].
  2:{ rewrite (ended_nothing _ S) in E. discriminate. }
  pose proof (step_cases p W) as SC. rewrite E in SC. cbn in SC. destruct SC as (TR & E1 & E2).
  assert (W' : wf p' \/ p_state p' = PS_End) by (destruct (inv_wf _ _ _ I') as [|[? _]]; auto).
  destruct (step_shape_ok p (e_ev e) p' W W' TR) as (u & CU & SH).
  inversion SH; subst; try congruence.
  - exists O, []. rewrite H in EV. inversion EV; subst. split; [exact CU|]. repeat split; auto; constructor.
  - exists n, ds. rewrite H in EV. inversion EV; subst. repeat split; auto; try discriminate; apply H1.
Qed.

(* where a document can start *)
Lemma boundary_docs a e a' : astep a e = Some a' -> boundary e = true -> a' = ADocs.
Proof.
  destruct a as [| |st|]; destruct e; cbn; intros; try discriminate; try congruence;
    destruct st as [|f [|g st]]; try discriminate; destruct f; try discriminate; congruence.
Qed.
Lemma history_boundary input es e p : history input (es ++ [e]) p -> boundary (e_ev e) = true -> wf p /\ is_doc_start (p_state p) = true.
Proof.
  intros H B. apply history_inv in H. pose proof (inv_acc _ _ _ H) as A. rewrite map_app, arun_app in A. cbn in A.
  destruct (arun AStart (map e_ev es)) as [a|]; [|discriminate].
  destruct (astep a (e_ev e)) as [a'|] eqn:Ea; [|discriminate]. apply boundary_docs in Ea; auto. subst a'. inversion A as [A'].
  assert (D : is_doc_start (p_state p) = true) by (unfold abs in A'; destruct (p_state p); try discriminate; reflexivity).
  split; auto. destruct (inv_wf _ _ _ H) as [|[S _]]; auto. rewrite S in D. discriminate.
Qed.
Lemma directives_split ds ds' r r' : Forall (fun t => is_directive t = true) ds -> Forall (fun t => is_directive t = true) ds' ->
  ds ++ TDocStart :: r = ds' ++ TDocStart :: r' -> ds = ds'.
Proof.
  intros F. revert ds'. induction F as [|t ds Ht F IH]; intros ds' F' E.
  - destruct ds' as [|t' ds']; [reflexivity|]. inversion E; subst. inversion F'; subst. discriminate.
  - destruct ds' as [|t' ds']; inversion E; subst; [discriminate|]. inversion F'; subst. f_equal. eauto.
Qed.
Lemma history_snoc input es e p : history input (es ++ [e]) p -> exists q, history input es q /\ parse q = PEvent e p.
Proof.
  intros H. inversion H; subst; [destruct es; discriminate|]. apply app_inj_tail in H0 as [-> ->]. eauto.
Qed.
Lemma history_doc_end input es e p i : history input (es ++ [e]) p -> e_ev e = EDocEnd i -> p_state p = PS_DocStart.
Proof.
  intros H E. pose proof (history_inv _ _ _ H) as I'. destruct (history_snoc _ _ _ _ H) as (q & Hq & EP). apply history_inv in Hq.
  destruct (inv_wf _ _ _ Hq) as [W|[S _]]. 2:{ rewrite (ended_nothing _ S) in EP. discriminate. }
  pose proof (step_cases q W) as SC. rewrite EP in SC. cbn in SC. destruct SC as (TR & E1 & E2). rewrite E in TR.
  inversion TR; subst; auto.
  - match goal with K : node_out _ _ _ _ |- _ => inversion K; subst end.
    + destruct x; cbn in *; congruence.
    + match goal with K : opens _ _ _ _ _ _ |- _ => inversion K end.
  - match goal with K : closes _ _ _ |- _ => inversion K end.
Qed.
Lemma invalid_directives input es e p ds r n : history input (es ++ [e]) p -> boundary (e_ev e) = true ->
  map t_tok (p_in p) = repeat TDocEnd n ++ ds ++ TDocStart :: r -> (n = O \/ exists i, e_ev e = EDocEnd i) -> Forall (fun t => is_directive t = true) ds ->
  (forall v dirs, ~ directives ds v dirs) -> exists p', parse p = PFail p'.
Proof.
  intros H B TK HN F ND. destruct (history_boundary _ _ _ _ H B) as (W & D).
  assert (HN' : p_state p = PS_ImplicitDocStart -> n = O).
  { intros Q. destruct HN as [|[i HN]]; auto. rewrite (history_doc_end _ _ _ _ _ H HN) in Q. discriminate. }
  pose proof (step_cases p W) as SC. destruct (parse p) as [ev p'|p'|p'|] eqn:EP; cbn in SC; try contradiction; [|eauto].
  exfalso. destruct SC as (TR & E1 & E2). fold (toks p) in TK.
  assert (NE : forall n m x y, repeat TDocEnd n ++ x = repeat TDocEnd m ++ y -> (forall z, x <> TDocEnd :: z) -> (forall z, y <> TDocEnd :: z) -> x = y).
  { clear. induction n as [|n IH]; intros [|m] x y E X Y; cbn in E; auto.
    - exfalso. eapply X; eauto. - exfalso. eapply Y; eauto. - inversion E. eauto. }
  assert (HD : forall ds r, Forall (fun t => is_directive t = true) ds -> forall z, ds ++ TDocStart :: r <> TDocEnd :: z).
  { clear. intros ds r F z E. destruct ds; inversion E; subst. inversion F; subst. discriminate. }
  destruct ds as [|d0 ds0].
  { apply (ND None []). repeat split; auto; constructor. }
  assert (BAD : forall s, p_state p = s -> is_doc_start s = false -> False) by (intros s0 <-; congruence).
  inversion TR; subst; try (match goal with K : p_state p = ?s |- _ => exact (BAD s K eq_refl) end).
  - match goal with K1 : p_state p = _, K2 : toks p = ?t :: _ |- _ => rewrite (HN' K1), K2 in TK end.
    cbn in TK. inversion TK; subst. inversion F; subst. destruct d0; discriminate.
  - match goal with K : toks p = _, K1 : directives _ _ _ |- _ => rewrite K in TK; apply NE in TK; [|apply HD; apply K1|apply HD; auto];
      apply directives_split in TK; [|apply K1|auto]; subst; eapply ND; eauto end.
  - match goal with K : toks p = _ |- _ => rewrite K in TK end. apply NE in TK; [|intros z; discriminate|apply HD; auto].
    inversion TK; subst. inversion F; subst; discriminate.
  - match goal with K : call _ _ _ _ |- _ => inversion K; subst end; match goal with K : ?s = p_state p |- _ => exact (BAD s (eq_sym K) eq_refl) end.
  - match goal with K : empty _ _ _ _ |- _ => inversion K; subst end; match goal with K : ?s = p_state p |- _ => exact (BAD s (eq_sym K) eq_refl) end.
  - match goal with K : closes _ _ _ |- _ => inversion K; subst end; match goal with K : ?s = p_state p |- _ => exact (BAD s (eq_sym K) eq_refl) end.
  - match goal with K : _ \/ _ |- _ => destruct K as [[K _]|[K _]] end; match goal with K : p_state p = ?s |- _ => exact (BAD s K eq_refl) end.
Qed.

(* for the examples *)
Fixpoint after_calls (n : nat) (es : list event) (p : parser) : list event * parser :=
  match n with O => (es, p) | S n => match parse p with PEvent e p' => after_calls n (es ++ [e]) p' | _ => (es, p) end end.
Lemma after_calls_history input n : forall es p, history input es p -> history input (fst (after_calls n es p)) (snd (after_calls n es p)).
Proof.
  induction n as [|n IH]; intros es p H; cbn [after_calls]; [exact H|]. destruct (parse p) eqn:E; try exact H.
  apply IH. econstructor; eauto.
Qed.
