(* The emitter's state machine against the event acceptor. *)
From Verif Require Import Base Utf8Spec ReaderModel CharSpec Types TreeSpec EventAcc WriterModel WriterSpec PenModel EmitModel EmitSpec.

Definition frame (s : estate) : option aframe :=
  match s with
  | DocContent => Some FRoot
  | DocEnd => Some FDocEnd
  | FlowSeqFirst | FlowSeqItem | BlockSeqFirst | BlockSeqItem => Some FSeq
  | FlowMapFirst | FlowMapKey | BlockMapFirst | BlockMapKey => Some FKey
  | FlowMapSimple | FlowMapValue | BlockMapSimple | BlockMapValue => Some FVal
  | _ => None
  end.
Fixpoint frames (l : list estate) : option (list aframe) :=
  match l with
  | [] => Some []
  | s :: r => match frame s, frames r with Some f, Some fs => Some (f :: fs) | _, _ => None end
  end.
Definition is_first (s : estate) : bool :=
  match s with FlowSeqFirst | FlowMapFirst | BlockSeqFirst | BlockMapFirst => true | _ => false end.
Definition has_indent (s : estate) : bool :=
  match s with
  | FlowSeqItem | BlockSeqItem | FlowMapKey | BlockMapKey | FlowMapSimple | FlowMapValue | BlockMapSimple | BlockMapValue => true
  | _ => false
  end.
Definition is_flow (s : estate) : bool :=
  match s with FlowSeqItem | FlowMapKey | FlowMapSimple | FlowMapValue => true | _ => false end.
Definition count (p : estate -> bool) (l : list estate) : nat := length (filter p l).

(* The state of the emitter, as a state of the acceptor *)
Inductive at_acc : estate -> list estate -> acc -> Prop :=
| at_start : at_acc StreamStart [] AStart
| at_first : at_acc FirstDocStart [] ADocs
| at_docs : at_acc DocStart [] ADocs
| at_done : at_acc EndState [] ADone
| at_in s l st : frames (s :: l) = Some st -> forallb (fun x => negb (is_first x)) l = true -> at_acc s l (AIn st).

Record einv (m : emitter) (a : acc) : Prop := {
  i_acc : at_acc (m_state m) (m_states m) a;
  i_ok : aok a = true;
  i_indents : length (m_indents m) = count has_indent (m_state m :: m_states m);
  i_flow : m_flow m = Z.of_nat (count is_flow (m_state m :: m_states m));
  i_tags : (a = ADocs \/ a = AStart) -> m_tags m = [] }.

(* --- contents --- *)
Lemma forallb_Forall {A} (f : A -> bool) l : forallb f l = true <-> Forall (fun x => f x = true) l.
Proof. rewrite forallb_forall, Forall_forall. reflexivity. Qed.

Lemma anchor_valid s al d : (exists d', analyze_anchor s al d = inr d') <-> valid_anchor s.
Proof.
  unfold analyze_anchor, valid_anchor. destruct s as [|c r]; [split; [intros [d' H]; discriminate|intros [H _]; congruence]|].
  rewrite <- forallb_Forall. destruct (forallb is_alpha (c :: r)); split; try (intros [? ?]; congruence).
  - intros _. split; [discriminate|reflexivity].
  - intros _. eexists. reflexivity.
Qed.
Lemma tag_valid tags s d : (exists d', analyze_tag tags s d = inr d') <-> s <> [].
Proof.
  unfold analyze_tag. destruct s; [split; [intros [d' H]; discriminate|congruence]|]. split; [discriminate|]. intros _.
  destruct (match_tag tags (n :: s)) as [[h x]|]; eexists; reflexivity.
Qed.
Lemma version_valid v : analyze_version v = None <-> (fst v = 1 /\ (snd v = 1 \/ snd v = 2)).
Proof.
  unfold analyze_version. destruct (N.eqb_spec (fst v) 1), (N.eqb_spec (snd v) 1), (N.eqb_spec (snd v) 2); cbn; intuition (try congruence; try lia).
Qed.
Lemma handle_valid h p : analyze_tag_directive (h, p) = None <-> (valid_handle h /\ p <> []).
Proof.
  unfold analyze_tag_directive, valid_handle. destruct h as [|c r].
  - split; [discriminate|]. intros [[H|(n & H & _)] _]; discriminate.
  - destruct (N.eqb_spec c 0x21) as [->|Hc]; cbn [negb].
    2: { split; [discriminate|]. intros [[H|(n & H & _)] _]; congruence. }
    assert (R : forall n, 0x21 :: r = 0x21 :: n ++ [0x21] -> removelast r = n /\ last (0x21 :: r) 0 = 0x21).
    { intros n H. injection H as ->. split; [apply removelast_last|]. change (0x21 :: n ++ [0x21]) with ((0x21 :: n) ++ [0x21]). apply last_last. }
    destruct (N.eqb_spec (last (0x21 :: r) 0) 0x21) as [El|El]; cbn [negb].
    2: { split; [discriminate|]. intros [[H|(n & H & _)] _]; [injection H as ->; cbn in El; congruence|]. destruct (R n H); congruence. }
    destruct (forallb is_alpha (removelast r)) eqn:F; cbn [negb].
    + assert (V : 0x21 :: r = [0x21] \/ exists name, 0x21 :: r = 0x21 :: name ++ [0x21] /\ Forall (fun c => is_alpha c = true) name).
      { destruct r as [|x r' _] using rev_ind; [left; reflexivity|right]. exists r'. rewrite removelast_last in F. apply forallb_Forall in F. split; [|exact F].
        change (0x21 :: r' ++ [x]) with ((0x21 :: r') ++ [x]) in El. rewrite last_last in El. congruence. }
      destruct p; [split; [discriminate|intros [_ K]; congruence]|]. split; [intros _; split; [exact V|discriminate]|reflexivity].
    + split; [discriminate|]. intros [[H|(n & H & A)] _]; [injection H as ->; discriminate|]. destruct (R n H) as [<- _]. apply forallb_Forall in A. congruence.
Qed.

(* what the analysis demands of an event *)
Definition analysed (canonical : bool) (e : ev) : Prop :=
  match e with
  | EAlias a => valid_anchor a
  | EScalar a t _ pi qi _ => valid_props a t (canonical = true \/ (pi = false /\ qi = false))
  | ESeqStart a t i _ | EMapStart a t i _ => valid_props a t (canonical = true \/ i = false)
  | _ => True
  end.
Lemma maybe_anchor a d : (exists d', maybe a (fun a => analyze_anchor a false) d = inr d') <-> (forall s, a = Some s -> valid_anchor s).
Proof.
  destruct a as [s|]; cbn [maybe].
  - rewrite anchor_valid. split; [intros H s' E; congruence|auto].
  - split; [intros _ s H; discriminate|eauto].
Qed.
Lemma maybe_tag (b : bool) tags t d : (exists d', (if b then maybe t (analyze_tag tags) d else inr d) = inr d') <-> (b = true -> t <> Some []).
Proof.
  destruct b; [|split; [congruence|eauto]]. destruct t as [s|]; cbn [maybe].
  - rewrite tag_valid. split; [congruence|]. intros H E. apply H; [reflexivity|congruence].
  - split; [congruence|eauto].
Qed.
Lemma then_valid (r : eproblem + adata) k (P Q : Prop) : ((exists d, r = inr d) <-> P) -> (forall d, (exists d', k d = inr d') <-> Q) ->
  (exists d, then_ r k = inr d) <-> (P /\ Q).
Proof.
  intros HP HQ. destruct r as [x|d]; cbn [then_].
  - split; [intros [d H]; discriminate|]. intros [p _]. apply HP in p as [d H]. discriminate.
  - rewrite HQ. split; [intros q; split; [apply HP; eauto|exact q]|intros [_ q]; exact q].
Qed.
Lemma event_analysed g tags e : (exists d, analyze_event g tags e = inr d) <-> analysed (g_canonical g) e.
Proof.
  destruct e; cbn [analyze_event analysed]; try (split; [trivial|eauto; fail]).
  - apply anchor_valid.
  - unfold valid_props. etransitivity; [apply then_valid; [apply maybe_anchor|intros d; apply then_valid; [apply maybe_tag|intros d'; split; [intros _; exact I|eauto]]]|].
    destruct (g_canonical g), plain_implicit, quoted_implicit; cbn; intuition congruence.
  - unfold valid_props. etransitivity; [apply then_valid; [apply maybe_anchor|intros d; apply maybe_tag]|].
    destruct (g_canonical g), implicit; cbn; intuition congruence.
  - unfold valid_props. etransitivity; [apply then_valid; [apply maybe_anchor|intros d; apply maybe_tag]|].
    destruct (g_canonical g), implicit; cbn; intuition congruence.
Qed.

(* which tag data a scalar has *)
Lemma scalar_no_tag g tags a t v pi qi st d : analyze_event g tags (EScalar a t v pi qi st) = inr d -> pi = false -> qi = false ->
  (a_handle d = None /\ a_suffix d = None) <-> t = None.
Proof.
  intros H -> ->. cbn [analyze_event] in H. unfold then_, maybe in H.
  assert (K : forall x d0, analyze_anchor x false no_data = inr d0 -> a_handle d0 = None /\ a_suffix d0 = None).
  { intros x d0. unfold analyze_anchor. destruct x; [discriminate|]. destruct (forallb is_alpha _); [|discriminate]. intros E; injection E as <-. auto. }
  set (d0 := match a with Some x => analyze_anchor x false no_data | None => inr no_data end) in *.
  assert (K0 : forall d1, d0 = inr d1 -> a_handle d1 = None /\ a_suffix d1 = None).
  { unfold d0. destruct a as [x|]; [apply K|]. intros d1 E; injection E as <-. auto. }
  destruct d0 as [x|d1]; [discriminate|]. destruct (K0 d1 eq_refl) as [Kh Ks]. cbn [negb andb] in H. rewrite orb_true_r in H.
  assert (A : forall d2, a_handle (analyze_scalar (g_unicode g) v d2) = a_handle d2 /\ a_suffix (analyze_scalar (g_unicode g) v d2) = a_suffix d2).
  { intros d2. unfold analyze_scalar. destruct v; auto. }
  destruct t as [s|].
  - unfold analyze_tag in H. destruct s; [discriminate|]. destruct (match_tag tags (n :: s)) as [[h x]|]; injection H as <-;
    rewrite (proj1 (A _)), (proj2 (A _)); split; intros E; try discriminate; destruct E as [E1 E2]; discriminate.
  - injection H as <-. destruct (A d1) as [-> ->]. rewrite Kh, Ks. tauto.
Qed.

(* --- one node --- *)
Definition same (m m' : emitter) : Prop :=
  m_cfg m' = m_cfg m /\ m_events m' = m_events m /\ m_tags m' = m_tags m /\ m_indents m' = m_indents m /\ m_indent m' = m_indent m /\ m_flow m' = m_flow m.
Lemma process_anchor_same m : same m (process_anchor m) /\ m_state (process_anchor m) = m_state m /\ m_states (process_anchor m) = m_states m
  /\ m_data (process_anchor m) = m_data m /\ m_simple (process_anchor m) = m_simple m /\ m_mapping (process_anchor m) = m_mapping m.
Proof. unfold process_anchor. destruct (a_anchor (m_data m)); repeat split. Qed.
Lemma process_tag_same m : same m (process_tag m) /\ m_state (process_tag m) = m_state m /\ m_states (process_tag m) = m_states m
  /\ m_data (process_tag m) = m_data m /\ m_simple (process_tag m) = m_simple m /\ m_mapping (process_tag m) = m_mapping m.
Proof. unfold process_tag. destruct (a_handle (m_data m)), (a_suffix (m_data m)); repeat split. Qed.
Lemma same_trans a b c : same a b -> same b c -> same a c.
Proof. unfold same. intuition congruence. Qed.
Lemma props_same m : let m' := process_tag (process_anchor m) in
  same m m' /\ m_state m' = m_state m /\ m_states m' = m_states m
  /\ m_data m' = m_data m /\ m_simple m' = m_simple m /\ m_mapping m' = m_mapping m.
Proof.
  cbn zeta. destruct (process_anchor_same m) as (A1 & A2 & A3 & A4 & A5 & A6). destruct (process_tag_same (process_anchor m)) as (B1 & B2 & B3 & B4 & B5 & B6).
  split; [eapply same_trans; eauto|]. repeat split; congruence.
Qed.

Lemma pop_state_eq m s l : m_states m = s :: l -> pop_state m = EOk (set_states m s l).
Proof. unfold pop_state. intros ->. reflexivity. Qed.
Lemma pop_indent_eq m s l : m_indents m = s :: l -> pop_indent m = EOk (set_indents m s l).
Proof. unfold pop_indent. intros ->. reflexivity. Qed.

Definition node_event (e : ev) : bool :=
  match e with EAlias _ | EScalar _ _ _ _ _ _ | ESeqStart _ _ _ _ | EMapStart _ _ _ _ => true | _ => false end.
(* the state after the node's first event, when [s] is on top of [l] *)
Definition node_next (e : ev) (s : estate) (l : list estate) (s' : estate) (l' : list estate) : Prop :=
  match e with
  | EAlias _ | EScalar _ _ _ _ _ _ => s' = s /\ l' = l
  | ESeqStart _ _ _ _ => (s' = FlowSeqFirst \/ s' = BlockSeqFirst) /\ l' = s :: l
  | EMapStart _ _ _ _ => (s' = FlowMapFirst \/ s' = BlockMapFirst) /\ l' = s :: l
  | _ => False
  end.
Definition untagged (e : ev) : Prop := match e with EScalar _ None _ false false _ => True | _ => False end.
Lemma emit_node_step m e mapping simple s l :
  m_states m = s :: l -> analyze_event (m_cfg m) (m_tags m) e = inr (m_data m) ->
  (node_event e = true /\ ~ untagged e /\ exists m', emit_node m e mapping simple = EOk m' /\ same m m' /\ node_next e s l (m_state m') (m_states m')) \/
  ((node_event e = false \/ untagged e) /\ exists x m', emit_node m e mapping simple = EErr x m' /\ same m m').
Proof.
  intros Hl Ha. unfold emit_node. set (m0 := set_context m mapping simple).
  assert (S0 : same m m0) by (repeat split).
  assert (L0 : m_states m0 = s :: l) by exact Hl.
  destruct e; try (right; split; [left; reflexivity|]; eexists _, m0; split; [reflexivity|exact S0]).
  - left. split; [reflexivity|]. split; [exact (fun x => x)|]. unfold emit_alias. destruct (process_anchor_same m0) as (A1 & A2 & A3 & _).
    set (m1 := if m_simple (process_anchor m0) then _ else _).
    assert (S1 : same m m1 /\ m_states m1 = s :: l).
    { unfold m1. split; [eapply same_trans; [exact S0|]; destruct (m_simple _); exact A1|destruct (m_simple _); cbn; congruence]. }
    destruct S1 as [S1 L1]. unfold pop_state. rewrite L1. eexists. split; [reflexivity|]. split; [exact S1|split; reflexivity].
  - assert (U : untagged (EScalar anchor tag value plain_implicit quoted_implicit style) <->
      match a_handle (m_data m0), a_suffix (m_data m0) with None, None => true | _, _ => false end && negb plain_implicit && negb quoted_implicit = true).
    { destruct plain_implicit; [destruct tag, (a_handle (m_data m0)), (a_suffix (m_data m0)); cbn; intuition congruence|].
      destruct quoted_implicit; [destruct tag, (a_handle (m_data m0)), (a_suffix (m_data m0)); cbn; intuition congruence|].
      pose proof (scalar_no_tag _ _ _ _ _ _ _ _ _ Ha eq_refl eq_refl) as K. change (m_data m0) with (m_data m).
      destruct tag; cbn [untagged negb andb]; destruct (a_handle (m_data m)), (a_suffix (m_data m)); cbn; intuition congruence. }
    unfold emit_scalar. destruct (select_style m0 plain_implicit quoted_implicit style) as [[h sty]|] eqn:E.
    + left. split; [reflexivity|]. split.
      { intros X. apply U in X. unfold select_style in E. rewrite X in E. discriminate. }
      set (m1 := set_data m0 _). destruct (props_same m1) as (P1 & P2 & P3 & P4 & P5 & P6). set (m2 := process_tag (process_anchor m1)) in *.
      unfold process_scalar. unfold pop_indent. cbn [ebind m_indents increase_indent on_pen set_pen set_indents].
      assert (L1 : m_states m2 = s :: l) by (rewrite P3; exact L0).
      erewrite pop_state_eq by exact L1. eexists. split; [reflexivity|]. split; [|split; reflexivity].
      unfold same in *. cbn. intuition congruence.
    + right. split; [right|].
      * apply U. unfold select_style in E. destruct (_ && negb plain_implicit && negb quoted_implicit); [reflexivity|discriminate].
      * eexists _, m0. split; [reflexivity|exact S0].
  - left. split; [reflexivity|]. split; [exact (fun x => x)|]. unfold emit_sequence_start. destruct (props_same m0) as (P1 & P2 & P3 & P4 & P5 & P6).
    eexists. split; [reflexivity|]. split; [eapply same_trans; [exact S0|]; exact P1|]. split; [|cbn; congruence].
    cbn [set_state m_state]. destruct (_ || _); auto.
  - left. split; [reflexivity|]. split; [exact (fun x => x)|]. unfold emit_mapping_start. destruct (props_same m0) as (P1 & P2 & P3 & P4 & P5 & P6).
    eexists. split; [reflexivity|]. split; [eapply same_trans; [exact S0|]; exact P1|]. split; [|cbn; congruence].
    cbn [set_state m_state]. destruct (_ || _); auto.
Qed.

Definition content_ok (e : ev) : Prop :=
  ~ untagged e /\ match e with EDocStart v tags _ => valid_directives v tags | _ => True end.
Definition stepped (m : emitter) (a : acc) (e : ev) (r : eres) : Prop :=
  (exists a' m', astep a e = Some a' /\ content_ok e /\ r = EOk m' /\ einv m' a' /\ m_events m' = m_events m /\ g_canonical (m_cfg m') = g_canonical (m_cfg m))
  \/ ((astep a e = None \/ ~ content_ok e) /\ exists x m', r = EErr x m' /\ m_events m' = m_events m).

Lemma astep_node f r e f' : after_node f = Some f' -> node_event e = true ->
  astep (AIn (f :: r)) e =
  match e with
  | ESeqStart _ _ _ _ => Some (AIn (FSeq :: f' :: r))
  | EMapStart _ _ _ _ => Some (AIn (FKey :: f' :: r))
  | _ => Some (AIn (f' :: r))
  end.
Proof. intros A N. destruct e; try discriminate; destruct f, r; cbn in *; try discriminate; inversion A; reflexivity. Qed.

Lemma count_cons p s l : count p (s :: l) = ((if p s then 1 else 0) + count p l)%nat.
Proof. unfold count. cbn [filter]. destruct (p s); reflexivity. Qed.

Lemma node_stepped m m1 e mapping simple s l f f' r :
  m_states m1 = s :: l -> is_first s = false -> forallb (fun x => negb (is_first x)) l = true ->
  frames (s :: l) = Some (f' :: r) -> after_node f = Some f' -> aok (AIn (f :: r)) = true ->
  length (m_indents m1) = count has_indent (s :: l) -> m_flow m1 = Z.of_nat (count is_flow (s :: l)) ->
  m_cfg m1 = m_cfg m -> m_tags m1 = m_tags m -> m_data m1 = m_data m -> m_events m1 = m_events m ->
  analyze_event (m_cfg m) (m_tags m) e = inr (m_data m) ->
  (node_event e = false -> astep (AIn (f :: r)) e = None) ->
  stepped m (AIn (f :: r)) e (emit_node m1 e mapping simple).
Proof.
  intros Hl Hs Hf Fr Af Ok Hi Hw Ec Et Ed Ee Ha Hn.
  destruct (emit_node_step m1 e mapping simple s l Hl) as [(N & U & m' & E & S & X)|(N & x & m' & E & S)]; [congruence| |].
  - left. rewrite (astep_node _ _ _ _ Af N). rewrite E.
    destruct S as (S1 & S2 & S3 & S4 & S5 & S6).
    assert (C : content_ok e) by (split; [exact U|destruct e; try exact I; discriminate]).
    pose proof (astack_after _ _ _ Ok Af) as Ok'.
    destruct e; try discriminate; cbn [node_next] in X; destruct X as [X1 X2].
    + eexists _, m'. split; [reflexivity|]. split; [exact C|]. split; [reflexivity|]. split; [|split; congruence]. constructor.
      * rewrite X1, X2. constructor; assumption.
      * exact Ok'.
      * rewrite S4, X1, X2. exact Hi.
      * rewrite S6, X1, X2. exact Hw.
      * intros [D|D]; discriminate.
    + eexists _, m'. split; [reflexivity|]. split; [exact C|]. split; [reflexivity|]. split; [|split; congruence]. constructor.
      * rewrite X1, X2. constructor; assumption.
      * exact Ok'.
      * rewrite S4, X1, X2. exact Hi.
      * rewrite S6, X1, X2. exact Hw.
      * intros [D|D]; discriminate.
    + eexists _, m'. split; [reflexivity|]. split; [exact C|]. split; [reflexivity|]. split; [|split; congruence]. constructor.
      * rewrite X2. constructor; [|cbn; rewrite Hs; exact Hf]. destruct X1 as [-> | ->]; cbn [frames frame] in *; rewrite Fr; reflexivity.
      * cbn [aok]. apply astack_push; [exact Ok'|auto].
      * rewrite S4, X2, count_cons. destruct X1 as [-> | ->]; exact Hi.
      * rewrite S6, X2, count_cons. destruct X1 as [-> | ->]; exact Hw.
      * intros [D|D]; discriminate.
    + eexists _, m'. split; [reflexivity|]. split; [exact C|]. split; [reflexivity|]. split; [|split; congruence]. constructor.
      * rewrite X2. constructor; [|cbn; rewrite Hs; exact Hf]. destruct X1 as [-> | ->]; cbn [frames frame] in *; rewrite Fr; reflexivity.
      * cbn [aok]. apply astack_push; [exact Ok'|auto].
      * rewrite S4, X2, count_cons. destruct X1 as [-> | ->]; exact Hi.
      * rewrite S6, X2, count_cons. destruct X1 as [-> | ->]; exact Hw.
      * intros [D|D]; discriminate.
  - right. rewrite E. split; [|exists x, m'; split; [reflexivity|destruct S as (_ & S & _); congruence]].
    destruct N as [N|N]; [left; apply Hn; exact N|right]. intros [C _]. contradiction.
Qed.

(* --- directives --- *)
Lemma append_tag_true m t : exists tags, append_tag m t true = EOk (set_tags m tags).
Proof. unfold append_tag. destruct (existsb (fun d => str_eqb (fst t) (fst d)) (m_tags m)); [exists (m_tags m); destruct m; reflexivity|eauto]. Qed.
Lemma append_tags_defaults l : forall m, exists m', each_tag (fun t m => append_tag m t true) l m = EOk m' /\
  m_cfg m' = m_cfg m /\ m_pen m' = m_pen m /\ m_events m' = m_events m /\ m_states m' = m_states m /\ m_indents m' = m_indents m /\ m_indent m' = m_indent m
  /\ m_flow m' = m_flow m /\ m_state m' = m_state m /\ m_data m' = m_data m.
Proof.
  induction l as [|t l IH]; intros m; cbn [each_tag]; [eexists; repeat split; reflexivity|].
  destruct (append_tag_true m t) as [tags ->]. cbn [ebind].
  destruct (IH (set_tags m tags)) as (m' & E & K). exists m'. split; [exact E|exact K].
Qed.
Definition tag_step (t : tagdir) (m : emitter) : eres := fail_if (analyze_tag_directive t) m >>= fun m => append_tag m t false.
Lemma directive_tags l : forall m,
  (Forall (fun t => valid_handle (fst t) /\ snd t <> []) l /\ NoDup (map fst l) /\ (forall t d, In t l -> In d (m_tags m) -> fst t <> fst d) /\
   each_tag tag_step l m = EOk (set_tags m (m_tags m ++ l))) \/
  ((~ Forall (fun t => valid_handle (fst t) /\ snd t <> []) l \/ ~ NoDup (map fst l) \/ (exists t d, In t l /\ In d (m_tags m) /\ fst t = fst d)) /\
   exists x m', each_tag tag_step l m = EErr x m' /\ m_events m' = m_events m).
Proof.
  induction l as [|t l IH]; intros m; cbn [each_tag].
  - left. split; [constructor|]. split; [constructor|]. split; [intros t d []|]. rewrite app_nil_r. destruct m; reflexivity.
  - assert (Ft : forall m0, tag_step t m0 = (fail_if (analyze_tag_directive t) m0 >>= fun m => append_tag m t false)) by reflexivity.
    rewrite Ft. clear Ft.
    destruct (analyze_tag_directive t) as [x|] eqn:A; cbn [fail_if ebind].
    + right. split; [left; intros F; inversion F; subst|eexists _, _; split; reflexivity]. destruct t as [h p]. apply handle_valid in H1. cbn in *. congruence.
    + destruct t as [h p]. apply handle_valid in A.
      change (append_tag m (h, p) false) with (if existsb (fun d => str_eqb h (fst d)) (m_tags m) then EErr DuplicateTagDirective m else EOk (set_tags m (m_tags m ++ [(h, p)]))).
      destruct (existsb (fun d => str_eqb h (fst d)) (m_tags m)) eqn:X; cbn [ebind].
      * right. split; [|eexists _, _; split; reflexivity]. right. right. apply existsb_exists in X as (d & X1 & X2). exists (h, p), d.
        split; [left; reflexivity|]. split; [exact X1|]. destruct (str_eqb_spec h (fst d)); [assumption|discriminate].
      * set (m1 := set_tags m (m_tags m ++ [(h, p)])).
        assert (Nx : forall d, In d (m_tags m) -> h <> fst d).
        { intros d D E. assert (existsb (fun d => str_eqb h (fst d)) (m_tags m) = true); [|congruence]. apply existsb_exists. exists d. split; [exact D|]. rewrite E. apply str_eqb_refl. }
        destruct (IH m1) as [(F & Nd & Nc & E)|(F & x & m' & E & Ev)].
        -- left. split; [constructor; assumption|]. split.
           { cbn. constructor; [|exact Nd]. intros I. apply in_map_iff in I as (t & E1 & E2). apply (Nc t (h, p) E2); [unfold m1; cbn; apply in_or_app; right; left; reflexivity|exact E1]. }
           split.
           { intros t d [<-|I] D; [apply Nx; exact D|]. apply Nc; [exact I|]. unfold m1. cbn. apply in_or_app. left. exact D. }
           rewrite E. unfold m1. cbn [m_tags set_tags]. rewrite <- app_assoc. destruct m; reflexivity.
        -- right. split; [|exists x, m'; split; [exact E|exact Ev]]. destruct F as [F|[F|(t & d & F1 & F2 & F3)]].
           ++ left. intros G. inversion G; subst. contradiction.
           ++ right. left. cbn. intros G. inversion G; subst. contradiction.
           ++ unfold m1 in F2. cbn in F2. apply in_app_or in F2 as [F2|[<-|[]]].
              ** right. right. exists t, d. split; [right; exact F1|]. split; assumption.
              ** right. left. cbn. intros G. inversion G; subst. apply H1. cbn in F3. rewrite <- F3. apply in_map. exact F1.
Qed.
