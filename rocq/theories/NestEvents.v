(* The nesting of the events the parser returns and of the tokens it takes (C71) *)
From Verif Require Import Base ReaderModel Utf8Spec CharSpec Types CursorModel ScanModel ScannerModel ScannerSpec ScannerInv NestSpec Nest.
From Verif Require Import ParserModel ParserSpec.

(* the collections a state is inside of, as far as the state below does not count them:
   events, block tokens, flow tokens *)
Definition ew (s : pstate) : Z :=
  match s with
  | PS_BSeqFirst | PS_BSeqEntry | PS_Indentless | PS_BMapFirst | PS_BMapKey | PS_BMapValue
  | PS_FSeqFirst | PS_FSeqEntry | PS_FMapFirst | PS_FMapKey | PS_FMapValue | PS_FMapEmptyValue => 1
  | PS_FSeqMapKey | PS_FSeqMapValue | PS_FSeqMapEnd => 2
  | _ => 0
  end.
Definition bw (s : pstate) : Z := match s with PS_BSeqEntry | PS_BMapKey | PS_BMapValue => 1 | _ => 0 end.
Definition fw (s : pstate) : N :=
  match s with
  | PS_FSeqEntry | PS_FMapKey | PS_FMapValue | PS_FMapEmptyValue | PS_FSeqMapKey | PS_FSeqMapValue | PS_FSeqMapEnd => 1
  | _ => 0
  end.
Definition ews (l : list pstate) : Z := fold_right (fun s n => (ew s + n)%Z) 0%Z l.
Definition bws (l : list pstate) : Z := fold_right (fun s n => (bw s + n)%Z) 0%Z l.
Definition fws (l : list pstate) : N := fold_right (fun s n => fw s + n) 0 l.
Lemma ews_cons s l : ews (s :: l) = (ew s + ews l)%Z. Proof. reflexivity. Qed.
Lemma bws_cons s l : bws (s :: l) = (bw s + bws l)%Z. Proof. reflexivity. Qed.
Lemma fws_cons s l : fws (s :: l) = fw s + fws l. Proof. reflexivity. Qed.
(* the states in which the next token is known to open a collection; the parser never is in
   PS_BlockNodeOrIndentless *)
Definition first (s : pstate) : bool := match s with PS_BlockNodeOrIndentless | PS_BSeqFirst | PS_BMapFirst | PS_FSeqFirst | PS_FMapFirst => true | _ => false end.
Definition first_of (s : pstate) (t : tok) : bool :=
  match s, t with
  | PS_BSeqFirst, TBlockSeqStart | PS_BMapFirst, TBlockMapStart | PS_FSeqFirst, TFlowSeqStart | PS_FMapFirst, TFlowMapStart => true
  | _, _ => false
  end.
Definition in_map (s : pstate) : bool := match s with PS_BMapKey | PS_BMapValue => true | _ => false end.
(* a sequence without a token of its own is the key or the value of a block mapping *)
Fixpoint nested (l : list pstate) : Prop :=
  match l with
  | [] => True
  | s :: r => first s = false /\ nested r /\ (s = PS_Indentless -> exists m r', r = m :: r' /\ in_map m = true)
  end.
Definition flat (x : token) : Prop := forall b f, block_after b x = b /\ flow_after f x = f.

Inductive outcome (p : parser) (ind : bool) : ev -> parser -> Prop :=
| O_leaf e p' : p_states p = p_state p' :: p_states p' -> (forall d, event_after d e = d) -> outcome p ind e p'
| O_ind e p' : ind = true -> p_state p' = PS_Indentless -> p_states p' = p_states p -> (forall d, event_after d e = (d + 1)%Z) -> outcome p ind e p'
| O_open e p' x r : p_in p' = x :: r -> first_of (p_state p') (t_tok x) = true -> t_deep x = false -> p_states p' = p_states p ->
    (forall d, event_after d e = (d + 1)%Z) -> outcome p ind e p'.
Definition node_step (p : parser) (ind : bool) (o : pout) : Prop :=
  match o with
  | PEvent e p' => (exists d, p_in p = d ++ p_in p' /\ Forall flat d) /\ outcome p ind (e_ev e) p'
  | PFail p' => forall er, p_error p' = Some er -> pe_problem er = MaxNesting -> exists x, In x (p_in p) /\ opens x = true /\ t_deep x = true
  | _ => True
  end.
Ltac isflat := let b := fresh in let f := fresh in intros b f; unfold block_after, flow_after; match goal with H : t_tok _ = _ |- _ => rewrite H; split; reflexivity end.
Ltac nofail := cbn; intros ?er [= <-]; discriminate.
Lemma skip_in p t r : p_in p = t :: r -> p_in (skip p) = r /\ p_state (skip p) = p_state p /\ p_states (skip p) = p_states p.
Proof. intros E. unfold skip. rewrite E. auto. Qed.

Lemma leaf_skip p ind t r s ss e : p_in p = t :: r -> p_states p = s :: ss -> flat t -> (forall d, event_after d (e_ev e) = d) ->
  node_step p ind (PEvent e (skip (mkParser (p_in p) (p_end p) (p_error p) s ss (p_marks p) (p_tags p)))).
Proof.
  intros E Es F Ee. cbn [node_step]. unfold skip. cbn. rewrite E. split; [exists [t]; split; [reflexivity|constructor; [exact F|constructor]]|]. apply O_leaf; [exact Es|exact Ee].
Qed.
Lemma content_step p block ind a tg sm em t r : p_in p = t :: r -> node_step p ind (parse_content p block ind a tg sm em t).
Proof.
  intros E. unfold parse_content.
  assert (Err : forall pr c m, (pr = MaxNesting -> opens t = true /\ t_deep t = true) -> node_step p ind (error_context p pr c m)).
  { intros pr c m H. unfold error_context, fail. cbn. intros er [= <-]. cbn. intros Hp. exists t. rewrite E. destruct (H Hp). split; [left; reflexivity|auto]. }
  assert (Op : forall e st, first_of st (t_tok t) = true -> (forall d, event_after d (e_ev e) = (d + 1)%Z) -> t_deep t = false -> node_step p ind (PEvent e (set_state p st))).
  { intros e st F Ee D. cbn. split; [exists []; split; [reflexivity|constructor]|]. eapply O_open; [cbn; exact E|exact F|exact D|reflexivity|exact Ee]. }
  assert (Lf : forall an ta im s2 e2, node_step p ind (pop_state p (fun p => ret (EScalar an ta [] im false Plain) s2 e2 p))).
  { intros. unfold pop_state. destruct (p_states p) as [|s ss] eqn:Es; [exact I|]. cbn. split; [exists []; split; [reflexivity|constructor]|]. apply O_leaf; [exact Es|reflexivity]. }
  assert (El : forall b, node_step p ind match a, tg with
        | None, None => error_context p (NoNodeContent b) sm (t_start t)
        | _, _ => pop_state p (fun p => ret (EScalar a tg [] (match tg with None => true | Some [] => true | Some _ => false end) false Plain) sm em p)
        end).
  { intros b. destruct a, tg; try apply Lf. apply Err. discriminate. }
  destruct (ind && match t_tok t with TBlockEntry => true | _ => false end) eqn:B.
  - apply andb_prop in B as [-> _]. cbn. split; [exists []; split; [reflexivity|constructor]|]. apply O_ind; reflexivity.
  - destruct (t_tok t) eqn:Et, block; try apply El;
    try (unfold pop_state; destruct (p_states p) as [|s ss] eqn:Es; [exact I|]; eapply leaf_skip; [exact E|exact Es|isflat|reflexivity]);
    (destruct (t_deep t) eqn:D; [apply Err; intros _; unfold opens; rewrite Et; auto|apply Op; reflexivity]).
Qed.
Lemma node_skip p ind t r o : p_in p = t :: r -> flat t -> node_step (skip p) ind o -> node_step p ind o.
Proof.
  intros E F. destruct (skip_in p t r E) as (E1 & _ & E2). destruct o as [e p'|p'|p'|]; cbn; auto; rewrite E1, E.
  - intros ((d & E3 & F3) & O). split; [exists (t :: d); split; [rewrite E3; reflexivity|constructor; assumption]|].
    destruct O; [apply O_leaf|apply O_ind|eapply O_open]; eauto; congruence.
  - intros H er H1 H2. destruct (H er H1 H2) as (x & Ix & K). exists x. split; [right; exact Ix|exact K].
Qed.
Lemma node_peek p ind k : (forall t r, p_in p = t :: r -> node_step p ind (k t)) -> node_step p ind (peek p k).
Proof. intros H. unfold peek. destruct (p_in p) as [|t r] eqn:E; [nofail|eapply H; reflexivity]. Qed.
Lemma node_tag p ind tag m k : (forall t, node_step p ind (k t)) -> node_step p ind (with_tag p tag m k).
Proof. intros H. unfold with_tag. destruct tag as [[[h s] tm]|]; [|apply H]. destruct (resolve_tag (p_tags p) h s); [apply H|nofail]. Qed.
Lemma parse_node_step p block ind : node_step p ind (parse_node p block ind).
Proof.
  unfold parse_node. apply node_peek. intros t r E.
  assert (Dft : node_step p ind (parse_content p block ind None None (t_start t) (t_start t) t)) by (eapply content_step; exact E).
  destruct (t_tok t) eqn:Et; try exact Dft.
  - unfold pop_state. destruct (p_states p) as [|s ss] eqn:Es; [exact I|]. eapply leaf_skip; [exact E|exact Es|isflat|reflexivity].
  - eapply node_skip; [exact E|isflat|]. apply node_peek. intros t2 r2 E2.
    assert (D2 : node_step (skip p) ind (parse_content (skip p) block ind (Some name) None (t_start t) (t_end t) t2)) by (eapply content_step; exact E2).
    destruct (t_tok t2) eqn:Et2; try exact D2. eapply node_skip; [exact E2|isflat|]. apply node_peek. intros t3 r3 E3. apply node_tag. intros tg. eapply content_step. exact E3.
  - eapply node_skip; [exact E|isflat|]. apply node_peek. intros t2 r2 E2.
    assert (D2 : node_step (skip p) ind (with_tag (skip p) (Some (handle, suffix, t_start t)) (t_start t) (fun tag =>
              parse_content (skip p) block ind None tag (t_start t) (t_end t) t2))) by (apply node_tag; intros; eapply content_step; exact E2).
    destruct (t_tok t2) eqn:Et2; try exact D2. eapply node_skip; [exact E2|isflat|]. apply node_peek. intros t3 r3 E3. apply node_tag. intros tg. eapply content_step. exact E3.
Qed.

Lemma flow_from_app f a b : flow_from f (a ++ b) = flow_from (flow_from f a) b.
Proof. unfold flow_from. apply fold_left_app. Qed.
Lemma block_from_app f a b : block_from f (a ++ b) = block_from (block_from f a) b.
Proof. unfold block_from. apply fold_left_app. Qed.
Lemma flat_from d : Forall flat d -> forall b f, block_from b d = b /\ flow_from f d = f.
Proof.
  induction 1 as [|x d F _ IH]; intros b f; [split; reflexivity|]. destruct (F b f) as [E1 E2].
  change (block_from (block_after b x) d = b /\ flow_from (flow_after f x) d = f). rewrite E1, E2. apply IH.
Qed.
Lemma flat_opens x : flat x -> opens x = false.
Proof. intros F. destruct (F 0%Z 0) as [E1 E2]. unfold block_after, flow_after, opens in *. destruct (t_tok x); try reflexivity; discriminate. Qed.
Lemma flat_accepted d : Forall flat d -> accepted d.
Proof. intros F t I O. rewrite Forall_forall in F. rewrite (flat_opens t (F t I)) in O. discriminate. Qed.
Lemma accepted_app a b : accepted a -> accepted b -> accepted (a ++ b).
Proof. intros A B t I. apply in_app_iff in I as [I|I]; auto. Qed.
Lemma event_depth_app a e : event_depth (a ++ [e]) = event_after (event_depth a) e.
Proof. unfold event_depth. rewrite fold_left_app. reflexivity. Qed.

Section P.
Variable input : list token.
Record inv (u : list token) (es : list ev) (s : pstate) (p : parser) : Prop := {
  i_in : input = u ++ p_in p;
  i_acc : accepted u;
  i_ev : event_depth es = (ew s + ews (p_states p))%Z;
  i_b : block_depth u = (bw s + bws (p_states p))%Z;
  i_f : flow_depth u = fw s + fws (p_states p);
  i_nest : nested (p_states p);
  i_ind : s = PS_Indentless -> exists m r, p_states p = m :: r /\ in_map m = true;
  i_first : first s = true -> exists x r, p_in p = x :: r /\ first_of s (t_tok x) = true /\ t_deep x = false }.
(* about to parse a node *)
Record base (u : list token) (es : list ev) (ind : bool) (p : parser) : Prop := {
  b_in : input = u ++ p_in p;
  b_acc : accepted u;
  b_ev : event_depth es = ews (p_states p);
  b_b : block_depth u = bws (p_states p);
  b_f : flow_depth u = fws (p_states p);
  b_nest : nested (p_states p);
  b_ind : ind = true -> exists m r, p_states p = m :: r /\ in_map m = true }.
Definition good (es : list ev) (o : pout) : Prop :=
  match o with
  | PEvent e p' => exists u, inv u (es ++ [e_ev e]) (p_state p') p'
  | PFail p' => forall er, p_error p' = Some er -> pe_problem er = MaxNesting -> exists x, In x input /\ opens x = true /\ t_deep x = true
  | _ => True
  end.
Lemma good_node u es ind p o : base u es ind p -> node_step p ind o -> good es o.
Proof.
  intros [B1 B2 B3 B4 B5 B6 B7]. destruct o as [e p'|p'|p'|]; cbn; auto.
  - intros ((d & Ed & Fd) & O). exists (u ++ d). destruct (flat_from d Fd (block_depth u) (flow_depth u)) as [Eb Ef].
    assert (I1 : input = (u ++ d) ++ p_in p') by (rewrite <- app_assoc, <- Ed; exact B1).
    assert (I2 : accepted (u ++ d)) by (apply accepted_app; [exact B2|apply flat_accepted, Fd]).
    assert (I4 : block_depth (u ++ d) = bws (p_states p)) by (rewrite block_app, Eb; exact B4).
    assert (I5 : flow_depth (u ++ d) = fws (p_states p)) by (rewrite flow_app, Ef; exact B5).
    remember (e_ev e) as ee. clear Heqee e. destruct O as [e p' Es Ee|e p' -> Hs Es Ee|e p' x r Ein F D Es Ee].
    + rewrite Es in *. cbn in B3, I4, I5, B6. destruct B6 as (N1 & N2 & N3). constructor; auto; [rewrite event_depth_app, Ee; exact B3|congruence].
    + rewrite Hs. constructor; auto; rewrite ?Es; auto; [rewrite event_depth_app, Ee, B3; cbn [ew]; lia|discriminate].
    + destruct (p_state p') eqn:Hs; try discriminate F; (constructor; rewrite ?Es; auto; [rewrite event_depth_app, Ee, B3; cbn [ew]; lia|discriminate|eauto]).
  - intros H er H1 H2. destruct (H er H1 H2) as (x & I & K). exists x. split; [rewrite B1; apply in_app_iff; auto|exact K].
Qed.
Lemma good_parse u es ind blk p : base u es ind p -> good es (parse_node p blk ind).
Proof. intros B. eapply good_node; [exact B|apply parse_node_step]. Qed.
Lemma good_peek es p k : (forall t r, p_in p = t :: r -> good es (k t)) -> good es (peek p k).
Proof. intros H. unfold peek. destruct (p_in p) as [|t r] eqn:E; [nofail|eapply H; reflexivity]. Qed.
(* a token is taken and the state changes *)
Lemma inv_skip u es s p t r s' es' : inv u es s p -> p_in p = t :: r -> (opens t = true -> t_deep t = false) ->
  event_depth es' = (event_depth es + (ew s' - ew s))%Z -> (forall b, block_after b t = b + (bw s' - bw s))%Z -> flow_after (flow_depth u) t = fw s' + fws (p_states p) -> (s' = PS_Indentless -> s = PS_Indentless) -> first s' = false ->
  inv (u ++ [t]) es' s' (skip p).
Proof.
  intros [I1 I2 I3 I4 I5 I6 I7 I8] E Ha He Hb Hf Hi H1. destruct (skip_in p t r E) as (E1 & _ & E2).
  constructor; rewrite ?E1, ?E2; auto.
  - rewrite <- app_assoc. cbn. rewrite <- E. exact I1.
  - apply accepted_app; [exact I2|]. intros y [<- |[]]. exact Ha.
  - rewrite He, I3. lia.
  - rewrite block_app. change (block_from (block_depth u) [t]) with (block_after (block_depth u) t). rewrite Hb, I4. lia.
  - rewrite flow_app. exact Hf.
  - congruence.
Qed.
Lemma inv_flat u es s p t r : inv u es s p -> p_in p = t :: r -> flat t -> first s = false -> inv (u ++ [t]) es s (skip p).
Proof.
  intros I E F H. eapply inv_skip; eauto; try lia.
  - intros O. rewrite (flat_opens _ F) in O. discriminate.
  - intros b. rewrite (proj1 (F b 0)). lia.
  - rewrite (proj2 (F 0%Z (flow_depth u))). apply (i_f _ _ _ _ I).
Qed.
(* the same collection, in another state *)
Lemma inv_state u es e s s' p p' : inv u es s p -> p_in p' = p_in p -> p_states p' = p_states p -> event_after (event_depth es) e = (event_depth es + (ew s' - ew s))%Z ->
  bw s' = bw s -> fw s' = fw s -> (s' = PS_Indentless -> s = PS_Indentless) -> first s' = false -> inv u (es ++ [e]) s' p'.
Proof.
  intros [I1 I2 I3 I4 I5 I6 I7 I8] E1 E2 He Hb Hf Hi H1. constructor; rewrite ?E1, ?E2; auto.
  - rewrite event_depth_app, He, I3. lia.
  - rewrite Hb. exact I4.
  - rewrite Hf. exact I5.
  - congruence.
Qed.
Lemma good_state u es s s' p m : inv u es s p -> ew s' = ew s -> bw s' = bw s -> fw s' = fw s -> (s' = PS_Indentless -> s = PS_Indentless) -> first s' = false ->
  good es (process_empty_scalar (set_state p s') m).
Proof. intros I He Hb Hf Hi H1. exists u. cbn [p_state set_state]. eapply inv_state; eauto. cbn. lia. Qed.
Lemma base_push u es s s' p ind : inv u es s p -> ew s' = ew s -> bw s' = bw s -> fw s' = fw s -> (s' = PS_Indentless -> s = PS_Indentless) -> first s' = false -> (ind = true -> in_map s' = true) ->
  base u es ind (push_state p s').
Proof.
  intros [I1 I2 I3 I4 I5 I6 I7 I8] He Hb Hf Hi H1 Hind. constructor; cbn; rewrite ?He, ?Hb, ?Hf; auto.
  intros E. eauto.
Qed.
Lemma base_here u es s p : inv u es s p -> ew s = 0%Z -> bw s = 0%Z -> fw s = 0 -> base u es false p.
Proof. intros [I1 I2 I3 I4 I5 I6 I7 I8] He Hb Hf. constructor; auto; [lia..|discriminate]. Qed.
Lemma good_close u es s p t r e a b : inv u es s p -> p_in p = t :: r -> ew s = 1%Z -> (forall d, event_after d e = (d - 1)%Z) ->
  (t_tok t = TBlockEnd /\ bw s = 1%Z /\ fw s = 0 \/ (t_tok t = TFlowSeqEnd \/ t_tok t = TFlowMapEnd) /\ bw s = 0%Z /\ fw s = 1) ->
  good es (pop_state p (fun p => pop_mark p (fun _ p => ret e a b (skip p)))).
Proof.
  intros [I1 I2 I3 I4 I5 I6 I7 I8] E He Ee H. unfold pop_state. destruct (p_states p) as [|s1 ss] eqn:Es; [exact I|]. unfold pop_mark. cbn [p_marks]. destruct (p_marks p); [exact I|].
  cbn. unfold skip. cbn [p_in]. rewrite E. exists (u ++ [t]). cbn [p_state]. cbn in I6. destruct I6 as (N1 & N2 & N3). constructor; cbn [p_in p_states]; auto.
  - rewrite <- app_assoc. cbn. rewrite <- E. exact I1.
  - apply accepted_app; [exact I2|]. intros y [<- |[]] O. unfold opens in O. destruct H as [(X & _)|([X|X] & _)]; rewrite X in O; discriminate.
  - rewrite event_depth_app, Ee, I3, He, ews_cons. lia.
  - rewrite block_app. change (block_from (block_depth u) [t]) with (block_after (block_depth u) t). rewrite I4, bws_cons. unfold block_after. destruct H as [(X & H1 & H2)|([X|X] & H1 & H2)]; rewrite X, H1; lia.
  - rewrite flow_app. change (flow_from (flow_depth u) [t]) with (flow_after (flow_depth u) t). rewrite I5, fws_cons. unfold flow_after. destruct H as [(X & H1 & H2)|([X|X] & H1 & H2)]; rewrite X, H2; lia.
  - congruence.
Qed.
Lemma good_mark es p k : (forall m ms, good es (k m (mkParser (p_in p) (p_end p) (p_error p) (p_state p) (p_states p) ms (p_tags p)))) -> good es (pop_mark p k).
Proof. intros H. unfold pop_mark. destruct (p_marks p); [exact I|apply H]. Qed.
Definition entry_of (s : pstate) : pstate :=
  match s with PS_BSeqFirst => PS_BSeqEntry | PS_BMapFirst => PS_BMapKey | PS_FSeqFirst => PS_FSeqEntry | PS_FMapFirst => PS_FMapKey | _ => s end.
Lemma good_enter u es s p k : inv u es s p -> first s = true -> (forall u' p', inv u' es (entry_of s) p' -> good es (k p')) -> good es (enter p true k).
Proof.
  intros I Fs H. unfold enter, peek_unchecked. destruct (i_first _ _ _ _ I Fs) as (x & r & E & F & D). rewrite E. apply (H (u ++ [x])).
  assert (I' : inv u es s (push_mark p (t_start x))) by (destruct I; constructor; auto).
  pose proof (i_f _ _ _ _ I) as If. eapply inv_skip; [exact I'|exact E|auto|..];
    destruct s; try discriminate Fs; destruct (t_tok x) eqn:Ex; try discriminate F; cbn [entry_of ew bw fw] in *; try lia; try reflexivity; try discriminate;
    intros; unfold block_after, flow_after; rewrite Ex; cbn [p_states push_mark]; lia.
Qed.

Ltac fin := cbn; try reflexivity; try discriminate; try lia; auto.
Ltac states := eapply good_state; [eassumption|fin..].
Ltac pushes := eapply good_parse, base_push; [eassumption|fin..].
Ltac nomore := apply good_mark; intros; nofail.
Ltac takes I E := eapply inv_flat in I; [|exact E|isflat|reflexivity].

Lemma good_bseq u es p : inv u es PS_BSeqEntry p -> good es (parse_block_sequence_entry p false).
Proof.
  intros I. unfold parse_block_sequence_entry, enter. apply good_peek. intros t r E. destruct (t_tok t) eqn:Et; try nomore.
  - eapply good_close; eauto; left; auto.
  - takes I E. apply good_peek. intros t2 r2 E2. destruct (t_tok t2); try pushes; states.
Qed.
Lemma good_indentless u es p : inv u es PS_Indentless p -> good es (parse_indentless_sequence_entry p).
Proof.
  intros I. unfold parse_indentless_sequence_entry. apply good_peek. intros t r E.
  assert (End : good es (pop_state p (fun p => ret ESeqEnd (t_start t) (t_start t) p))).
  { unfold pop_state. destruct I as [I1 I2 I3 I4 I5 I6 I7 I8]. destruct (p_states p) as [|s ss]; [exact I|]. exists u. cbn [p_state]. cbn in I6. destruct I6 as (N1 & N2 & N3).
    rewrite ews_cons in I3. rewrite bws_cons in I4. rewrite fws_cons in I5. constructor; cbn [p_in p_states]; auto.
    - cbn [e_ev]. rewrite event_depth_app. cbn [event_after ew] in *. lia.
    - congruence. }
  destruct (t_tok t) eqn:Et; try exact End.
  takes I E. apply good_peek. intros t2 r2 E2. destruct (t_tok t2); try pushes; states.
Qed.
Lemma good_bkey u es p : inv u es PS_BMapKey p -> good es (parse_block_mapping_key p false).
Proof.
  intros I. unfold parse_block_mapping_key, enter. apply good_peek. intros t r E. destruct (t_tok t) eqn:Et; try nomore.
  - eapply good_close; eauto; left; auto.
  - takes I E. apply good_peek. intros t2 r2 E2. destruct (t_tok t2); try pushes; states.
Qed.
Lemma good_bvalue u es p : inv u es PS_BMapValue p -> good es (parse_block_mapping_value p).
Proof.
  intros I. unfold parse_block_mapping_value. apply good_peek. intros t r E. destruct (t_tok t) eqn:Et; try states.
  takes I E. apply good_peek. intros t2 r2 E2. destruct (t_tok t2); try pushes; states.
Qed.
Lemma good_end u es s p t r e : inv u es s p -> p_in p = t :: r -> ew s = 1%Z -> (forall d, event_after d e = (d - 1)%Z) -> t_tok t = TFlowSeqEnd \/ t_tok t = TFlowMapEnd -> bw s = 0%Z -> fw s = 1 ->
  good es (end_collection p e t).
Proof. intros. eapply good_close; eauto. Qed.
Lemma good_fseq_item u es p t r : inv u es PS_FSeqEntry p -> p_in p = t :: r ->
  good es match t_tok t with
          | TKey => ret (EMapStart None None true FlowColl) (t_start t) (t_end t) (skip (set_state p PS_FSeqMapKey))
          | TFlowSeqEnd => end_collection p ESeqEnd t
          | _ => parse_node (push_state p PS_FSeqEntry) false false
          end.
Proof.
  intros I E. destruct (t_tok t) eqn:Et; try pushes.
  - eapply good_end; eauto.
  - exists (u ++ [t]). rewrite (proj1 (proj2 (skip_in (set_state p PS_FSeqMapKey) t r E))). cbn [p_state set_state e_ev].
    assert (I' : inv u es PS_FSeqEntry (set_state p PS_FSeqMapKey)) by (destruct I; constructor; auto).
    pose proof (i_f _ _ _ _ I) as If. eapply inv_skip; [exact I'|exact E|..]; try discriminate.
    + intros O. unfold opens in O. rewrite Et in O. discriminate.
    + rewrite event_depth_app. reflexivity.
    + intros b. unfold block_after. rewrite Et. cbn. lia.
    + unfold flow_after. rewrite Et. exact If.
    + reflexivity.
Qed.
Definition fseq_body (fst : bool) (p : parser) : pout :=
  peek p (fun token =>
    match t_tok token with
    | TFlowSeqEnd => end_collection p ESeqEnd token
    | _ =>
        let entry (p : parser) (token : Types.token) : pout :=
          match t_tok token with
          | TKey => ret (EMapStart None None true FlowColl) (t_start token) (t_end token)
                        (skip (set_state p PS_FSeqMapKey))
          | TFlowSeqEnd => end_collection p ESeqEnd token
          | _ => parse_node (push_state p PS_FSeqEntry) false false
          end in
        if fst then entry p token
        else match t_tok token with
             | TFlowEntry => let p := skip p in peek p (fun token => entry p token)
             | _ => pop_mark p (fun m p => error_context p NoFlowSeqEntry m (t_start token))
             end
    end).
Lemma good_fseq u es p fst : inv u es PS_FSeqEntry p -> good es (fseq_body fst p).
Proof.
  intros I. unfold fseq_body. apply good_peek. intros t r E.
  pose proof (good_fseq_item u es p t r I E) as It.
  destruct (t_tok t) eqn:Et; try (destruct fst; [exact It|nomore]).
  - eapply good_end; eauto.
  - destruct fst; [exact It|]. cbv zeta. takes I E. apply good_peek. intros t2 r2 E2. eapply good_fseq_item; eauto.
Qed.
Lemma good_pkey u es p : inv u es PS_FSeqMapKey p -> good es (parse_flow_sequence_entry_mapping_key p).
Proof.
  intros I. unfold parse_flow_sequence_entry_mapping_key. apply good_peek. intros t r E. destruct (t_tok t) eqn:Et; try pushes; try states.
  all: takes I E; states.
Qed.
Lemma good_pvalue u es p : inv u es PS_FSeqMapValue p -> good es (parse_flow_sequence_entry_mapping_value p).
Proof.
  intros I. unfold parse_flow_sequence_entry_mapping_value. apply good_peek. intros t r E. destruct (t_tok t) eqn:Et; try states.
  takes I E. apply good_peek. intros t2 r2 E2. destruct (t_tok t2); try pushes; states.
Qed.
Lemma good_pend u es p : inv u es PS_FSeqMapEnd p -> good es (parse_flow_sequence_entry_mapping_end p).
Proof.
  intros I. unfold parse_flow_sequence_entry_mapping_end. apply good_peek. intros t r E. exists u. cbn [p_state set_state e_ev]. eapply inv_state; [exact I|reflexivity..|discriminate|reflexivity].
Qed.
Lemma good_fmap_item u es p t r : inv u es PS_FMapKey p -> p_in p = t :: r ->
  good es match t_tok t with
          | TKey =>
              peek (skip p) (fun token2 =>
                match t_tok token2 with
                | TValue | TFlowEntry | TFlowMapEnd =>
                    process_empty_scalar (set_state (skip p) PS_FMapValue) (t_start token2)
                | _ => parse_node (push_state (skip p) PS_FMapValue) false false
                end)
          | TFlowMapEnd => end_collection p EMapEnd t
          | _ => parse_node (push_state p PS_FMapEmptyValue) false false
          end.
Proof.
  intros I E. destruct (t_tok t) eqn:Et; try pushes.
  - eapply good_end; eauto.
  - takes I E. apply good_peek. intros t2 r2 E2. destruct (t_tok t2); try pushes; states.
Qed.
Definition fmap_body (fst : bool) (p : parser) : pout :=
  peek p (fun token =>
    match t_tok token with
    | TFlowMapEnd => end_collection p EMapEnd token
    | _ =>
        let entry (p : parser) (token : Types.token) : pout :=
          match t_tok token with
          | TKey =>
              let p := skip p in
              peek p (fun token2 =>
                match t_tok token2 with
                | TValue | TFlowEntry | TFlowMapEnd =>
                    process_empty_scalar (set_state p PS_FMapValue) (t_start token2)
                | _ => parse_node (push_state p PS_FMapValue) false false
                end)
          | TFlowMapEnd => end_collection p EMapEnd token
          | _ => parse_node (push_state p PS_FMapEmptyValue) false false
          end in
        if fst then entry p token
        else match t_tok token with
             | TFlowEntry => let p := skip p in peek p (fun token => entry p token)
             | _ => pop_mark p (fun m p => error_context p NoFlowMapEntry m (t_start token))
             end
    end).
Lemma good_fmap u es p fst : inv u es PS_FMapKey p -> good es (fmap_body fst p).
Proof.
  intros I. unfold fmap_body. apply good_peek. intros t r E.
  pose proof (good_fmap_item u es p t r I E) as It.
  destruct (t_tok t) eqn:Et; try (destruct fst; [exact It|nomore]).
  - eapply good_end; eauto.
  - destruct fst; [exact It|]. cbv zeta. takes I E. apply good_peek. intros t2 r2 E2. eapply good_fmap_item; eauto.
Qed.
Lemma good_fvalue u es p s e : inv u es s p -> s = PS_FMapValue \/ s = PS_FMapEmptyValue -> good es (parse_flow_mapping_value p e).
Proof.
  intros I Hs. assert (K : ew s = 1%Z /\ bw s = 0%Z /\ fw s = 1 /\ first s = false) by (destruct Hs as [-> | ->]; auto). clear Hs. destruct K as (K1 & K2 & K3 & K4).
  unfold parse_flow_mapping_value. apply good_peek. intros t r E. destruct e; [states|]. destruct (t_tok t) eqn:Et; try states.
  eapply inv_flat in I; [|exact E|isflat|exact K4]. apply good_peek. intros t2 r2 E2. destruct (t_tok t2); try pushes; states.
Qed.

(* documents *)
Lemma doc_ends f : forall u es s p, inv u es s p -> first s = false -> exists u', inv u' es s (skip_doc_ends f p).
Proof.
  induction f as [|x f IH]; intros u es s p I F; cbn [skip_doc_ends]; [eauto|]. destruct (p_in p) as [|t r] eqn:E; [eauto|].
  destruct (t_tok t) eqn:Et; eauto. eapply IH; [|exact F]. eapply inv_flat; [exact I|exact E|isflat|exact F].
Qed.
Lemma dir_loop f : forall v ds u es s p, inv u es s p -> first s = false ->
  match directive_loop f v ds p with
  | DirsOk _ _ p' => exists u', inv u' es s p'
  | DirsFail p' => forall er, p_error p' = Some er -> pe_problem er <> MaxNesting
  end.
Proof.
  induction f as [|x f IH]; intros v ds u es s p I F; cbn [directive_loop]; [cbn; intros er [= <-]; discriminate|].
  destruct (p_in p) as [|t r] eqn:E; [cbn; intros er [= <-]; discriminate|]. destruct (t_tok t) eqn:Et; try (exists u; exact I).
  - destruct v; [cbn; intros er [= <-]; discriminate|]. destruct (_ || _); [cbn; intros er [= <-]; discriminate|].
    eapply IH; [|exact F]. eapply inv_flat; [exact I|exact E|isflat|exact F].
  - destruct (append_tag_directive _ _ _); [|cbn; intros er [= <-]; discriminate].
    assert (I' : inv u es s (set_tags p l)) by (destruct I; constructor; auto).
    eapply IH; [|exact F]. eapply inv_flat; [exact I'|exact E|isflat|exact F].
Qed.
Lemma directives u es s p : inv u es s p -> first s = false ->
  match process_directives p with
  | DirsOk _ _ p' => exists u', inv u' es s p'
  | DirsFail p' => forall er, p_error p' = Some er -> pe_problem er <> MaxNesting
  end.
Proof.
  intros I F. unfold process_directives. pose proof (dir_loop (p_in p) None [] u es s p I F) as K. destruct (directive_loop (p_in p) None [] p) as [v d p'|p']; [|exact K].
  destruct K as (u' & K). exists u'. destruct K; constructor; auto.
Qed.
Lemma good_docstart u es s p imp : inv u es s p -> ew s = 0%Z -> bw s = 0%Z -> fw s = 0 -> first s = false -> s <> PS_Indentless -> good es (parse_document_start p imp).
Proof.
  intros I He Hb Hf F Hn. unfold parse_document_start. apply good_peek. intros t0 r0 E0.
  assert (K : exists u', inv u' es s (if imp then p else skip_doc_ends (p_in p) p)) by (destruct imp; [eauto|eapply doc_ends; eauto]).
  destruct K as (u1 & I1). cbv zeta. set (q := if imp then p else skip_doc_ends (p_in p) p) in *. clearbody q. clear I t0 r0 E0 u p. apply good_peek. intros t r E.
  pose proof (directives _ _ _ _ I1 F) as D.
  destruct (imp && negb (starts_explicit (t_tok t)) && negb (is_stream_end (t_tok t))); [|destruct (negb (is_stream_end (t_tok t))) eqn:Hend].
  - destruct (process_directives q) as [v d p'|p']; [|intros er H1 H2; destruct (D er H1 H2)]. destruct D as (u2 & [I1' I2 I3 I4 I5 I6 I7 I8]). exists u2. cbn [p_state set_state push_state e_ev ret].
    constructor; cbn [p_in p_states set_state push_state]; auto; rewrite ?ews_cons, ?bws_cons, ?fws_cons, ?event_depth_app; cbn [ew bw fw event_after]; try lia; try discriminate.
    cbn. repeat split; auto. discriminate.
  - destruct (process_directives q) as [v d p'|p']; [|intros er H1 H2; destruct (D er H1 H2)]. destruct D as (u2 & I2). apply good_peek. intros t2 r2 E2.
    destruct (t_tok t2) eqn:Et2; try nofail. exists (u2 ++ [t2]). unfold skip. cbn [p_in set_state push_state]. rewrite E2. cbn [p_state set_state push_state e_ev].
    eapply inv_flat in I2; [|exact E2|isflat|exact F]. unfold skip in I2. rewrite E2 in I2. destruct I2 as [I1' I2 I3 I4 I5 I6 I7 I8]. cbn [p_in p_states] in *.
    constructor; cbn [p_in p_states set_state push_state]; auto; rewrite ?ews_cons, ?bws_cons, ?fws_cons, ?event_depth_app; cbn [ew bw fw event_after]; try lia; try discriminate.
    cbn. repeat split; auto. discriminate.
  - exists (u1 ++ [t]). unfold skip. cbn [p_in set_state]. rewrite E. cbn [p_state set_state push_state e_ev]. assert (Et : t_tok t = TStreamEnd) by (destruct (t_tok t); try discriminate; reflexivity).
    eapply inv_flat in I1; [|exact E|isflat|exact F]. unfold skip in I1. rewrite E in I1. destruct I1 as [I1' I2 I3 I4 I5 I6 I7 I8]. cbn [p_in p_states] in *.
    constructor; cbn [p_in p_states set_state]; auto; rewrite ?event_depth_app; cbn [ew bw fw event_after]; try lia; try discriminate.
Qed.
Lemma machine_good u es p : inv u es (p_state p) p -> is_end_state (p_state p) = false -> good es (state_machine p).
Proof.
  intros I Hend. unfold state_machine. destruct (p_state p) eqn:Hs.
  - unfold parse_stream_start. apply good_peek. intros t r E. destruct (t_tok t) eqn:Et; try nofail. exists (u ++ [t]). cbn [ret]. unfold skip. cbn [p_in set_state]. rewrite E. cbn [p_state set_state push_state e_ev].
    eapply inv_flat in I; [|exact E|isflat|reflexivity]. unfold skip in I. rewrite E in I. destruct I as [I1' I2 I3 I4 I5 I6 I7 I8]. cbn [p_in p_states] in *.
    constructor; cbn [p_in p_states set_state]; auto; rewrite ?event_depth_app; cbn [ew bw fw event_after] in *; try lia; try discriminate.
  - eapply good_docstart; eauto. discriminate.
  - eapply good_docstart; eauto. discriminate.
  - unfold parse_document_content. apply good_peek. intros t r E.
    assert (Emp : good es (pop_state p (fun p => process_empty_scalar p (t_start t)))).
    { unfold pop_state. destruct I as [I1 I2 I3 I4 I5 I6 I7 I8]. destruct (p_states p) as [|s ss]; [exact I|]. exists u. cbn [p_state]. cbn in I6. destruct I6 as (N1 & N2 & N3).
      rewrite ews_cons in I3. rewrite bws_cons in I4. rewrite fws_cons in I5. constructor; cbn [p_in p_states]; auto.
      - cbn [e_ev]. rewrite event_depth_app. cbn [event_after empty_scalar ew] in *. lia.
      - congruence. }
    destruct (t_tok t); try exact Emp; eapply good_parse, base_here; eauto.
  - unfold parse_document_end. apply good_peek. intros t r E.
    assert (End : good es (ret (EDocEnd true) (t_start t) (t_start t) (set_state (set_tags p []) PS_DocStart))).
    { exists u. cbn [p_state set_state e_ev]. eapply inv_state; [exact I|reflexivity..| |reflexivity|reflexivity|discriminate|reflexivity]. cbn. lia. }
    destruct (t_tok t) eqn:Et; try exact End. takes I E. exists (u ++ [t]). cbn [p_state set_state e_ev]. eapply inv_state; [exact I|reflexivity..| |reflexivity|reflexivity|discriminate|reflexivity]. cbn. lia.
  - eapply good_parse, base_here; eauto.
  - destruct (i_first _ _ _ _ I eq_refl) as (x & r & _ & F & _). destruct (t_tok x); discriminate F.
  - eapply good_parse, base_here; eauto.
  - eapply good_enter; [exact I|reflexivity|]. intros u' p' I'. exact (good_bseq u' es p' I').
  - eapply good_bseq, I.
  - eapply good_indentless, I.
  - eapply good_enter; [exact I|reflexivity|]. intros u' p' I'. exact (good_bkey u' es p' I').
  - eapply good_bkey, I.
  - eapply good_bvalue, I.
  - eapply good_enter; [exact I|reflexivity|]. intros u' p' I'. exact (good_fseq u' es p' true I').
  - exact (good_fseq u es p false I).
  - eapply good_pkey, I.
  - eapply good_pvalue, I.
  - eapply good_pend, I.
  - eapply good_enter; [exact I|reflexivity|]. intros u' p' I'. exact (good_fmap u' es p' true I').
  - exact (good_fmap u es p false I).
  - eapply good_fvalue; eauto.
  - eapply good_fvalue; eauto.
  - discriminate Hend.
Qed.
Lemma parse_good u es p : inv u es (p_state p) p -> good es (parse p).
Proof.
  intros I. unfold parse. destruct (_ || _ || _) eqn:E; [exact Logic.I|]. apply orb_false_elim in E as [_ E]. eapply machine_good; eauto.
Qed.
Lemma init_inv : inv [] [] PS_StreamStart (init_parser input).
Proof. constructor; cbn; auto; try discriminate. intros t []. Qed.
Lemma history_inv es p : history input es p -> exists u, inv u (map e_ev es) (p_state p) p.
Proof.
  induction 1 as [|es p e p' H (u & I) E]; [exists []; apply init_inv|]. pose proof (parse_good _ _ _ I) as K. rewrite E in K. rewrite map_app. exact K.
Qed.
Lemma ews_bound l : nested l -> (bws l + Z.of_N (fws l) <= ews l <= 2 * (bws l + Z.of_N (fws l)))%Z.
Proof.
  enough (H : forall n l, (length l <= n)%nat -> nested l -> (bws l + Z.of_N (fws l) <= ews l <= 2 * (bws l + Z.of_N (fws l)))%Z) by (apply (H (length l)); lia).
  induction n as [|n IH]; intros [|s r] L N; cbn [length] in L; try (cbn; lia). destruct N as (N1 & N2 & N3).
  destruct s; try discriminate N1; try (specialize (IH r ltac:(lia) N2); rewrite ews_cons, bws_cons, fws_cons; cbn [ew bw fw]; lia).
  destruct (N3 eq_refl) as (m & r' & -> & M). destruct N2 as (_ & N2 & _). cbn [length] in L. specialize (IH r' ltac:(lia) N2). rewrite !ews_cons, !bws_cons, !fws_cons.
  destruct m; try discriminate M; cbn [ew bw fw]; lia.
Qed.
(* what was taken, with the token that opens the collection entered last *)
Lemma event_nesting es p : history input es p -> exists u r, input = u ++ r /\ accepted u /\ (nesting u <= event_depth (map e_ev es) <= 2 * nesting u)%Z.
Proof.
  intros H. destruct (history_inv es p H) as (u & [I1 I2 I3 I4 I5 I6 I7 I8]). pose proof (ews_bound _ I6) as B.
  destruct (first (p_state p)) eqn:F.
  - destruct (I8 eq_refl) as (x & r & E & Fo & D). exists (u ++ [x]), r. split; [rewrite <- app_assoc; cbn; rewrite <- E; exact I1|].
    split; [apply accepted_app; [exact I2|intros y [<- |[]] _; exact D]|]. unfold nesting. rewrite block_app, flow_app, I3, I4, I5.
    change (block_from ?b [x]) with (block_after b x). change (flow_from ?b [x]) with (flow_after b x). unfold block_after, flow_after.
    destruct (p_state p); try discriminate F; destruct (t_tok x); try discriminate Fo; cbn [ew bw fw]; lia.
  - exists u, (p_in p). split; [exact I1|]. split; [exact I2|]. unfold nesting. rewrite I3, I4, I5.
    destruct (p_state p); try discriminate F; cbn [ew bw fw] in *; try lia.
    destruct (I7 eq_refl) as (m & r' & E & M). rewrite E in *. destruct I6 as (_ & N2 & _). pose proof (ews_bound _ N2). rewrite ews_cons, bws_cons, fws_cons in *.
    destruct m; try discriminate M; cbn [ew bw fw] in *; lia.
Qed.
Lemma limit_error n : forall u es p l er, inv u es (p_state p) p -> parse_all n p = (l, Failed (Some er)) -> pe_problem er = MaxNesting ->
  exists x, In x input /\ opens x = true /\ t_deep x = true.
Proof.
  induction n as [|n IH]; intros u es p l er I; cbn [parse_all]; [discriminate|]. pose proof (parse_good _ _ _ I) as K.
  destruct (parse p) as [e p'|p'|p'|]; try discriminate.
  - destruct (parse_all n p') as [l' o] eqn:E. intros [= <- ->] H. destruct K as (u' & K). eapply IH; eauto.
  - intros [= <- H1] H2. exact (K er H1 H2).
Qed.
End P.

Lemma all_scans n : forall s l o, scan_all n s = (l, o) -> exists s', scans s l s'.
Proof.
  induction n as [|n IH]; intros s l o; cbn [scan_all]; [intros [= <- _]; eexists; constructor|]. destruct (scan s) as [t s1|s1|s1| |] eqn:E; try (intros [= <- _]; eexists; constructor).
  - destruct (scan_all n s1) as [l1 o1] eqn:R. intros [= <- _]. destruct (IH _ _ _ R) as (s' & H). exists s'. econstructor; eauto.
Qed.
Lemma depth_bounded e nest text bad plan calls l o es p : scan_all calls (init_scanner e nest text bad plan) = (l, o) -> history l es p ->
  (event_depth (map e_ev es) <= 2 * Z.max 0 (nest + 1024))%Z.
Proof.
  intros S H. apply all_scans in S as (s & S). destruct (event_nesting l es p H) as (u & r & -> & A & D). apply scans_split in S as (s1 & S & _).
  destruct (bounded e nest text bad plan u s1 S A) as [_ B]. lia.
Qed.
Lemma limit_deep e nest text bad plan calls l n es er : scan_all calls (init_scanner e nest text bad plan) = (l, ScannerSpec.Ended) ->
  parse_all n (init_parser l) = (es, Failed (Some er)) -> pe_problem er = MaxNesting -> reaches nest l.
Proof.
  intros S P M. destruct (limit_error l n [] [] (init_parser l) es er (init_inv l) P M) as (x & I & _ & D). eapply refused_deep; eauto.
Qed.
