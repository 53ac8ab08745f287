(* Proofs for C61: the documents of a text that follows an end marker. *)
From Verif Require Import Base ReaderModel Utf8Spec CharSpec Types TreeSpec DocModel ParserModel ParserSpec ParserInv ParserFinal LoaderModel LoaderSpec ScannerModel ScannerSpec PlanFree MarkMap SplitSpec SplitParse SplitFlow SplitEvents.

Lemma feeds_one p e es q : feeds p (e :: es) q -> exists p', parse p = PEvent e p' /\ feeds p' es q.
Proof. intros H. inversion H; subst. eauto. Qed.
Lemma feeds_none p q : feeds p [] q -> q = p.
Proof. intros H. inversion H; subst. reflexivity. Qed.
(* what yaml_parser_load returns depends on the events that it reads *)
Lemma nodes_feed n : forall p s v tg i d l,
  load_nodes n p s (fun p' s end_implicit => LDocument (mkDoc (l_nodes s) v tg i end_implicit) (mkLoader p' true)) = LDocument d l ->
  ld_started l = true /\ exists es, Forall (fun e => e_ev e <> EStreamEnd) es /\ feeds p es (ld_parser l) /\
  forall q q', feeds q es q' -> load_nodes n q s (fun p' s end_implicit => LDocument (mkDoc (l_nodes s) v tg i end_implicit) (mkLoader p' true)) = LDocument d (mkLoader q' true).
Proof.
  induction n as [|n IH]; intros p s v tg i d l E; [discriminate|]. cbn [load_nodes] in E. destruct (parse p) as [e p'|p'|p'|] eqn:Ep; try discriminate.
  assert (Rec : forall s', load_event s e = LNext s' -> (forall im, e_ev e <> EDocEnd im) -> load_nodes n p' s' (fun p' s end_implicit => LDocument (mkDoc (l_nodes s) v tg i end_implicit) (mkLoader p' true)) = LDocument d l ->
    ld_started l = true /\ exists es, Forall (fun e => e_ev e <> EStreamEnd) es /\ feeds p es (ld_parser l) /\ forall q q', feeds q es q' -> load_nodes (S n) q s (fun p' s end_implicit => LDocument (mkDoc (l_nodes s) v tg i end_implicit) (mkLoader p' true)) = LDocument d (mkLoader q' true)).
  { intros s' L Ne R. destruct (IH _ _ _ _ _ _ _ R) as (St & es & Fa & F & G). split; [exact St|]. exists (e :: es). split; [constructor; [intros Q; unfold load_event in L; rewrite Q in L; discriminate|exact Fa]|]. split; [econstructor; eauto|].
    intros q q' H. destruct (feeds_one _ _ _ _ H) as (q1 & H2 & H4). cbn [load_nodes]. rewrite H2, L, (G _ _ H4). destruct (e_ev e); try reflexivity. exfalso. eapply Ne. reflexivity. }
  destruct (e_ev e) eqn:Ee; try (destruct (load_event s e) as [s'|er| |] eqn:L; try discriminate; exact (Rec s' eq_refl (fun im Q => ltac:(discriminate Q)) E)).
  injection E as <- <-. split; [reflexivity|]. exists [e]. split; [constructor; [rewrite Ee; discriminate|constructor]|]. split; [econstructor; [exact Ep|constructor]|]. intros q q' H. destruct (feeds_one _ _ _ _ H) as (q1 & H2 & H4). apply feeds_none in H4. subst q1. cbn [load_nodes]. rewrite H2, Ee. reflexivity.
Qed.
Lemma not_ended p e q : parse p = PEvent e q -> p_end p = false.
Proof. unfold parse. destruct (p_end p); [discriminate|reflexivity]. Qed.
Lemma next_feed n p d l : load_next n p = LDocument d l ->
  ld_started l = true /\ exists es, Forall (fun e => e_ev e <> EStreamEnd) es /\ es <> [] /\ feeds p es (ld_parser l) /\ forall q q', feeds q es q' -> load_next n q = LDocument d (mkLoader q' true).
Proof.
  unfold load_next. destruct (p_end p) eqn:En; [discriminate|]. destruct (parse p) as [e p'|p'|p'|] eqn:Ep; try discriminate.
  unfold load_document. destruct (e_ev e) eqn:Ee; try discriminate. intros E. destruct (nodes_feed _ _ _ _ _ _ _ _ E) as (St & es & Fa & F & G). split; [exact St|].
  exists (e :: es). split; [constructor; [rewrite Ee; discriminate|exact Fa]|]. split; [discriminate|]. split; [econstructor; eauto|]. intros q q' H. destruct (feeds_one _ _ _ _ H) as (q1 & H2 & H4). rewrite (not_ended _ _ _ H2), H2, Ee. apply G. assumption.
Qed.
Lemma load_feed n l d l' : load n l = LDocument d l' ->
  ld_started l' = true /\ exists es, Forall (fun e => e_ev e <> EStreamEnd) es /\ es <> [] /\ feeds (ld_parser l) es (ld_parser l') /\ forall q q', feeds q es q' -> load n (mkLoader q (ld_started l)) = LDocument d (mkLoader q' true).
Proof.
  unfold load. cbv zeta. destruct (ld_started l) eqn:Es.
  - intros E. destruct (next_feed _ _ _ _ E) as (St & es & Fa & N & F & G). split; [exact St|]. exists es. split; [exact Fa|]. split; [exact N|]. split; [exact F|]. intros q q' H. cbn [ld_started ld_parser]. apply G. exact H.
  - destruct (parse (ld_parser l)) as [e p'|p'|p'|] eqn:Ep; try discriminate. destruct (e_ev e) eqn:Ee; try discriminate. intros E. destruct (next_feed _ _ _ _ E) as (St & es & Fa & N & F & G). split; [exact St|].
    exists (e :: es). split; [constructor; [rewrite Ee; discriminate|exact Fa]|]. split; [discriminate|]. split; [econstructor; eauto|]. intros q q' H. destruct (feeds_one _ _ _ _ H) as (q1 & H2 & H4). cbn [ld_started ld_parser]. rewrite H2, Ee. apply G. assumption.
Qed.
Lemma loads_feed n input ds l : load_history n input ds l ->
  (ds = [] /\ l = init_loader input \/ ds <> [] /\ ld_started l = true) /\ exists es, Forall (fun e => e_ev e <> EStreamEnd) es /\ feeds (init_parser input) es (ld_parser l) /\
  forall input2 q, feeds (init_parser input2) es q -> load_history n input2 ds (mkLoader q (ld_started l)).
Proof.
  induction 1 as [|ds l d l' H (St & es & Fa & F & G) E].
  - split; [left; split; reflexivity|]. exists []. split; [constructor|]. split; [constructor|]. intros input2 q Q. apply feeds_none in Q. subst. constructor.
  - destruct (load_feed _ _ _ _ E) as (St' & es' & Fa' & N & F' & G'). split; [right; split; [destruct ds; discriminate|exact St']|].
    exists (es ++ es'). split; [apply Forall_app; auto|]. split; [eapply feeds_app; eauto|].
    intros input2 q Q. destruct (feeds_inv _ _ _ _ Q) as (q1 & Q1 & Q2). rewrite St'. econstructor; [exact (G _ _ Q1)|]. apply G'. exact Q2.
Qed.

(* complete runs are unique *)
Lemma complete_unique p a q b q' : feeds p a q -> parse q = PNothing q -> feeds p b q' -> parse q' = PNothing q' -> a = b.
Proof.
  intros F. revert b. induction F as [p|p e0 p' es q E H IH]; intros b P F' P'; inversion F' as [p0|p0 e1 p1 es1 q1 E1 H1]; subst; try congruence.
  rewrite E in E1. injection E1 as <- <-. f_equal. eapply IH; eassumption.
Qed.
Lemma end_stops input es q e x : feeds (init_parser input) es q -> parse q = PEvent e x -> e_ev e = EStreamEnd -> parse x = PNothing x.
Proof.
  intros F E V. destruct (history_flow _ _ _ (feeds_history _ _ _ F)) as [S|(W & _)]; [rewrite (ended_nothing _ S) in E; discriminate|].
  pose proof (step_cases q W) as SC. rewrite E in SC. cbn in SC. destruct SC as (TR & E1 & E2). rewrite V in TR.
  destruct (ParserProofs.wf_step _ _ _ W TR E1 E2) as [[_ Q]|[_ S]]; [congruence|]. exact (ended_nothing _ S).
Qed.
Lemma end_reached n input ds l l' : load_history n input ds l -> load n l = LNoDocument l' ->
  exists es e, Forall (fun e => e_ev e <> EStreamEnd) es /\ e_ev e = EStreamEnd /\ (exists x, feeds (init_parser input) (es ++ [e]) x /\ parse x = PNothing x) /\
    ((ds = [] /\ exists s enc, es = [s] /\ e_ev s = EStreamStart enc) \/
     (ld_started l = true /\ feeds (init_parser input) es (ld_parser l) /\ forall input2 q, feeds (init_parser input2) es q -> load_history n input2 ds (mkLoader q true))).
Proof.
  intros H E. destruct (loads_feed _ _ _ _ H) as (D & es & Fa & F & G).
  assert (Nx : forall es q, Forall (fun e => e_ev e <> EStreamEnd) es -> feeds (init_parser input) es q -> load_next n q = LNoDocument l' -> exists e, e_ev e = EStreamEnd /\ exists x, feeds (init_parser input) (es ++ [e]) x /\ parse x = PNothing x).
  { clear - H. intros es q Fa F E. destruct (history_flow _ _ _ (feeds_history _ _ _ F)) as [S|(W & _)].
    - exfalso. destruct es as [|e0 es0] using rev_ind; [apply feeds_none in F; subst; discriminate|]. apply Forall_app in Fa as [_ Fa]. inversion Fa as [|? ? Ne _]; subst. clear IHes0.
      destruct (feeds_inv _ _ _ _ F) as (q0 & F0 & F1). destruct (feeds_one _ _ _ _ F1) as (q1 & E1 & F2). apply feeds_none in F2. subst q1.
      destruct (history_flow _ _ _ (feeds_history _ _ _ F0)) as [S0|(W0 & _)]; [rewrite (ended_nothing _ S0) in E1; discriminate|].
      pose proof (step_cases q0 W0) as SC. rewrite E1 in SC. cbn in SC. destruct SC as (TR & Er & En).
      destruct (ParserProofs.wf_step _ _ _ W0 TR Er En) as [[W _]|[Q _]]; [|contradiction]. destruct W as (_ & _ & W). unfold wf_state in W. rewrite S in W. contradiction.
    - unfold load_next in E. rewrite (proj1 (proj2 W)) in E. destruct (parse q) as [e p'|p'|p'|] eqn:Ep; try discriminate.
      assert (V : e_ev e = EStreamEnd).
      { assert (Ld : forall m p s v tg i l1, load_nodes m p s (fun p' s end_implicit => LDocument (mkDoc (l_nodes s) v tg i end_implicit) (mkLoader p' true)) <> LNoDocument l1).
        { clear. induction m as [|m IH]; intros; [discriminate|]. cbn [load_nodes]. destruct (parse p) as [e2 q2|q2|q2|]; try discriminate. destruct (e_ev e2); try discriminate; destruct (load_event s e2); try discriminate; apply IH. }
        unfold load_document in E. destruct (e_ev e); try discriminate; [reflexivity|]. exfalso. exact (Ld _ _ _ _ _ _ _ E). }
      exists e. split; [exact V|]. exists p'. split; [eapply feeds_app; [exact F|]; econstructor; [exact Ep|constructor]|]. eapply end_stops; eassumption. }
  destruct D as [(-> & ->)|(Nd & St)].
  - unfold load in E. cbn [init_loader ld_started ld_parser] in E. destruct (parse (init_parser input)) as [s p'|p'|p'|] eqn:Ep; try discriminate. destruct (e_ev s) eqn:Es; try discriminate.
    assert (F1 : feeds (init_parser input) [s] p') by (econstructor; [exact Ep|constructor]). assert (Fs : Forall (fun e => e_ev e <> EStreamEnd) [s]) by (constructor; [rewrite Es; discriminate|constructor]).
    destruct (Nx [s] p' Fs F1 E) as (se & V & X). exists [s], se. split; [exact Fs|]. split; [exact V|]. split; [exact X|]. left. split; [reflexivity|]. eauto.
  - unfold load in E. rewrite St in E. destruct (Nx es _ Fa F E) as (se & V & X). exists es, se. split; [exact Fa|]. split; [exact V|]. split; [exact X|]. right. split; [exact St|]. split; [exact F|]. intros input2 q Q. rewrite St in G. apply G. exact Q.
Qed.

Lemma empty_tokens e nest p : exists s t, all_tokens e nest [] p = [s; t] /\ t_tok t = TStreamEnd.
Proof.
  unfold all_tokens. rewrite (scan_plan_free e nest [] p [] _). vm_compute. do 2 eexists. split; reflexivity.
Qed.

(* the first document of [X] alone and behind the marker *)
Definition lsame (o o' : lout) : Prop :=
  o = o' \/ match o, o' with LFailed l, LFailed l' => p_error (ld_parser l) = p_error (ld_parser l') | _, _ => False end.
Lemma first_same n t0 l0 e : t_tok t0 = TStreamStart e -> ~ begins_bare (fst (parse_all 2 (init_parser (t0 :: l0)))) ->
  lsame (load n (init_loader (t0 :: l0))) (load n (mkLoader (at_start PS_DocStart l0) true)).
Proof.
  intros Et Nb. assert (P0 : parse (init_parser (t0 :: l0)) = PEvent (mkEvent (EStreamStart e) (t_start t0) (t_start t0)) (at_start PS_ImplicitDocStart l0)).
  { cbn. unfold parse_stream_start, ParserModel.peek. cbn. rewrite Et. reflexivity. }
  cbn [parse_all] in Nb. rewrite P0 in Nb. unfold load. cbn [init_loader ld_started ld_parser]. rewrite P0. cbn [e_ev]. unfold load_next. cbn [at_start p_end].
  destruct (start_same l0) as [(v & q' & vs & ds & Q & Qv)|S].
  - exfalso. apply Nb. rewrite Q. cbn [fst]. repeat eexists. exact Qv.
  - fold (at_start PS_DocStart l0). fold (at_start PS_ImplicitDocStart l0).
    destruct (parse (at_start PS_ImplicitDocStart l0)) as [v q'|q'|q'|], (parse (at_start PS_DocStart l0)) as [v2 q2|q2|q2|]; try contradiction.
    + destruct S as [-> ->]. left. reflexivity.
    + right. exact S.
Qed.
Lemma load_ending n l x : match load n l, x with LNoDocument _, AtEnd => True | LFailed l', WithError e => p_error (ld_parser l') = e | _, _ => False end ->
  forall l2, lsame (load n l) (load n l2) -> match load n l2, x with LNoDocument _, AtEnd => True | LFailed l', WithError e => p_error (ld_parser l') = e | _, _ => False end.
Proof. intros H l2 [<-|S]; [exact H|]. destruct (load n l), (load n l2); try contradiction. destruct x; try contradiction. congruence. Qed.
Lemma moved_ending f n l di dl x : f = move_mark di dl -> match load n l, x with LNoDocument _, AtEnd => True | LFailed l', WithError e => p_error (ld_parser l') = e | _, _ => False end ->
  match load n (mloader f l), move_ending di dl x with LNoDocument _, AtEnd => True | LFailed l', WithError e => p_error (ld_parser l') = e | _, _ => False end.
Proof. intros -> H. rewrite m_load. destruct (load n l), x; try contradiction; cbn; [exact I|]. rewrite H. reflexivity. Qed.
Theorem split_documents e nest A X p1 p2 p3 m1 es dd rs o fuel ds ds' x :
  parse_all m1 (init_parser (all_tokens e nest (A ++ doc_end_line) p1)) = (es ++ dd :: rs, o) ->
  e_ev dd = EDocEnd false -> m_index (e_start dd) = N.of_nat (length A) ->
  loads_to fuel (all_tokens e nest (A ++ doc_end_line) p1) ds AtEnd ->
  ~ begins_bare (fst (parse_all 2 (init_parser (all_tokens e nest X p2)))) ->
  loads_to fuel (all_tokens e nest X p2) ds' x ->
  loads_to fuel (all_tokens e nest (A ++ doc_end_line ++ X) p3) (ds ++ ds') (move_ending (N.of_nat (length A) + 4) (m_line (e_start dd) + 1) x).
Proof.
  intros E V Id Ld Nb Lx. replace (es ++ dd :: rs) with ((es ++ [dd]) ++ rs) in E by (rewrite <- app_assoc; reflexivity). destruct (parse_all_feeds _ _ _ _ _ E) as [q F].
  destruct (marker_fed _ _ _ _ F V) as (l1 & d & r & Ei & Td & Fl & Ed & Eq & G). rewrite Ed in Id |- *. cbn [e_start] in Id |- *.
  (* behind the marker there is only the end of the stream *)
  pose proof (split_tokens e nest A [] p1 p2 p1 l1 d r Ei Td Id Fl) as Er. cbv zeta in Er. rewrite app_nil_r in Er. rewrite Ei in Er. apply app_inv_head in Er. injection Er as Er.
  destruct (empty_tokens e nest p2) as (s0 & t1 & Es & Ts). rewrite Es in Er. cbn [tl map] in Er.
  destruct Ld as (l & H & Hl). destruct (load fuel l) as [| l'| | | |] eqn:El; try contradiction.
  destruct (end_reached _ _ _ _ _ H El) as (es' & se & Fa & Vs & (y & Fy & Py) & D).
  assert (Full : exists se2 y2, e_ev se2 = EStreamEnd /\ feeds (init_parser (all_tokens e nest (A ++ doc_end_line) p1)) ((es ++ [dd]) ++ [se2]) y2 /\ parse y2 = PNothing y2).
  { assert (Pq : exists se2 y2, e_ev se2 = EStreamEnd /\ parse q = PEvent se2 y2).
    { rewrite Eq, Er. cbn. unfold parse_document_start, ParserModel.peek. cbn. rewrite Ts. cbn. rewrite Ts. do 2 eexists. split; [|reflexivity]. reflexivity. }
    destruct Pq as (se2 & y2 & V2 & P2). exists se2, y2. split; [exact V2|]. split; [eapply feeds_app; [exact F|]; econstructor; [exact P2|constructor]|]. exact (end_stops _ _ _ _ _ F P2 V2). }
  destruct Full as (se2 & y2 & V2 & F2 & P2). pose proof (complete_unique _ _ _ _ _ Fy Py F2 P2) as U. apply app_inj_tail in U as [U _]. subst es'.
  destruct D as [(-> & s & enc & U & Vs')|(St & Fl' & G')].
  { destruct es as [|e0 es]; [injection U as ->; congruence|]. injection U as _ U. destruct es; discriminate. }
  rewrite (split_tokens e nest A X p1 p2 p3 l1 d r Ei Td Id Fl). rewrite move_tokens. set (f := move_mark _ _).
  destruct (all_tokens_start e nest X p2) as (t0 & l0 & E0 & Et). rewrite E0 in *. cbn [tl].
  pose proof (G' _ _ (G (map (mtoken f) l0))) as H2. change (mkLoader (mkParser (map (mtoken f) l0) false None PS_DocStart [] [] []) true) with (mloader f (mkLoader (at_start PS_DocStart l0) true)) in H2.
  pose proof (first_same fuel t0 l0 e Et Nb) as Fs. destruct Lx as (lx & Hx & Ex).
  assert (K : forall ds' lx, load_history fuel (t0 :: l0) ds' lx -> (ds' = [] /\ lx = init_loader (t0 :: l0)) \/ load_history fuel (l1 ++ d :: map (mtoken f) l0) (ds ++ ds') (mloader f lx)).
  { clear - H2 Fs. induction 1 as [|ds' l c l' H IH E]; [left; split; reflexivity|]. right. rewrite app_assoc. destruct IH as [(-> & ->)|IH].
    - rewrite app_nil_r. econstructor; [exact H2|]. rewrite m_load. destruct Fs as [Fs|Fs]; [rewrite <- Fs, E; reflexivity|]. rewrite E in Fs. contradiction.
    - econstructor; [exact IH|]. rewrite m_load, E. reflexivity. }
  destruct (K _ _ Hx) as [(-> & ->)|Hy].
  - exists (mloader f (mkLoader (at_start PS_DocStart l0) true)). rewrite app_nil_r. split; [exact H2|]. apply moved_ending; [reflexivity|]. eapply load_ending; eassumption.
  - exists (mloader f lx). split; [exact Hy|]. apply moved_ending; [reflexivity|exact Ex].
Qed.
