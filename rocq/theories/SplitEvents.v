(* Proofs for C61: the events of a text that follows an end marker. *)
From Verif Require Import Base ReaderModel Utf8Spec CharSpec Types TreeSpec DocModel ParserModel ParserSpec ParserInv ParserFinal LoaderModel LoaderSpec CursorModel ScanModel ScannerModel ScannerSpec ScannerFinal PlanFree MarkMap SplitSpec SplitRun SplitParse SplitFlow.

(* ---- all tokens ---- *)
Lemma scan_all_more n : forall m s l o, scan_all n s = (l, o) -> o <> Unfinished -> scan_all (n + m) s = (l, o).
Proof.
  induction n as [|n IH]; intros m s l o E F; cbn in E; [injection E as <- <-; congruence|]. cbn. destruct (scan s); try exact E.
  destruct (scan_all n s0) as [l0 o0] eqn:E0. injection E as <- <-. rewrite (IH m _ _ _ E0 F). reflexivity.
Qed.
Lemma all_tokens_more e nest T p n : (4 * length T + 4 <= n)%nat -> fst (scan_all n (init_scanner e nest T false p)) = all_tokens e nest T p.
Proof.
  intros L. unfold all_tokens. destruct (scan_all_ends e nest T false p) as (l & o & E & D). rewrite E.
  replace n with (4 * length T + 4 + (n - (4 * length T + 4)))%nat by lia. rewrite (scan_all_more _ _ _ _ _ E); [reflexivity|]. destruct D as [-> |(er & ->)]; discriminate.
Qed.
Lemma all_tokens_start e nest T p : exists t l, all_tokens e nest T p = t :: l /\ t_tok t = TStreamStart e.
Proof.
  unfold all_tokens. replace (4 * length T + 4)%nat with (S (4 * length T + 3)) by lia. cbn [scan_all].
  pose proof (scan_full (init_scanner e nest T false p) (init_wfc _ _ _ _)) as F. 
  assert (Fe : scan (fulls (init_scanner e nest T false p)) = ScanToken (mkToken (TStreamStart e) mark0 mark0 (negb (0 <? nest - 0)%Z)) (began e nest T)) by apply scan_start.
  pose proof (scan_safe _ _ _ _ _ _ (calls_nil (init_scanner e nest T false p))) as A1. pose proof (scan_returns _ _ _ _ _ _ (calls_nil (init_scanner e nest T false p))) as A2.
  destruct (scan (init_scanner e nest T false p)) as [b u|u|u| |] eqn:Eb; try contradiction; destruct F as [F Wu]; rewrite Fe in F; try discriminate.
  assert (Eu : b = mkToken (TStreamStart e) mark0 mark0 (negb (0 <? nest - 0)%Z)) by (exact (eq_sym (f_equal (fun r => match r with ScanToken x _ => x | _ => b end) F))).
  destruct (scan_all (4 * length T + 3) u) as [l o]. exists b, l. split; [reflexivity|]. rewrite Eu. reflexivity.
Qed.
Lemma split_tokens e nest A X p1 p2 p3 l1 d r :
  all_tokens e nest (A ++ doc_end_line) p1 = l1 ++ d :: r ->
  t_tok d = TDocEnd -> m_index (t_start d) = N.of_nat (length A) -> flow_depth l1 = 0 ->
  let di := N.of_nat (length A) + 4 in let dl := m_line (t_start d) + 1 in
  all_tokens e nest (A ++ doc_end_line ++ X) p3 = l1 ++ d :: map (move_token di dl) (tl (all_tokens e nest X p2)).
Proof.
  intros E Td Id Fl di dl. unfold all_tokens in E. destruct (scan_all _ (init_scanner e nest (A ++ doc_end_line) false p1)) as [l o] eqn:E1. cbn [fst] in E. subst l.
  set (n2 := (4 * length (A ++ doc_end_line ++ X) + 4)%nat).
  rewrite <- (all_tokens_more e nest (A ++ doc_end_line ++ X) p3 (length l1 + 1 + n2)) by (unfold n2; lia).
  rewrite <- (all_tokens_more e nest X p2 (S n2)) by (unfold n2; rewrite !app_length; lia).
  rewrite (split_scan e nest A X _ n2 p1 p2 p3 l1 d r o E1 Td Id Fl). reflexivity.
Qed.

(* ---- runs of the parser ---- *)
Inductive feeds : parser -> list event -> parser -> Prop :=
| F_nil p : feeds p [] p
| F_cons p e p' es q : parse p = PEvent e p' -> feeds p' es q -> feeds p (e :: es) q.
Lemma feeds_app p a q b r : feeds p a q -> feeds q b r -> feeds p (a ++ b) r.
Proof. induction 1; cbn; [auto|]. intros. econstructor; eauto. Qed.
Lemma feeds_inv p a b r : feeds p (a ++ b) r -> exists q, feeds p a q /\ feeds q b r.
Proof. revert p. induction a as [|e a IH]; intros p H; [exists p; split; [constructor|exact H]|]. inversion H; subst. destruct (IH _ H5) as (q & A & B). exists q. split; [econstructor; eauto|exact B]. Qed.
Lemma feeds_fun p a q : feeds p a q -> forall q', feeds p a q' -> q' = q.
Proof. induction 1 as [p|p e p' es q E H IH]; intros q' H'; inversion H'; subst; [reflexivity|]. rewrite E in H3. injection H3 as <-. apply IH. assumption. Qed.
Lemma history_feeds input es p : history input es p -> feeds (init_parser input) es p.
Proof. induction 1 as [|es p e p' H IH E]; [constructor|]. eapply feeds_app; [exact IH|]. econstructor; [exact E|constructor]. Qed.
Lemma feeds_history input es q : feeds (init_parser input) es q -> history input es q.
Proof.
  assert (K : forall p es q, feeds p es q -> forall es0, history input es0 p -> history input (es0 ++ es) q).
  { induction 1 as [p|p e p' es0 q0 E H IH]; intros l0 H0; [rewrite app_nil_r; exact H0|]. replace (l0 ++ e :: es0) with ((l0 ++ [e]) ++ es0) by (rewrite <- app_assoc; reflexivity). apply IH. econstructor; eauto. }
  intros H. exact (K _ _ _ H [] (H_start input)).
Qed.
Lemma parse_all_feeds n : forall p es rs o, parse_all n p = (es ++ rs, o) -> exists q, feeds p es q.
Proof.
  induction n as [|n IH]; intros p es rs o E; cbn in E.
  - injection E as E _. destruct es; [|discriminate]. exists p. constructor.
  - destruct es as [|e es]; [exists p; constructor|]. destruct (parse p) as [e' p'|p'|p'|] eqn:Ep; try discriminate. destruct (parse_all n p') as [l o'] eqn:E2. injection E as -> -> ->. destruct (IH _ _ _ _ E2) as [q Q]. exists q. econstructor; eauto.
Qed.
Lemma feeds_parse_all p es q m : feeds p es q -> parse_all (length es + m) p = (es ++ fst (parse_all m q), snd (parse_all m q)).
Proof. induction 1 as [p|p e p' es q E H IH]; [cbn; destruct (parse_all m p); reflexivity|]. cbn [length Nat.add parse_all]. rewrite E, IH. reflexivity. Qed.

(* the tokens behind the marker may be replaced *)
Lemma feeds_part p es q : feeds p es q -> part_of (p_in p) (p_in q).
Proof.
  induction 1 as [p|p e p' es q E H (b & IH)]; [exists []; reflexivity|]. destruct (parse_part p e p' (p_in p) (ex_intro _ [] eq_refl) E) as (a & Ea). exists (a ++ b). rewrite Ea, IH, app_assoc. reflexivity.
Qed.
Lemma feeds_near r r' p es q : feeds p es q -> (length r < length (p_in q))%nat -> forall p2, near r r' p p2 -> exists q2, near r r' q q2 /\ feeds p2 es q2.
Proof.
  induction 1 as [p|p e p' es q E H IH]; intros L p2 N; [exists p2; split; [exact N|constructor]|].
  pose proof (loc_parse r r' p p2 N) as K. rewrite E in K. unfold loc in K. destruct p' as [i en er st ss ms tg].
  assert (Li : (length r < length i)%nat). { destruct (feeds_part _ _ _ H) as (a & Ea). cbn [p_in] in Ea. rewrite Ea, app_length. lia. }
  destruct (K Li) as (a & Ea & E2). destruct (IH L (mkParser (a ++ r') en er st ss ms tg)) as (q2 & N2 & F2); [exists a; auto|]. exists q2. split; [exact N2|]. econstructor; eauto.
Qed.
(* up to and with the DOCUMENT-END event *)
Lemma marker_fed input es dd q : feeds (init_parser input) (es ++ [dd]) q -> e_ev dd = EDocEnd false ->
  exists l1 d r, input = l1 ++ d :: r /\ t_tok d = TDocEnd /\ flow_depth l1 = 0 /\ dd = mkEvent (EDocEnd false) (t_start d) (t_end d) /\
    q = mkParser r false None PS_DocStart [] [] [] /\
    forall r', feeds (init_parser (l1 ++ d :: r')) (es ++ [dd]) (mkParser r' false None PS_DocStart [] [] []).
Proof.
  intros F V. destruct (feeds_inv _ _ _ _ F) as (p & F1 & F2). inversion F2; subst. inversion H4; subst.
  destruct (doc_end_token input es p dd q (feeds_history _ _ _ F1) H2 V) as (l1 & d & r & Ei & Td & Fl & Ed & Ep & Eq).
  exists l1, d, r. repeat (split; [assumption|]). intros r'.
  assert (Nn : near r r' (init_parser input) (init_parser (l1 ++ d :: r'))).
  { exists (l1 ++ [d]). rewrite <- !app_assoc. split; [exact Ei|reflexivity]. }
  assert (L : (length r < length (p_in p))%nat) by (rewrite Ep; cbn; lia).
  destruct (feeds_near r r' _ _ _ F1 L _ Nn) as (q2 & N2 & G). eapply feeds_app; [exact G|]. rewrite Ep in N2. destruct N2 as (a & Ea & ->).
  assert (a = [d]) as -> by (change (d :: r) with ([d] ++ r) in Ea; apply app_inv_tail in Ea; symmetry; exact Ea).
  econstructor; [|constructor]. cbn. unfold parse_document_end, peek. cbn. rewrite Td. rewrite Ed. reflexivity.
Qed.

(* ---- the start of a document ---- *)
Definition at_start (s : pstate) (l : list token) : parser := mkParser l false None s [] [] [].
Lemma loop_state s l : forall v d p, directive_loop l v d (set_state p s) = match directive_loop l v d p with DirsOk v d q => DirsOk v d (set_state q s) | DirsFail q => DirsFail (set_state q s) end.
Proof.
  induction l as [|x l IH]; intros v d p; [reflexivity|]. cbn [directive_loop]. change (p_in (set_state p s)) with (p_in p). destruct (p_in p) as [|t r] eqn:Ep; [reflexivity|].
  assert (Sk : forall q, p_in q = t :: r -> ParserModel.skip (set_state q s) = set_state (ParserModel.skip q) s) by (intros q Q; unfold ParserModel.skip; change (p_in (set_state q s)) with (p_in q); rewrite Q; reflexivity).
  destruct (t_tok t); try reflexivity.
  - destruct v; [reflexivity|]. destruct (_ || _); [reflexivity|]. rewrite Sk by exact Ep. apply IH.
  - change (p_tags (set_state p s)) with (p_tags p). destruct (append_tag_directive _ _ _); [|reflexivity]. change (set_tags (set_state p s) l0) with (set_state (set_tags p l0) s). rewrite Sk by exact Ep. apply IH.
Qed.
Definition same_start (o o' : pout) : Prop :=
  match o, o' with
  | PEvent e p, PEvent e' p' => e = e' /\ p = p'
  | PFail p, PFail p' => p_error p = p_error p'
  | _, _ => False
  end.
(* either the document is bare, or the state at its start makes no difference *)
Lemma start_same l :
  (exists e p v ds, parse (at_start PS_ImplicitDocStart l) = PEvent e p /\ e_ev e = EDocStart v ds true) \/
  same_start (parse (at_start PS_ImplicitDocStart l)) (parse (at_start PS_DocStart l)).
Proof.
  destruct l as [|t l]; [right; reflexivity|].
  change (parse (at_start PS_ImplicitDocStart (t :: l))) with (parse_document_start (at_start PS_ImplicitDocStart (t :: l)) true).
  change (parse (at_start PS_DocStart (t :: l))) with (parse_document_start (at_start PS_DocStart (t :: l)) false).
  destruct (starts_explicit (t_tok t)) eqn:Es.
  - right. assert (Ns : ParserModel.is_stream_end (t_tok t) = false) by (destruct (t_tok t); try discriminate; reflexivity).
    assert (Ed : skip_doc_ends (t :: l) (at_start PS_DocStart (t :: l)) = at_start PS_DocStart (t :: l)) by (cbn; destruct (t_tok t); try reflexivity; discriminate).
    assert (E1 : forall s i, skip_doc_ends (t :: l) (at_start s (t :: l)) = at_start s (t :: l) -> parse_document_start (at_start s (t :: l)) i =
      match process_directives (at_start s (t :: l)) with
      | DirsFail p' => PFail p'
      | DirsOk ver dirs p' => ParserModel.peek p' (fun token2 => match t_tok token2 with TDocStart => ParserModel.ret (EDocStart ver dirs false) (t_start t) (t_end token2) (ParserModel.skip (set_state (push_state p' PS_DocEnd) PS_DocContent)) | _ => ParserModel.error p' NoDocStart (t_start token2) end)
      end).
    { intros s i Q. unfold parse_document_start. cbv zeta. change (p_in (at_start s (t :: l))) with (t :: l). rewrite Q. unfold ParserModel.peek at 1. cbn [at_start p_in]. destruct i; unfold ParserModel.peek; change (p_in (at_start s (t :: l))) with (t :: l); cbv iota; [rewrite Es|]; cbn [andb negb]; rewrite Ns; reflexivity. }
    rewrite (E1 PS_DocStart false Ed). rewrite (E1 PS_ImplicitDocStart true) by (cbn; destruct (t_tok t); try reflexivity; discriminate).
    unfold process_directives. change (at_start PS_DocStart (t :: l)) with (set_state (at_start PS_ImplicitDocStart (t :: l)) PS_DocStart). change (p_in (set_state (at_start PS_ImplicitDocStart (t :: l)) PS_DocStart)) with (t :: l). change (p_in (at_start PS_ImplicitDocStart (t :: l))) with (t :: l).
    rewrite loop_state. destruct (directive_loop (t :: l) None [] (at_start PS_ImplicitDocStart (t :: l))) as [v d q|q]; [|reflexivity].
    destruct q as [[|t2 r] en er st ss ms tg]; [reflexivity|]. cbn. destruct (t_tok t2); try reflexivity. split; reflexivity.
  - destruct (ParserModel.is_stream_end (t_tok t)) eqn:Ns.
    + right. assert (Et : t_tok t = TStreamEnd) by (destruct (t_tok t); try discriminate; reflexivity). unfold parse_document_start, ParserModel.peek. cbn. rewrite Et. cbn. rewrite Et. cbn. split; reflexivity.
    + left. unfold parse_document_start, ParserModel.peek. cbn [at_start p_in]. rewrite Es, Ns. cbn [andb negb]. unfold process_directives, at_start. cbn [p_in directive_loop]. destruct (t_tok t); try discriminate; (do 4 eexists; split; [reflexivity|reflexivity]).
Qed.
Lemma move_tokens di dl l : map (move_token di dl) l = map (mtoken (move_mark di dl)) l.
Proof. reflexivity. Qed.
Theorem split_events e nest A X p1 p2 p3 m1 m2 es dd rs o :
  parse_all m1 (init_parser (all_tokens e nest (A ++ doc_end_line) p1)) = (es ++ dd :: rs, o) ->
  e_ev dd = EDocEnd false -> m_index (e_start dd) = N.of_nat (length A) ->
  let alone := parse_all (S m2) (init_parser (all_tokens e nest X p2)) in
  ~ begins_bare (fst alone) ->
  let di := N.of_nat (length A) + 4 in let dl := m_line (e_start dd) + 1 in
  parse_all (length es + 1 + m2) (init_parser (all_tokens e nest (A ++ doc_end_line ++ X) p3)) =
  (es ++ dd :: map (move_event di dl) (tl (fst alone)), move_result di dl (snd alone)).
Proof.
  intros E V Id alone Nb di dl. replace (es ++ dd :: rs) with ((es ++ [dd]) ++ rs) in E by (rewrite <- app_assoc; reflexivity). destruct (parse_all_feeds _ _ _ _ _ E) as [q F].
  destruct (marker_fed _ _ _ _ F V) as (l1 & d & r & Ei & Td & Fl & Ed & _ & G). rewrite Ed in Id. cbn [e_start] in Id.
  rewrite (split_tokens e nest A X p1 p2 p3 l1 d r Ei Td Id Fl). rewrite move_tokens.
  replace (m_line (t_start d) + 1) with dl by (unfold dl; rewrite Ed; reflexivity). fold di. set (f := move_mark di dl).
  destruct (all_tokens_start e nest X p2) as (t0 & l0 & El & Et). unfold alone in *. rewrite El in *. cbn [tl].
  replace (length es + 1 + m2)%nat with (length (es ++ [dd]) + m2)%nat by (rewrite app_length; reflexivity).
  rewrite (feeds_parse_all _ _ _ m2 (G (map (mtoken f) l0))). rewrite <- app_assoc. cbn [app].
  cbn [parse_all] in *. assert (P0 : parse (init_parser (t0 :: l0)) = PEvent (mkEvent (EStreamStart e) (t_start t0) (t_start t0)) (at_start PS_ImplicitDocStart l0)).
  { cbn. unfold parse_stream_start, peek. cbn. rewrite Et. reflexivity. }
  rewrite P0 in *. change (mkParser (map (mtoken f) l0) false None PS_DocStart [] [] []) with (mparser f (at_start PS_DocStart l0)). rewrite m_parse_all.
  assert (K : parse_all m2 (at_start PS_DocStart l0) = parse_all m2 (at_start PS_ImplicitDocStart l0)).
  { destruct m2 as [|m2]; [reflexivity|]. cbn [parse_all] in *. destruct (start_same l0) as [(v & q' & vs & ds & Q & Qv)|S].
    - exfalso. apply Nb. rewrite Q. destruct (parse_all m2 q') as [l o']. cbn [fst]. repeat eexists. exact Qv.
    - destruct (parse (at_start PS_ImplicitDocStart l0)) as [v q'|q'|q'|], (parse (at_start PS_DocStart l0)) as [v2 q2|q2|q2|]; try contradiction.
      + destruct S as [-> ->]. reflexivity.
      + cbn in S. rewrite S. reflexivity. }
  rewrite K. destruct (parse_all m2 (at_start PS_ImplicitDocStart l0)) as [l o']. cbn [fst snd tl]. f_equal.
Qed.
