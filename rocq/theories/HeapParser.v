(* The model of parser.c with memory does what ParserModel.v says: the steps. *)
From Coq Require Import Permutation.
From Verif Require Import Base ReaderModel Types CursorModel ScanModel ParserModel DocModel HeapModel HeapSpec HeapLemmas HeapEvents HeapLoaderModel HeapLoader HeapTokenModel HeapTokenSpec HeapScan
  ScannerModel HeapLexModel HeapScanModel HeapScanSpec HeapScanSim HeapParserModel HeapParserSpec ScanRest.
Local Open Scope hm_scope.

(* states in which the next token is skipped without looking at it *)
Definition is_first (s : pstate) : bool :=
  match s with PS_BSeqFirst | PS_BMapFirst | PS_FSeqFirst | PS_FMapFirst => true | _ => false end.
Definition wf (p : hp) : Prop :=
  ywf (hp_scan p) /\ a_at (hp_states p) <> None /\ a_at (hp_marks p) <> None /\ a_at (hp_tags p) <> None /\
  Forall (fun s => is_first s = false) (a_els (hp_states p)) /\
  Forall (fun t => fst t <> None /\ snd t <> None) (a_els (hp_tags p)).
(* the token at the head of the queue *)
Definition cur (p : hp) (t : htoken) : Prop := s_avail (y_sc (hp_scan p)) = true /\
  exists t0 r, a_els (y_tokens (hp_scan p)) = t0 :: r /\ t = y_with_deep (hp_scan p) t0.
Definition first_ok (p : hp) : Prop := is_first (hp_state p) = true -> exists t, cur p t /\ token_blocks t = [] /\ is_hstream_end (ht_tok t) = false.
Definition started (p : hp) : bool := s_started (y_sc (hp_scan p)).
(* the scanner is in a state from which it can go on *)
Definition scan_ok (s : sc) : Prop := if s_avail s then peeked s else lively s.
Definition going (h : heap) (p : hp) : Prop := y_ended (hp_scan p) = false /\ scan_ok (y_at h (hp_scan p)).
Definition sound_hp (h : heap) (p : hp) : Prop := wf p /\ (hp_error p = None -> first_ok p) /\
  (hp_error p = None -> y_ended (hp_scan p) = false -> scan_ok (y_at h (hp_scan p))).

Definition presult (h : heap) (out : pout) (r : hp * option hevent) (g : list nat) (h' : heap) : Prop :=
  sound_hp h' (fst r) /\
  g = hp_blocks (fst r) ++ match snd r with Some x => ev_blocks (he_ev x) | None => [] end /\
  match snd r with
  | Some x => sound_event (he_ev x) /\
      match out with
      | PEvent e q => event_at h' (he_ev x) = Some (e_ev e) /\ he_start x = e_start e /\ he_end x = e_end e /\
          hp_at h' (fst r) = q /\ started (fst r) = true
      | PNothing q => he_ev x = HNoEvent /\ hp_at h' (fst r) = q
      | _ => False
      end
  | None => hp_error (fst r) <> None /\ ((exists q, out = PFail q /\ hp_at h' (fst r) = q) \/ ~ generous h)
  end.
Definition sim (m : hparsed) (h h0 : heap) (taken : list nat) (out : pout) : Prop :=
  (m h = HUndef /\ out = PUB) \/ ends (m h) h0 taken (presult h0 out).
Definition pre (st : bool) (h0 : heap) (taken : list nat) (h : heap) (p : hp) (extra : list nat) : Prop :=
  good h /\ ext h0 h /\ wf p /\ (st = true -> started p = true /\ going h p) /\
  holds h (hp_blocks p ++ extra) /\ changes h0 taken (hp_blocks p ++ extra) h.

Lemma hp_ext h h' p : good h -> ext h h' -> holds h (hp_blocks p) -> hp_at h' p = hp_at h p.
Proof.
  intros G X H. unfold hp_at, hp_blocks, y_blocks, tags_blocks in *. rewrite (y_at_ext h h' _ G X), (pairs_ext h h' _ G X); [reflexivity| |]; cn.
Qed.
Lemma scan_ext h h' p : good h -> ext h h' -> holds h (hp_blocks p) -> y_at h' (hp_scan p) = y_at h (hp_scan p).
Proof. intros G X H. unfold hp_blocks, y_blocks in H. apply y_at_ext; [exact G|exact X|]. cn. Qed.
Lemma going_ext h h' p : good h -> ext h h' -> holds h (hp_blocks p) -> going h p -> going h' p.
Proof. intros G X H. unfold going. rewrite (scan_ext h h' p G X H). auto. Qed.
Lemma pre_wf st h0 taken h p p' extra extra' : pre st h0 taken h p extra -> wf p' -> hp_scan p' = hp_scan p ->
  (forall b, cnt (hp_blocks p' ++ extra') b = cnt (hp_blocks p ++ extra) b) -> pre st h0 taken h p' extra'.
Proof.
  intros (G & X & W & St & H & C) W' S B. split; [exact G|]. split; [exact X|]. split; [exact W'|].
  split; [unfold started, going in *; rewrite S; exact St|]. split; intros b; rewrite B; auto.
Qed.
Lemma pre_false st h0 taken h p extra : pre st h0 taken h p extra -> pre false h0 taken h p extra.
Proof. intros (G & X & W & St & H & C). split; [exact G|]. split; [exact X|]. split; [exact W|]. split; [discriminate|]. split; assumption. Qed.
Lemma pre_extra st h0 taken h p extra extra' : pre st h0 taken h p extra -> (forall b, cnt extra' b = cnt extra b) -> pre st h0 taken h p extra'.
Proof.
  intros P B. eapply pre_wf; [exact P|apply P|reflexivity|]. intros b. rewrite !cnt_app, B. reflexivity.
Qed.
Lemma pre_state st h0 taken h p extra s : pre st h0 taken h p extra -> pre st h0 taken h (with_state p s) extra.
Proof. intros P. exact P. Qed.
Lemma pre_error st h0 taken h p extra e : pre st h0 taken h p extra -> pre st h0 taken h (with_error p e) extra.
Proof. intros P. exact P. Qed.
Lemma pre_holds st h0 taken h p extra : pre st h0 taken h p extra -> holds h extra.
Proof. intros (_ & _ & _ & _ & H & _). cn. Qed.
Lemma pre_good st h0 taken h p extra : pre st h0 taken h p extra -> good h. Proof. intros P. apply P. Qed.
Lemma pre_gen st h0 taken h p extra : pre st h0 taken h p extra -> generous h0 -> generous h. Proof. intros (_ & (_ & X) & _). exact X. Qed.

(* a call of the allocator in the middle *)
Lemma pre_call st h0 taken h p extra take give h' :
  pre st h0 taken h p (take ++ extra) -> good h' -> ext h h' -> changes h take give h' -> pre st h0 taken h' p (give ++ extra).
Proof.
  intros (G & X & W & St & H & C) G' X' C'. split; [exact G'|]. split; [eapply ext_trans; eassumption|]. split; [exact W|]. split.
  { intros E. destruct (St E) as [S1 S2]. split; [exact S1|]. eapply going_ext; [exact G|exact X'|clear - H; cn|exact S2]. }
  clear W St. split; cn.
Qed.

Lemma sim_bind {A} (m : hm A) (k : A -> hparsed) h h0 taken p extra st take Q out :
  pre st h0 taken h p (take ++ extra) -> does m h take Q ->
  (forall a g h', pre st h0 taken h' p (g ++ extra) -> ext h h' -> Q a g h' -> sim (k a) h' h0 taken out) ->
  sim (hbind m k) h h0 taken out.
Proof.
  intros P (a & g & h' & E & G & X & C & R) K. unfold sim. rewrite (bind_ok _ _ _ _ _ E). apply (K a g h'); [|exact X|exact R].
  eapply pre_call; eassumption.
Qed.
Lemma sim_ok {A} (m : hm A) (k : A -> hparsed) a h h0 taken out : m h = HOk a h -> sim (k a) h h0 taken out -> sim (hbind m k) h h0 taken out.
Proof. intros E K. unfold sim. rewrite (bind_ok _ _ _ _ _ E). exact K. Qed.
Lemma sim_undef m h h0 taken out : m h = HUndef -> out = PUB -> sim m h h0 taken out.
Proof. intros. left. auto. Qed.

Lemma sim_ret st h0 taken h p extra e x s m : st = true -> pre st h0 taken h p extra -> (forall b, cnt (ev_blocks e) b = cnt extra b) -> sound_event e ->
  event_at h e = Some x -> first_ok p -> sim (h_ret e s m p) h h0 taken (ret x s m (hp_at h p)).
Proof.
  intros -> P B S V F. pose proof (pre_extra _ _ _ _ _ _ _ P B) as (G & X & W & St & H & C). right.
  destruct (St eq_refl) as [St1 (En & Ok)]. eapply ends_ret; [exact G|exact X|exact C|]. split; [split; [exact W|split; [intros _; exact F|intros _ _; exact Ok]]|]. cbn [fst snd he_ev he_start he_end].
  split; [reflexivity|]. split; [exact S|]. unfold ret. cbn [e_ev e_start e_end]. auto 6.
Qed.
Lemma sim_none st h0 taken h p out : pre st h0 taken h p [] -> hp_error p <> None -> (out = PFail (hp_at h p) \/ ~ generous h0) ->
  sim (h_none p) h h0 taken out.
Proof.
  intros (G & X & W & St & H & C) E F. right. eapply ends_ret; [exact G|exact X|exact C|]. split; [split; [exact W|split; intros N; contradiction]|].
  cbn [fst snd]. split; [reflexivity|]. split; [exact E|]. destruct F as [F|F]; [left; eexists; split; [exact F|reflexivity]|right; exact F].
Qed.
Lemma sim_fail st h0 taken h p v e : pre st h0 taken h p [] -> hp_at h p = v -> sim (h_fail p e) h h0 taken (fail v e).
Proof.
  intros P <-. apply (sim_none st h0 taken h (with_error p (HProblem e))); [exact P|discriminate|]. left. reflexivity.
Qed.

Lemma with_scan_same p : with_scan p (hp_scan p) = p. Proof. destruct p. reflexivity. Qed.
Lemma deep_at h y t : token_at h (y_with_deep y t) = deepen (y_at h y) (token_at h t).
Proof. unfold token_at, deepen, y_with_deep, is_deep, y_deep, y_at. cbn [ht_tok ht_start ht_end ht_deep t_tok t_start t_end s_indents s_nest s_flow]. rewrite rev_length. reflexivity. Qed.
Lemma end_at h t : is_stream_end (t_tok (token_at h t)) = is_hstream_end (ht_tok t).
Proof. destruct t as [[] ? ? ?]; reflexivity. Qed.
Lemma with_sc_blocks y s : y_blocks (with_sc y s) = y_blocks y. Proof. reflexivity. Qed.
Lemma sim_peek st h0 taken h p v extra none K k :
  pre st h0 taken h p extra -> (st = false -> going h p) -> hp_at h p = v ->
  (forall h' p' out, pre false h0 taken h' p' extra -> ext h h' -> hp_error p' <> None -> (out = PFail (hp_at h' p') \/ ~ generous h0) ->
     sim (none p') h' h0 taken out) ->
  (forall h' p' t, pre true h0 taken h' p' extra -> ext h h' -> hp_at h' p' = v -> cur p' t -> sound_tok (ht_tok t) ->
     (s_avail (y_sc (hp_scan p)) = true -> p' = p /\ h' = h) ->
     sim (K p' t) h' h0 taken (k (token_at h' t))) ->
  sim (h_peek p none K) h h0 taken (ParserModel.peek v k).
Proof.
  intros P Go V Kn Kt. pose proof P as (G & X & W & St & H & C).
  assert (Go' : going h p) by (destruct st; [apply St; reflexivity|apply Go; reflexivity]). clear Go. destruct Go' as [En Ok].
  destruct W as (Ws & W). unfold h_peek.
  assert (Hy : holds h (y_blocks (hp_scan p))) by (clear - H; unfold hp_blocks in H; cn).
  (* a token is at the head *)
  assert (Head : forall h1 y, good h1 -> ext h h1 -> ywf y -> changes h (y_blocks (hp_scan p)) (y_blocks y) h1 -> peeked (y_at h1 y) -> upcoming (y_at h1 y) = p_in v ->
     (s_avail (y_sc (hp_scan p)) = true -> y = hp_scan p /\ h1 = h) ->
     sim ('(y, r) <~ y_head y ;; match r with inl t => K (with_scan p y) t | inr e => none (with_error (with_scan p y) (scan_error e)) end) h1 h0 taken (ParserModel.peek v k)).
  { intros h1 y G1 X1 W1 C1 Pk U Same. destruct (peeked_facts _ Pk) as (Nt & Av & Sd & En1 & Er1).
    assert (H1 : holds h1 (y_blocks y)) by (eapply changes_holds; eassumption).
    unfold y_head. destruct (a_els (y_tokens y)) as [|t q] eqn:Eq; [exfalso; apply Nt; unfold y_at; rewrite Eq; reflexivity|].
    assert (T : h_touch (a_at (y_tokens y)) h1 = HOk tt h1).
    { apply h_touch_ok; [apply W1|]. clear - H1. unfold y_blocks in H1. cn. }
    unfold sim. erewrite bind_ok; [|erewrite bind_ok; [reflexivity|exact T]].
    assert (Et : s_tokens (y_at h1 y) = token_at h1 t :: map (token_at h1) q) by (unfold y_at; rewrite Eq; reflexivity).
    unfold ParserModel.peek. rewrite <- U. destruct (upcoming_skip _ _ _ Pk Et) as [-> _]. rewrite <- deep_at.
    apply Kt.
    - split; [exact G1|]. split; [eapply ext_trans; eassumption|]. split; [split; [exact W1|exact W]|]. split.
      { intros _. split; [exact Sd|]. split; [exact En1|]. unfold scan_ok. cbn [with_scan hp_scan]. rewrite Av. exact Pk. }
      clear - H C C1. unfold hp_blocks in *. cbn [with_scan hp_scan hp_states hp_marks hp_tags]. split; cn.
    - exact X1.
    - rewrite <- V. unfold hp_at. cbn [with_scan hp_scan hp_error hp_state hp_states hp_marks hp_tags]. rewrite U, <- V. unfold hp_at. cbn [p_in].
      unfold y_ended in *. change (s_ended (y_sc y)) with (s_ended (y_at h1 y)). rewrite En, En1. f_equal. apply pairs_ext; [exact G|exact X1|].
      clear - H. unfold hp_blocks, tags_blocks in H. cn.
    - split; [exact Av|]. exists t, q. split; [exact Eq|reflexivity].
    - destruct W1 as (_ & _ & _ & F). rewrite Eq in F. inversion F; subst. assumption.
    - intros A. destruct (Same A) as [-> ->]. split; [apply with_scan_same|reflexivity]. }
  unfold y_peek. unfold scan_ok in Ok. change (s_avail (y_at h (hp_scan p))) with (s_avail (y_sc (hp_scan p))) in Ok.
  destruct (s_avail (y_sc (hp_scan p))) eqn:Ea.
  - apply Head; [exact G|apply ext_refl|exact Ws|apply changes_same|exact Ok|rewrite <- V; reflexivity|auto].
  - pose proof (lively_more _ Ok) as L.
    pose proof (ysim_more (hp_scan p) h G Hy Ws) as M. unfold sim, hbind at 1 2.
    destruct (fetch_more_tokens (y_at h (hp_scan p))) as [u s'|e| |] eqn:Ef; try contradiction; specialize (M ltac:(discriminate) ltac:(discriminate)).
    + destruct (y_more (hp_scan p) h) as [u1 y1 h1|e y1 h1| |]; try contradiction.
      * destruct M as (G1 & X1 & C1 & W1 & b & E & _). injection E as _ ->.
        apply (Head h1 y1); [exact G1|exact X1|exact W1|exact C1|eexists; eexists; split; [exact Ok|exact Ef]| |discriminate].
        rewrite (upcoming_same _ _ _ Ok Ef), <- V. reflexivity.
      * destruct M as (G1 & X1 & C1 & W1 & E). destruct e as [e| |]; [discriminate E| |].
        -- apply (Kn h1); [|exact X1|discriminate|right; intros g; apply E, X, g].
           split; [exact G1|]. split; [eapply ext_trans; eassumption|]. split; [split; [exact W1|exact W]|]. split; [discriminate|].
           clear - H C C1. unfold hp_blocks, with_error, with_scan in *. cbn [hp_scan hp_states hp_marks hp_tags]. rewrite with_sc_blocks. split; cn.
        -- apply (Kn h1); [|exact X1|discriminate|right; intros g; apply E, X, g].
           split; [exact G1|]. split; [eapply ext_trans; eassumption|]. split; [split; [exact W1|exact W]|]. split; [discriminate|].
           clear - H C C1. unfold hp_blocks, with_error, with_scan in *. cbn [hp_scan hp_states hp_marks hp_tags]. rewrite with_sc_blocks. split; cn.
    + destruct (y_more (hp_scan p) h) as [u1 y1 h1|e1 y1 h1| |]; try contradiction.
      { destruct M as (_ & _ & _ & _ & b & E & _). discriminate E. }
      destruct M as (G1 & X1 & C1 & W1 & E). apply (Kn h1); [|exact X1|destruct e1; discriminate|].
      * split; [exact G1|]. split; [eapply ext_trans; eassumption|]. split; [split; [exact W1|exact W]|]. split; [discriminate|].
        clear - H C C1. unfold hp_blocks, with_error, with_scan in *. cbn [hp_scan hp_states hp_marks hp_tags]. rewrite with_sc_blocks. split; cn.
      * destruct e1 as [e1| |]; [left|right; intros g; apply E, X, g|right; intros g; apply E, X, g].
        assert (U : p_in v = []) by (rewrite <- V; exact (upcoming_fails _ _ Ok Ef)).
        unfold ParserModel.peek. rewrite U. unfold no_token, fail. f_equal. rewrite U. unfold hp_at, with_error, with_scan, with_sc.
        cbn [hp_scan hp_error hp_state hp_states hp_marks hp_tags error_at scan_error].
        match goal with |- context [upcoming ?s] => rewrite (upcoming_error s e1) by reflexivity end.
        rewrite (pairs_ext h h1 _ G X1); [rewrite <- V; reflexivity|]. clear - H. unfold hp_blocks, tags_blocks in H. cn.
Qed.

Lemma cur_holds st h0 taken h p extra t : pre st h0 taken h p extra -> cur p t -> holds h (token_blocks t).
Proof.
  intros (_ & _ & _ & _ & H & _) (_ & t0 & r & E & ->). unfold hp_blocks, y_blocks in H. rewrite E in H. change (token_blocks (y_with_deep (hp_scan p) t0)) with (token_blocks t0). clear E. cn.
Qed.
Definition skip_sc (s : sc) (t : htok) : sc :=
  mkSc (s_cur s) (s_enc s) (s_started s) (is_hstream_end t) (s_error s) (s_flow s)
       (s_tokens s) (s_parsed s + 1) false (s_indents s) (s_indent s) (s_allowed s) (s_keys s) (s_nest s).
Definition skip_y (y : ysc) (t : htok) (r : list htoken) : ysc :=
  with_sc (with_tokens y (mkArr (a_at (y_tokens y)) r (S (a_off (y_tokens y))) (a_cap (y_tokens y)))) (skip_sc (y_sc y) t).
(* what SKIP_TOKEN does *)
Lemma skip_does h0 taken h p extra t : pre true h0 taken h p extra -> cur p t ->
  exists y', y_skip (hp_scan p) h = HOk y' h /\ ywf y' /\ s_avail (y_sc y') = false /\ s_started (y_sc y') = true /\
    y_ended y' = is_hstream_end (ht_tok t) /\ (is_hstream_end (ht_tok t) = false -> lively (y_at h y')) /\
    hp_at h (with_scan p y') = ParserModel.skip (hp_at h p) /\
    (forall b, cnt (y_blocks (hp_scan p)) b = (cnt (token_blocks t) b + cnt (y_blocks y') b)%nat).
Proof.
  intros (G & X & W & St & H & C) (A & t0 & r & E & ->). destruct (St eq_refl) as [Sd (En & Ok)]. destruct W as (Ws & W).
  unfold scan_ok in Ok. change (s_avail (y_at h (hp_scan p))) with (s_avail (y_sc (hp_scan p))) in Ok. rewrite A in Ok.
  change (ht_tok (y_with_deep (hp_scan p) t0)) with (ht_tok t0). change (token_blocks (y_with_deep (hp_scan p) t0)) with (token_blocks t0).
  exists (skip_y (hp_scan p) (ht_tok t0) r).
  assert (Et : s_tokens (y_at h (hp_scan p)) = token_at h t0 :: map (token_at h) r) by (unfold y_at; rewrite E; reflexivity).
  destruct (upcoming_skip _ _ _ Ok Et) as [U L]. rewrite end_at in U, L.
  assert (Ya : y_at h (skip_y (hp_scan p) (ht_tok t0) r) = skipped (y_at h (hp_scan p)) (map (token_at h) r) (is_hstream_end (ht_tok t0))) by reflexivity.
  split.
  { unfold y_skip, h_dequeue. rewrite E.
    assert (T : h_touch (a_at (y_tokens (hp_scan p))) h = HOk tt h).
    { apply h_touch_ok; [apply Ws|]. clear - H. unfold hp_blocks, y_blocks in H. cn. }
    erewrite bind_ok; [|erewrite bind_ok; [reflexivity|exact T]]. reflexivity. }
  split.
  { destruct Ws as (W1 & W2 & W3 & W4). rewrite E in W4. inversion W4; subst. split; [|split; [exact W2|split; [exact W3|assumption]]].
    destruct W1 as (R1 & R2 & R3). unfold room, fits in *. cbn [skip_y with_sc with_tokens y_tokens a_at a_els a_off a_cap].
    rewrite E in R2. cbn [length] in R2. apply Nat.leb_le in R2. split; [exact R1|]. split; [apply Nat.leb_le; lia|exact R3]. }
  split; [reflexivity|]. split; [exact Sd|]. split; [reflexivity|]. split; [intros Ne; rewrite Ya; apply L, Ne|]. split.
  - unfold ParserModel.skip, hp_at. cbn [p_in with_scan hp_scan hp_error hp_state hp_states hp_marks hp_tags]. rewrite U, Ya. f_equal.
    cbn [deepen t_tok token_at]. destruct (ht_tok t0); reflexivity.
  - intros b. unfold y_blocks, skip_y. cbn [with_sc with_tokens y_raw y_buffer y_tokens y_indents y_keys a_at a_els]. rewrite E. cbn [flat_map]. rewrite !cnt_app. lia.
Qed.
Lemma sim_skip h0 taken h p v extra t k out : pre true h0 taken h p extra -> cur p t -> is_hstream_end (ht_tok t) = false -> hp_at h p = v ->
  (forall p', pre true h0 taken h p' (token_blocks t ++ extra) -> hp_at h p' = ParserModel.skip v -> hp_state p' = hp_state p -> s_avail (y_sc (hp_scan p')) = false ->
     sim (k p') h h0 taken out) ->
  sim (h_skip p k) h h0 taken out.
Proof.
  intros P Cu Ne V K. destruct (skip_does _ _ _ _ _ _ P Cu) as (y' & E & W' & A' & S' & En' & L' & V' & B').
  unfold h_skip, sim. rewrite (bind_ok _ _ _ _ _ E). destruct P as (G & X & W & St & H & C). destruct W as (Ws & W). apply K.
  - split; [exact G|]. split; [exact X|]. split; [split; [exact W'|exact W]|]. split.
    + intros _. split; [exact S'|]. split; [rewrite Ne in En'; exact En'|]. unfold scan_ok. change (s_avail (y_at h (hp_scan (with_scan p y')))) with (s_avail (y_sc y')). rewrite A'. apply L', Ne.
    + clear - H C B'. unfold hp_blocks in *. cbn [with_scan hp_scan hp_states hp_marks hp_tags].
      split; intros b; specialize (B' b); specialize (H b); specialize (C b); rewrite !cnt_app in *; lia.
  - rewrite <- V. exact V'.
  - reflexivity.
  - exact A'.
Qed.
(* the last token of the stream *)
Lemma sim_skip_end h0 taken h p v t e x s m : pre true h0 taken h p [] -> cur p t -> token_blocks t = [] -> hp_at h p = v -> is_first (hp_state p) = false ->
  ev_blocks e = [] -> sound_event e -> event_at h e = Some x -> is_hstream_end (ht_tok t) = true ->
  sim (h_skip p (h_ret e s m)) h h0 taken (ret x s m (ParserModel.skip v)).
Proof.
  intros P Cu Bt V Fi Be Se Ve Ie. destruct (skip_does _ _ _ _ _ _ P Cu) as (y' & E & W' & A' & S' & En' & L' & V' & B').
  unfold h_skip, sim. rewrite (bind_ok _ _ _ _ _ E). destruct P as (G & X & W & St & H & C). destruct W as (Ws & W). right.
  eapply ends_ret; [exact G|exact X| |].
  - instantiate (1 := hp_blocks (with_scan p y') ++ ev_blocks e). rewrite Be, app_nil_r. rewrite Bt in B'. clear - C B'. unfold hp_blocks in *. cbn [with_scan hp_scan hp_states hp_marks hp_tags].
    intros b. specialize (B' b). specialize (C b). rewrite !cnt_app, ?cnt_nil in *. lia.
  - split.
    + split; [split; [exact W'|exact W]|]. cbn [fst]. split; [intros _ Ef; cbn [with_scan hp_state] in Ef; congruence|].
      intros _ En. change (y_ended y' = false) in En. congruence.
    + cbn [fst snd he_ev he_start he_end]. split; [reflexivity|]. split; [exact Se|]. unfold ret. cbn [e_ev e_start e_end].
      split; [exact Ve|]. split; [reflexivity|]. split; [reflexivity|]. split; [rewrite V'; f_equal; exact V|exact S'].
Qed.

Lemma rev_last {A} (l : list A) x r : rev l = x :: r -> l = rev r ++ [x].
Proof. intros E. rewrite <- (rev_involutive l), E. reflexivity. Qed.
Lemma sim_pop_state st h0 taken h p v extra K k : pre st h0 taken h p extra -> hp_at h p = v ->
  (forall p', pre st h0 taken h p' extra -> hp_scan p' = hp_scan p -> is_first (hp_state p') = false -> sim (K p') h h0 taken (k (hp_at h p'))) ->
  sim (h_pop_state p K) h h0 taken (pop_state v k).
Proof.
  intros P V Kp. pose proof P as (G & X & W & St & H & C). destruct W as (Ws & Wst & Wm & Wt & Fs & Ft). unfold h_pop_state, pop_state, h_pop.
  assert (Ep : p_states v = rev (a_els (hp_states p))) by (rewrite <- V; reflexivity). rewrite Ep.
  destruct (rev (a_els (hp_states p))) as [|s r] eqn:E.
  { apply sim_undef; [|reflexivity]. unfold hbind. reflexivity. }
  assert (T : h_touch (a_at (hp_states p)) h = HOk tt h). { apply h_touch_ok; [exact Wst|]. clear - H. unfold hp_blocks in H. cn. }
  unfold sim. erewrite bind_ok; [|erewrite bind_ok; [reflexivity|exact T]].
  apply rev_last in E. rewrite E in Fs. apply Forall_app in Fs. destruct Fs as [Fr Fx]. inversion Fx; subst.
  match goal with |- (K ?p' _ = _ /\ ?o = _) \/ _ => assert (Eo : o = k (hp_at h p')) end.
  { f_equal. unfold hp_at, with_state, with_states. cbn [hp_scan hp_error hp_state hp_states hp_marks hp_tags a_els p_in p_end p_error p_states p_marks p_tags]. rewrite rev_involutive. reflexivity. }
  rewrite Eo. apply Kp; [|reflexivity|assumption]. eapply pre_wf; [exact P| |reflexivity|].
  - repeat split; auto; try apply Ws.
  - intros b. reflexivity.
Qed.
Lemma sim_pop_mark st h0 taken h p v extra K k : pre st h0 taken h p extra -> hp_at h p = v ->
  (forall m p', pre st h0 taken h p' extra -> hp_scan p' = hp_scan p -> hp_state p' = hp_state p -> sim (K m p') h h0 taken (k m (hp_at h p'))) ->
  sim (h_pop_mark p K) h h0 taken (pop_mark v k).
Proof.
  intros P V Kp. pose proof P as (G & X & W & St & H & C). destruct W as (Ws & Wst & Wm & Wt & Fs & Ft). unfold h_pop_mark, pop_mark, h_pop.
  assert (Ep : p_marks v = rev (a_els (hp_marks p))) by (rewrite <- V; reflexivity). rewrite Ep.
  destruct (rev (a_els (hp_marks p))) as [|s r] eqn:E.
  { apply sim_undef; [|reflexivity]. unfold hbind. reflexivity. }
  assert (T : h_touch (a_at (hp_marks p)) h = HOk tt h). { apply h_touch_ok; [exact Wm|]. clear - H. unfold hp_blocks in H. cn. }
  unfold sim. erewrite bind_ok; [|erewrite bind_ok; [reflexivity|exact T]]. subst v.
  match goal with |- (K ?m ?p' _ = _ /\ ?o = _) \/ _ => assert (Eo : o = k m (hp_at h p')) end.
  { f_equal. unfold hp_at, with_marks. cbn [hp_scan hp_error hp_state hp_states hp_marks hp_tags a_els p_in p_end p_error p_state p_states p_marks p_tags]. rewrite rev_involutive. reflexivity. }
  rewrite Eo. apply Kp; [|reflexivity|reflexivity]. eapply pre_wf; [exact P| |reflexivity|].
  - repeat split; auto; try apply Ws.
  - intros b. reflexivity.
Qed.
Lemma sim_push_state st h0 taken h p v extra s none K out : pre st h0 taken h p extra -> hp_at h p = v -> is_first s = false ->
  (forall h' p', pre st h0 taken h' p' extra -> ext h h' -> hp_error p' <> None -> ~ generous h0 -> sim (none p') h' h0 taken out) ->
  (forall h' p', pre st h0 taken h' p' extra -> ext h h' -> hp_at h' p' = push_state v s -> hp_scan p' = hp_scan p -> sim (K p') h' h0 taken out) ->
  sim (h_push_state p s none K) h h0 taken out.
Proof.
  intros P V Fs0 Kn Kp. pose proof P as (G & X & W & St & H & C). destruct W as (Ws & Wst & Wm & Wt & Fs & Ft). unfold h_push_state.
  assert (H1 : holds h (ptr_blocks (a_at (hp_states p)))). { clear - H. unfold hp_blocks in H. cn. }
  destruct (h_push_does (hp_states p) s h G Wst H1) as ([a ok] & g & h1 & E1 & G1 & X1 & C1 & -> & Wa & E & Y). cbn [fst snd] in *.
  unfold sim. rewrite (bind_ok _ _ _ _ _ E1).
  assert (P1 : forall e s', Forall (fun s => is_first s = false) (a_els a) -> pre st h0 taken h1 (mkHp (hp_scan p) e s' a (hp_marks p) (hp_tags p)) extra).
  { intros e s' Fa. split; [exact G1|]. split; [eapply ext_trans; eassumption|]. split; [repeat split; auto; apply Ws|]. split; [intros Es; destruct (St Es) as [S1 S2]; split; [exact S1|exact (going_ext h h1 p G X1 ltac:(clear - H; cn) S2)]|].
    clear - H C C1. unfold hp_blocks in *. cbn [hp_scan hp_states hp_marks hp_tags]. split; cn. }
  destruct ok.
  - apply Kp; [|exact X1| |reflexivity].
    + apply (P1 (hp_error p) (hp_state p)). rewrite E. apply Forall_app. split; [exact Fs|]. constructor; [exact Fs0|constructor].
    + rewrite <- V, <- (hp_ext h h1 p G X1). 2:{ clear - H. cn. }
      unfold hp_at, push_state, with_states. cbn [hp_scan hp_error hp_state hp_states hp_marks hp_tags p_in p_end p_error p_state p_states p_marks p_tags]. rewrite E, rev_app_distr. reflexivity.
  - apply Kn; [|exact X1|discriminate|intros g; discriminate (Y (proj2 X g))]. subst a. apply (P1 (Some HMemory) (hp_state p)). exact Fs.
Qed.
Lemma sim_push_mark st h0 taken h p v extra m K out : pre st h0 taken h p extra -> extra = [] -> hp_at h p = v ->
  (forall h' p', pre st h0 taken h' p' extra -> ext h h' -> hp_at h' p' = push_mark v m -> hp_scan p' = hp_scan p -> sim (K p') h' h0 taken out) ->
  sim (h_push_mark p m K) h h0 taken out.
Proof.
  intros P Ee V Kp. pose proof P as (G & X & W & St & H & C). destruct W as (Ws & Wst & Wm & Wt & Fs & Ft). unfold h_push_mark.
  assert (H1 : holds h (ptr_blocks (a_at (hp_marks p)))). { clear - H. unfold hp_blocks in H. cn. }
  destruct (h_push_does (hp_marks p) m h G Wm H1) as ([a ok] & g & h1 & E1 & G1 & X1 & C1 & -> & Wa & E & Y). cbn [fst snd] in *.
  unfold sim. rewrite (bind_ok _ _ _ _ _ E1).
  assert (P1 : forall e, pre st h0 taken h1 (mkHp (hp_scan p) e (hp_state p) (hp_states p) a (hp_tags p)) extra).
  { intros e. split; [exact G1|]. split; [eapply ext_trans; eassumption|]. split; [repeat split; auto; apply Ws|]. split; [intros Es; destruct (St Es) as [S1 S2]; split; [exact S1|exact (going_ext h h1 p G X1 ltac:(clear - H; cn) S2)]|].
    clear - H C C1. unfold hp_blocks in *. cbn [hp_scan hp_states hp_marks hp_tags]. split; cn. }
  destruct ok.
  - apply Kp; [|exact X1| |reflexivity].
    + apply (P1 (hp_error p)).
    + rewrite <- V, <- (hp_ext h h1 p G X1). 2:{ clear - H. cn. }
      unfold hp_at, push_mark, with_marks. cbn [hp_scan hp_error hp_state hp_states hp_marks hp_tags p_in p_end p_error p_state p_states p_marks p_tags]. rewrite E, rev_app_distr. reflexivity.
  - subst extra. eapply sim_none; [apply (P1 (Some HMemory))|discriminate|right; intros g; discriminate (Y (proj2 X g))].
Qed.
Lemma sim_malloc st h0 taken h p extra s K out : pre st h0 taken h p extra ->
  (forall h', pre st h0 taken h' p extra -> ext h h' -> ~ generous h0 -> sim (K None) h' h0 taken out) ->
  (forall h' b, pre st h0 taken h' p (ptr_blocks (Some b) ++ extra) -> ext h h' -> str_at h' (Some b) = s -> sim (K (Some b)) h' h0 taken out) ->
  sim (hbind (h_malloc s) K) h h0 taken out.
Proof.
  intros P Kn Ks. eapply (sim_bind _ _ _ _ _ _ _ _ []); [exact P|apply h_malloc_does; apply P|]. cbn beta. intros q g h' P' X' (-> & R & Y). destruct q as [b|].
  - destruct R as [R|(b' & [= <-] & R)]; [discriminate|]. apply Ks; auto.
  - apply Kn; auto. intros g. apply Y; [eapply pre_gen; eassumption|reflexivity].
Qed.
Lemma sim_free st h0 taken h p extra x K out : pre st h0 taken h p (ptr_blocks x ++ extra) ->
  (forall h', pre st h0 taken h' p extra -> ext h h' -> sim (K tt) h' h0 taken out) -> sim (hbind (h_free x) K) h h0 taken out.
Proof.
  intros P Kp. eapply sim_bind; [exact P|apply h_free_does; [apply P|]|]. { apply pre_holds in P. cn. }
  cbn beta. intros [] g h' P' X' ->. apply Kp; assumption.
Qed.
Lemma sim_empty_scalar h0 taken h p v m : pre true h0 taken h p [] -> is_first (hp_state p) = false -> hp_at h p = v ->
  sim (h_empty_scalar p m) h h0 taken (process_empty_scalar v m).
Proof.
  intros P F V. unfold h_empty_scalar, process_empty_scalar. eapply sim_malloc; [exact P| |].
  - intros h' P' X N. cbn [is_null]. eapply sim_none; [apply pre_error; exact P'|discriminate|right; exact N].
  - intros h' b P' X Vb. cbn [is_null]. rewrite <- V, <- (hp_ext h h' p); [|apply P|exact X|destruct P as (_ & _ & _ & _ & H & _); clear - H; cn].
    eapply sim_ret; [reflexivity|exact P'| | | |].
    + intros b0. cbn [ev_blocks ptr_blocks app]. reflexivity.
    + cbn. repeat split; discriminate.
    + cbn [event_at]. rewrite Vb. reflexivity.
    + intros E. congruence.
Qed.
Lemma pre_hp_ext st h0 taken h p extra h' : pre st h0 taken h p extra -> ext h h' -> hp_at h' p = hp_at h p.
Proof. intros (G & _ & _ & _ & H & _) X. apply hp_ext; [exact G|exact X|]. clear - H. cn. Qed.
Lemma pre_opt_ext st h0 taken h p extra h' x : pre st h0 taken h p extra -> ext h h' -> (forall b, (cnt (ptr_blocks x) b <= cnt extra b)%nat) -> opt_at h' x = opt_at h x.
Proof. intros (G & _ & _ & _ & H & _) X I. apply opt_ext; [exact G|exact X|]. clear - H I. cn. Qed.
