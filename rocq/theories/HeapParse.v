(* The functions of parser.c, one by one. *)
From Coq Require Import Permutation.
From Verif Require Import Base ReaderModel Types CursorModel ScanModel ScannerModel ParserModel DocModel HeapModel HeapSpec HeapLemmas HeapEvents HeapLoaderModel HeapLoader HeapTokenModel HeapTokenSpec HeapScan
  HeapLexModel HeapScanModel HeapScanSpec HeapScanSim HeapParserModel HeapParserSpec ScanRest HeapParser.
Local Open Scope hm_scope.

Lemma sim_node_error st h0 taken h p a hd sf tg out : pre st h0 taken h p (ptr_blocks a ++ ptr_blocks hd ++ ptr_blocks sf ++ ptr_blocks tg) ->
  hp_error p <> None -> (out = PFail (hp_at h p) \/ ~ generous h0) -> sim (node_error a hd sf tg p) h h0 taken out.
Proof.
  intros P E F. unfold node_error.
  eapply sim_free; [exact P|]. intros h1 P1 X1. eapply sim_free; [exact P1|]. intros h2 P2 X2. eapply sim_free; [exact P2|]. intros h3 P3 X3.
  eapply (sim_free _ _ _ _ _ []); [eapply pre_extra; [exact P3|intros b; rewrite app_nil_r; reflexivity]|]. intros h4 P4 X4.
  eapply sim_none; [exact P4|exact E|]. destruct F as [F|F]; [left|right; exact F].
  rewrite F. f_equal. symmetry. eapply pre_hp_ext; [exact P|]. eapply ext_trans; [exact X1|]. eapply ext_trans; [exact X2|]. eapply ext_trans; eassumption.
Qed.

Ltac counts := intros ?b; cbn [ptr_blocks ev_blocks tok_blocks app]; repeat (rewrite ?cnt_app, ?cnt_nil, ?app_nil_r; cnt_split); try lia; try reflexivity.
Ltac subst_extra P := eapply pre_extra; [exact P|counts].

Lemma cur_state p t s : cur p t -> cur (with_state p s) t. Proof. auto. Qed.
Lemma content_sim h0 taken h p v block indentless anchor tag s e token :
  pre true h0 taken h p (ptr_blocks anchor ++ ptr_blocks tag) -> hp_at h p = v -> cur p token -> sound_tok (ht_tok token) ->
  sim (h_content p block indentless anchor tag s e token) h h0 taken
      (parse_content v block indentless (opt_at h anchor) (opt_at h tag) s e (token_at h token)).
Proof.
  intros P V Cu St. unfold h_content, parse_content.
  assert (R : (match tag with None => hret [] | Some _ => h_read tag end) h = HOk (match tag with None => [] | Some _ => str_at h tag end) h).
  { destruct tag as [b|]; [|reflexivity]. apply h_read_ok; [discriminate|]. apply pre_holds in P. clear - P. cn. }
  eapply sim_ok; [exact R|]. clear R. set (x := match tag with None => [] | Some _ => str_at h tag end).
  assert (Ei : match opt_at h tag with None => true | Some [] => true | Some _ => false end = match x with [] => true | _ => false end).
  { unfold x. destruct tag; reflexivity. }
  rewrite Ei. set (implicit := match x with [] => true | _ => false end). clearbody implicit. clear Ei.
  cbn [t_tok token_at t_start t_end t_deep].
  assert (Nerr : forall q v' pr, pre true h0 taken h q (ptr_blocks anchor ++ ptr_blocks tag) -> hp_at h q = v' ->
     sim (node_error anchor None None tag (with_error q (HProblem pr))) h h0 taken (fail v' pr)).
  { intros q v' pr Pq <-. apply (sim_node_error true); [|discriminate|left; reflexivity]. apply pre_error. subst_extra Pq. }
  assert (Lim : forall st ev xv, ev_blocks ev = ptr_blocks anchor ++ ptr_blocks tag -> event_at h ev = Some xv -> sound_event ev -> ((token_blocks token = [] /\ is_hstream_end (ht_tok token) = false) \/ is_first st = false) ->
     sim (if ht_deep token then node_error anchor None None tag (with_error p (HProblem (mkPerr MaxNesting (Some s) (Some (ht_start token)))))
          else h_ret ev s (ht_end token) (with_state p st)) h h0 taken
         (if ht_deep token then error_context v MaxNesting s (ht_start token) else ret xv s (ht_end token) (set_state v st))).
  { intros st ev xv Eb Ev Se Fi. destruct (ht_deep token); [apply Nerr; assumption|]. rewrite <- V.
    eapply (sim_ret true h0 taken h (with_state p st)); [reflexivity|apply pre_state; exact P|rewrite Eb; reflexivity|exact Se|exact Ev|].
    intros Ef. destruct Fi as [Fi|Fi]; [exists token; split; [exact Cu|exact Fi]|]. cbn [hp_state with_state] in Ef. congruence. }
  assert (Other : sim (if negb (is_null anchor) || negb (is_null tag) then
          value <~ h_malloc [] ;;
          if is_null value then node_error anchor None None tag (with_error p HMemory)
          else h_pop_state p (h_ret (HScalar anchor tag value implicit false Plain) s e)
        else node_error anchor None None tag (with_error p (HProblem (mkPerr (NoNodeContent block) (Some s) (Some (ht_start token)))))) h h0 taken
      (match opt_at h anchor, opt_at h tag with
        | None, None => error_context v (NoNodeContent block) s (ht_start token)
        | _, _ => pop_state v (fun p => ret (EScalar (opt_at h anchor) (opt_at h tag) [] implicit false Plain) s e p)
        end)).
  { assert (Some_ : negb (is_null anchor) || negb (is_null tag) = true -> sim (value <~ h_malloc [] ;;
          if is_null value then node_error anchor None None tag (with_error p HMemory)
          else h_pop_state p (h_ret (HScalar anchor tag value implicit false Plain) s e)) h h0 taken
        (pop_state v (fun p => ret (EScalar (opt_at h anchor) (opt_at h tag) [] implicit false Plain) s e p))).
    { intros _. eapply sim_malloc; [exact P| |].
      - intros h' P' X N. cbn [is_null]. apply (sim_node_error true); [|discriminate|right; exact N]. apply pre_error. subst_extra P'.
      - intros h' b P' X Vb. cbn [is_null]. eapply sim_pop_state; [exact P'| |].
        + rewrite <- V. eapply pre_hp_ext; eassumption.
        + intros p2 P2 Es Ef. eapply sim_ret; [reflexivity|exact P2|counts|cbn; repeat split; discriminate| |].
          * cbn [event_at].
 rewrite Vb, (pre_opt_ext _ _ _ _ _ _ _ anchor P X), (pre_opt_ext _ _ _ _ _ _ _ tag P X); [reflexivity| |]; counts.
          * intros E. congruence. }
    destruct anchor as [a|]; [apply Some_; reflexivity|]. destruct tag as [t|]; [apply Some_; reflexivity|]. cbn [is_null negb orb opt_at].
    apply Nerr; assumption. }
  destruct (indentless && match tok_at h (ht_tok token) with TBlockEntry => true | _ => false end) eqn:Eindent.
  { replace (indentless && match ht_tok token with HTBlockEntry => true | _ => false end) with true by (symmetry; etransitivity; [|exact Eindent]; destruct (ht_tok token); reflexivity).
    rewrite <- V. eapply (sim_ret true h0 taken h (with_state p PS_Indentless)); [reflexivity|exact P|reflexivity|exact I|reflexivity|].
    intros E. discriminate E. }
  replace (indentless && match ht_tok token with HTBlockEntry => true | _ => false end) with false by (symmetry; etransitivity; [|exact Eindent]; destruct (ht_tok token); reflexivity).
  clear Eindent. unfold token_blocks in Lim.
  destruct (ht_tok token) eqn:Et; cbn [tok_at]; try exact Other; try (destruct block; [|exact Other]); try (apply Lim; [reflexivity|reflexivity|exact I|left; split; reflexivity]).
  (* scalar *)
  assert (Epi : (sstyle_eqb style Plain && is_null tag) || (negb (is_null tag) && is_bang x) =
     match opt_at h tag with None => sstyle_eqb style Plain | Some t => is_bang t end).
  { unfold x. destruct tag; cbn [is_null negb opt_at andb]; rewrite ?andb_false_r, ?andb_true_r, ?orb_false_r; reflexivity. }
  rewrite Epi. set (pi := match opt_at h tag with None => sstyle_eqb style Plain | Some t => is_bang t end).
  replace (match opt_at h tag with None => true | Some _ => false end) with (is_null tag) by (destruct tag; reflexivity).
  eapply sim_pop_state; [exact P|exact V|]. intros p2 P2 Es Ef.
  eapply sim_skip; [exact P2|unfold cur; rewrite Es; exact Cu|rewrite Et; reflexivity|reflexivity|]. intros p3 P3 <- Es3 _.
  eapply sim_ret; [reflexivity|exact P3|unfold token_blocks; rewrite Et; counts| |reflexivity|intros E; congruence].
  cbn in St |- *. repeat split; try assumption; try discriminate.
Qed.

Lemma find_handle_ok at_ els handle h : (els <> [] -> at_ <> None) -> Forall (fun t : hpair => fst t <> None /\ snd t <> None) els ->
  holds h (flat_map pair_blocks els ++ ptr_blocks at_) ->
  h_find_handle at_ els handle h = HOk (find (fun x => str_eqb handle (str_at h (fst x))) els) h.
Proof.
  induction els as [|x els IH]; intros A F H; [reflexivity|]. cbn [h_find_handle find]. inversion F as [|? ? [F1 F2] F3]; subst.
  rewrite (bind_ok (h_touch at_) _ tt h h). 2:{ apply h_touch_ok; [apply A; discriminate|]. clear IH. cn. }
  rewrite (bind_ok (h_read (fst x)) _ (str_at h (fst x)) h h). 2:{ apply h_read_ok; [exact F1|]. clear IH. cn. }
  destruct (str_eqb handle (str_at h (fst x))); [reflexivity|]. apply IH; [intros _; apply A; discriminate|exact F3|]. clear IH. cn.
Qed.
Lemma find_map {A B} (f : B -> bool) (g : A -> B) l : find f (map g l) = option_map g (find (fun x => f (g x)) l).
Proof. induction l as [|x l IH]; [reflexivity|]. cbn [map find]. destruct (f (g x)); [reflexivity|exact IH]. Qed.
Lemma find_same {A} (f g : A -> bool) l : (forall x, f x = g x) -> find f l = find g l.
Proof. intros E. induction l as [|x l IH]; [reflexivity|]. cbn [find]. rewrite E, IH. reflexivity. Qed.
Lemma tags_find st h0 taken h p extra handle : pre st h0 taken h p extra ->
  h_find_handle (a_at (hp_tags p)) (a_els (hp_tags p)) handle h = HOk (find (fun x => str_eqb handle (str_at h (fst x))) (a_els (hp_tags p))) h.
Proof.
  intros (_ & _ & (_ & _ & _ & Wt & _ & Ft) & _ & H & _). apply find_handle_ok; [intros _; exact Wt|exact Ft|].
  unfold hp_blocks, tags_blocks in H. clear - H. cn.
Qed.
Lemma str_eqb_comm a b : str_eqb a b = str_eqb b a.
Proof.
  revert b. induction a as [|x a IH]; intros [|y b]; try reflexivity. cbn [str_eqb]. rewrite N.eqb_sym, IH. reflexivity.
Qed.

Lemma with_tag_sim h0 taken h p v anchor handle suffix tm sm K k :
  pre true h0 taken h p (ptr_blocks anchor ++ ptr_blocks handle ++ ptr_blocks suffix) -> hp_at h p = v -> handle <> None -> suffix <> None ->
  (forall h' tag, pre true h0 taken h' p (ptr_blocks anchor ++ ptr_blocks tag) -> ext h h' -> sim (K tag) h' h0 taken (k (opt_at h' tag))) ->
  sim (h_with_tag p anchor handle suffix tm sm K) h h0 taken (with_tag v (Some (str_at h handle, str_at h suffix, tm)) sm k).
Proof.
  intros P V Nh Ns Kt. unfold h_with_tag, with_tag, resolve_tag. cbv beta iota. pose proof (pre_holds _ _ _ _ _ _ P) as Hx.
  destruct handle as [hb|]; [cbn [is_null]|congruence]. destruct suffix as [sb|]; [|congruence].
  eapply sim_ok; [apply h_read_ok; [discriminate|clear - Hx; cn]|].
  destruct (str_at h (Some hb)) as [|c x] eqn:Ex.
  { eapply sim_free; [eapply pre_extra with (extra' := ptr_blocks (Some hb) ++ ptr_blocks anchor ++ ptr_blocks (Some sb)); [exact P|counts]|].
    intros h1 P1 X1. replace (str_at h (Some sb)) with (str_at h1 (Some sb)).
    - apply (Kt h1 (Some sb)); assumption.
    - apply str_ext; [apply P|exact X1|]. clear - Hx. cn. }
  eapply sim_ok; [eapply tags_find; exact P|].
  assert (Ef : find (fun td : list N * list N => str_eqb (fst td) (c :: x)) (p_tags v) =
    option_map (pair_at h) (find (fun t : hpair => str_eqb (c :: x) (str_at h (fst t))) (a_els (hp_tags p)))).
  { rewrite <- V. cbn [hp_at p_tags]. rewrite find_map. f_equal. apply find_same. intros t. apply str_eqb_comm. }
  unfold tagdir, hpair in *. rewrite Ef. clear Ef. match goal with |- context [option_map _ (@find ?A ?f ?l)] => destruct (@find A f l) as [td|] eqn:Etd end; cbn [option_map].
  2:{ apply (sim_node_error true); [apply pre_error; subst_extra P|discriminate|]. left. rewrite <- V. reflexivity. }
  apply find_some in Etd. destruct Etd as [Itd _].
  assert (Ht : holds h (pair_blocks td) /\ snd td <> None).
  { destruct P as (_ & _ & (_ & _ & _ & _ & _ & Ft) & _ & H & _). rewrite Forall_forall in Ft. split; [|apply Ft; exact Itd].
    apply in_split in Itd. destruct Itd as (l1 & l2 & El). unfold hp_blocks, tags_blocks, hpair in H. rewrite El, flat_map_app in H. cbn [flat_map] in H. clear - H. cn. }
  destruct Ht as [Ht Nt].
  eapply sim_ok; [apply h_read_ok; [exact Nt|clear - Ht; cn]|]. eapply sim_ok; [apply h_read_ok; [discriminate|clear - Hx; cn]|].
  eapply sim_malloc; [exact P| |].
  - intros h1 P1 X1 N. cbn [is_null]. apply (sim_node_error true); [apply pre_error; subst_extra P1|discriminate|right; exact N].
  - intros h1 b P1 X1 Vb. cbn [is_null].
    eapply sim_free; [eapply pre_extra with (extra' := ptr_blocks (Some hb) ++ ptr_blocks (Some b) ++ ptr_blocks anchor ++ ptr_blocks (Some sb)); [exact P1|counts]|]. intros h2 P2 X2.
    eapply sim_free; [eapply pre_extra with (extra' := ptr_blocks (Some sb) ++ ptr_blocks anchor ++ ptr_blocks (Some b)); [exact P2|counts]|]. intros h3 P3 X3.
    replace (Some (snd (pair_at h td) ++ str_at h (Some sb))) with (opt_at h3 (Some b)).
    + apply Kt; [exact P3|]. eapply ext_trans; [exact X1|]. eapply ext_trans; eassumption.
    + rewrite (pre_opt_ext _ _ _ _ _ _ _ (Some b) P1 (ext_trans _ _ _ X2 X3)) by counts.
      change (opt_at h1 (Some b)) with (Some (str_at h1 (Some b))). rewrite Vb. reflexivity.
Qed.

Lemma none_sim st h0 taken h p extra out : pre st h0 taken h p extra -> extra = [] -> hp_error p <> None -> (out = PFail (hp_at h p) \/ ~ generous h0) ->
  sim (h_none p) h h0 taken out.
Proof. intros P -> E F. eapply sim_none; eassumption. Qed.

Lemma cur_token_ext st h0 taken h p extra t h' : pre st h0 taken h p extra -> cur p t -> ext h h' -> token_at h' t = token_at h t.
Proof. intros P C X. apply token_ext; [apply P|exact X|]. eapply cur_holds; eassumption. Qed.

Lemma node_sim st h0 taken h p v block indentless : pre st h0 taken h p [] -> (st = false -> going h p) -> hp_at h p = v ->
  sim (h_node p block indentless) h h0 taken (parse_node v block indentless).
Proof.
  intros P Go V. unfold h_node, parse_node. eapply sim_peek; [exact P|exact Go|exact V| |].
  { intros h1 p1 out P1 X1 E F. eapply none_sim; eauto. }
  intros h1 p1 t P1 X1 V1 C1 S1 _. cbn [token_at t_tok t_start t_end].
  assert (Default : sim (h_content p1 block indentless None None (ht_start t) (ht_start t) t) h1 h0 taken
     (parse_content v block indentless None None (ht_start t) (ht_start t) (token_at h1 t))).
  { apply (content_sim h0 taken h1 p1 v block indentless None None); assumption. }
  destruct (ht_tok t) eqn:Et; cbn [tok_at] in *; try exact Default; clear Default.
  - (* alias *)
    eapply sim_pop_state; [exact P1|exact V1|]. intros p2 P2 Es Ef.
    eapply sim_skip; [exact P2|unfold cur; rewrite Es; exact C1|rewrite Et; reflexivity|reflexivity|]. intros p3 P3 <- Es3 _.
    eapply sim_ret; [reflexivity|exact P3|unfold token_blocks; rewrite Et; counts|exact S1|reflexivity|intros E; congruence].
  - (* anchor *)
    eapply sim_skip; [exact P1|exact C1|rewrite Et; reflexivity|exact V1|]. intros p2 P2 V2 _ _. unfold token_blocks in P2. rewrite Et in P2. cbn [tok_blocks] in P2.
    eapply sim_peek; [exact P2|discriminate|exact V2| |].
    { intros h2 p3 out P3 X3 E F. eapply sim_node_error; [subst_extra P3|exact E|exact F]. }
    intros h2 p3 t2 P3 X3 V3 C3 S3 _. cbn [token_at t_tok t_start t_end].
    assert (Va : Some (str_at h1 name) = opt_at h2 name).
    { rewrite (pre_opt_ext _ _ _ _ _ _ _ name P2 X3) by counts. cbn in S1. destruct name; [reflexivity|congruence]. }
    rewrite Va.
    assert (Default : sim (h_content p3 block indentless name None (ht_start t) (ht_end t) t2) h2 h0 taken
      (parse_content (skip v) block indentless (opt_at h2 name) None (ht_start t) (ht_end t) (token_at h2 t2))).
    { apply (content_sim h0 taken h2 p3 (skip v) block indentless name None); assumption. }
    destruct (ht_tok t2) eqn:Et2; cbn [tok_at] in *; try exact Default; clear Default.
    eapply sim_skip; [exact P3|exact C3|rewrite Et2; reflexivity|exact V3|]. intros p4 P4 V4 _ _. unfold token_blocks in P4. rewrite Et2 in P4. cbn [tok_blocks] in P4.
    eapply sim_peek; [exact P4|discriminate|exact V4| |].
    { intros h3 p5 out P5 X5 E F. eapply sim_node_error; [subst_extra P5|exact E|exact F]. }
    intros h3 p5 t3 P5 X5 V5 C5 S5 _. cbn in S3. destruct S3 as [Sh Ss].
    rewrite <- (str_ext h2 h3 handle), <- (str_ext h2 h3 suffix), <- (pre_opt_ext _ _ _ _ _ _ _ name P4 X5); try (apply P4); try exact X5;
      try (apply pre_holds in P4; clear - P4; cn); try counts.
    eapply with_tag_sim; [subst_extra P5|exact V5|exact Sh|exact Ss|].
    intros h4 tag P6 X6. rewrite <- (pre_opt_ext _ _ _ _ _ _ _ name P5 X6) by counts. rewrite <- (cur_token_ext _ _ _ _ _ _ _ _ P5 C5 X6).
    apply content_sim; try assumption. rewrite <- V5. eapply pre_hp_ext; eassumption.
  - (* tag *)
    eapply sim_skip; [exact P1|exact C1|rewrite Et; reflexivity|exact V1|]. intros p2 P2 V2 _ _. unfold token_blocks in P2. rewrite Et in P2. cbn [tok_blocks] in P2.
    cbn in S1. destruct S1 as [Sh Ss].
    eapply sim_peek; [exact P2|discriminate|exact V2| |].
    { intros h2 p3 out P3 X3 E F. eapply sim_node_error; [subst_extra P3|exact E|exact F]. }
    intros h2 p3 t2 P3 X3 V3 C3 S3 _. cbn [token_at t_tok t_start t_end].
    rewrite <- (str_ext h1 h2 handle), <- (str_ext h1 h2 suffix); try (apply P2); try exact X3; try (apply pre_holds in P2; clear - P2; cn).
    assert (Default : sim (h_with_tag p3 None handle suffix (ht_start t) (ht_start t) (fun tag => h_content p3 block indentless None tag (ht_start t) (ht_end t) t2)) h2 h0 taken
      (with_tag (skip v) (Some (str_at h2 handle, str_at h2 suffix, ht_start t)) (ht_start t) (fun tag =>
         parse_content (skip v) block indentless None tag (ht_start t) (ht_end t) (token_at h2 t2)))).
    { eapply with_tag_sim; [subst_extra P3|exact V3|exact Sh|exact Ss|].
      intros h4 tag P6 X6. rewrite <- (cur_token_ext _ _ _ _ _ _ _ _ P3 C3 X6).
      apply (content_sim h0 taken h4 p3 (skip v) block indentless None tag); try assumption. rewrite <- V3. eapply pre_hp_ext; eassumption. }
    destruct (ht_tok t2) eqn:Et2; cbn [tok_at] in *; try exact Default; clear Default.
    eapply sim_skip; [exact P3|exact C3|rewrite Et2; reflexivity|exact V3|]. intros p4 P4 V4 _ _. unfold token_blocks in P4. rewrite Et2 in P4. cbn [tok_blocks] in P4.
    eapply sim_peek; [exact P4|discriminate|exact V4| |].
    { intros h3 p5 out P5 X5 E F. eapply sim_node_error; [subst_extra P5|exact E|exact F]. }
    intros h3 p5 t3 P5 X5 V5 C5 S5 _.
    assert (Va : Some (str_at h2 name) = opt_at h3 name).
    { rewrite (pre_opt_ext _ _ _ _ _ _ _ name P4 X5) by counts. destruct name; [reflexivity|congruence]. }
    rewrite Va. rewrite <- (str_ext h2 h3 handle), <- (str_ext h2 h3 suffix); try (apply P4); try exact X5; try (apply pre_holds in P4; clear - P4; cn).
    eapply with_tag_sim; [subst_extra P5|exact V5|exact Sh|exact Ss|].
    intros h4 tag P6 X6. rewrite <- (pre_opt_ext _ _ _ _ _ _ _ name P5 X6) by counts. rewrite <- (cur_token_ext _ _ _ _ _ _ _ _ P5 C5 X6).
    apply content_sim; try assumption. rewrite <- V5. eapply pre_hp_ext; eassumption.
Qed.
