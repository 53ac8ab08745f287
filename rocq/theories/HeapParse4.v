(* The functions of parser.c: documents, yaml_parser_parse, and the functions of
   api.c that make and destroy a parser. *)
From Coq Require Import Permutation.
From Verif Require Import Base ReaderModel Types CursorModel ScanModel ScannerModel ParserModel DocModel HeapModel HeapSpec HeapLemmas HeapEvents HeapLoaderModel HeapLoader HeapTokenModel HeapTokenSpec HeapScan
  HeapLexModel HeapScanModel HeapScanSpec HeapScanSim HeapParserModel HeapParserSpec ScanRest HeapParser HeapParse HeapParse2 HeapParse3.
Local Open Scope hm_scope.

Lemma in_length h p : going h p -> (length (p_in (hp_at h p)) < y_left (hp_scan p))%nat.
Proof.
  intros [_ Ok]. change (y_left (hp_scan p)) with (left (y_at h (hp_scan p))). cbn [hp_at p_in]. unfold scan_ok in Ok.
  destruct (s_avail (y_at h (hp_scan p))); [|apply upcoming_short, Ok].
  destruct Ok as (s0 & u & L & E). rewrite (upcoming_same _ _ _ L E). pose proof (lively_more s0 L) as M. rewrite E in M. destruct M as (_ & _ & _ & _ & _ & ->).
  apply upcoming_short, L.
Qed.

Lemma process_directives_sim h0 taken h p v wanted (K : hp * option (ptr * arr hpair) -> hparsed) out :
  (forall q h', K (q, None) h' = HOk (q, None) h') ->
  pre true h0 taken h p [] -> hp_at h p = v ->
  (wanted = false -> exists t r, p_in v = t :: r /\ starts_explicit (t_tok t) = false) ->
  (forall v', process_directives v = DirsFail v' -> out = PFail v') ->
  (forall h' p' ver dirs wv wd v', pre true h0 taken h' p' (ptr_blocks ver ++ tags_blocks dirs) -> ext h h' -> hp_at h' p' = v' -> sound_tags dirs ->
     process_directives v = DirsOk wv wd v' ->
     (if wanted then version_at h' ver = wv /\ map (pair_at h') (a_els dirs) = wd else ver = None /\ dirs = null_arr) ->
     sim (K (p', Some (ver, dirs))) h' h0 taken out) ->
  sim (hbind (h_process_directives p wanted) K) h h0 taken out.
Proof.
  intros Kn P V Hw Kf Kp. unfold h_process_directives. eapply sim_same; [apply bind_assoc|].
  eapply (sim_bind _ _ _ _ _ _ [] true []); [exact P|apply (@h_init_does hpair); apply P|]. cbn beta. intros [dirs ok] g h1 P1 X1 (-> & Ee & R & Y). cbn [fst snd] in *.
  assert (V1 : hp_at h1 p = v) by (rewrite <- V; eapply pre_hp_ext; eassumption).
  destruct ok; cbn [negb].
  2:{ eapply dirs_error_sim; [| |exact Kn|discriminate|right; intros g; discriminate (Y (pre_gen _ _ _ _ _ _ P g))].
      - apply pre_error. eapply pre_extra; [exact P1|]. unfold tags_blocks. rewrite Ee. cbn [flat_map]. counts.
      - intros E. contradiction. }
  eapply sim_same; [apply bind_assoc|].
  eapply (directive_loop_sim h0 taken _) with (fl := p_in v) (wv := None) (wd := []) (ver := None) (dirs := dirs); [| | |subst_extra P1|exact V1|split; [exact R|rewrite Ee; apply Forall_nil]| | | | |].
  - intros q h'. cbn [hret]. unfold hbind. apply Kn.
  - rewrite <- V1. pose proof (in_length h1 p (proj2 (proj1 (proj2 (proj2 (proj2 P1))) eq_refl))). lia.
  - lia.
  - unfold tags_blocks. rewrite Ee. cbn [flat_map app]. lia.
  - reflexivity.
  - reflexivity.
  - rewrite Ee. reflexivity.
  - intros v' D. apply Kf. unfold process_directives. rewrite D. reflexivity.
  - intros h2 p2 ver dirs2 v2 P2 X2 V2 N2 D. cbn beta iota. unfold process_directives in Kp, Kf. rewrite D in Kp, Kf. clear Kf.
    assert (Wd : wanted = false -> ver = None \/ a_els dirs2 = []).
    { intros W. destruct (Hw W) as (t & r & Ei & Et). rewrite Ei in D. cbn [directive_loop] in D. rewrite Ei in D. right.
      assert (D2 : DirsOk None [] v = DirsOk (version_at h2 ver) (map (pair_at h2) (a_els dirs2)) v2).
      { rewrite <- D. destruct (t_tok t); try reflexivity; discriminate Et. }
      injection D2 as _ D2 _. destruct (a_els dirs2); [reflexivity|discriminate D2]. }
    eapply sim_same; [apply bind_assoc|]. eapply add_defaults_sim; [exact P2|exact V2| |].
    { intros h3 p3 P3 X3 E3 N. cbn [negb]. eapply dirs_error_sim; [exact P3|intros _; exact (proj1 N2)|exact Kn|exact E3|right; exact N]. }
    intros h3 p3 P3 X3 V3. cbn [negb]. fold (add_defaults (p_tags v2)) in V3.
    assert (X4 : ext h h3). { eapply ext_trans; [exact X1|]. eapply ext_trans; eassumption. }
    assert (Ev : version_at h3 ver = version_at h2 ver). { apply version_ext; [apply P2|exact X3|]. apply pre_holds in P2. clear - P2. cn. }
    assert (Ed : map (pair_at h3) (a_els dirs2) = map (pair_at h2) (a_els dirs2)). { apply pairs_ext; [apply P2|exact X3|]. apply pre_holds in P2. clear - P2. cn. }
    assert (Kp' : forall h' p' ver' dirs', pre true h0 taken h' p' (ptr_blocks ver' ++ tags_blocks dirs') -> ext h h' -> hp_at h' p' = set_tags v2 (add_defaults (p_tags v2)) ->
       sound_tags dirs' -> (if wanted then version_at h' ver' = version_at h2 ver /\ map (pair_at h') (a_els dirs') = map (pair_at h2) (a_els dirs2) else ver' = None /\ dirs' = null_arr) ->
       sim (K (p', Some (ver', dirs'))) h' h0 taken out).
    { intros h' p' ver' dirs' P' X' V' S' C'. eapply Kp; [exact P'|exact X'|exact V'|exact S'|reflexivity|exact C']. }
    clear Kp. destruct wanted.
    + destruct (a_els dirs2) as [|d ds] eqn:Eds.
      * eapply sim_same; [apply bind_assoc|]. unfold h_del.
        eapply (sim_free _ _ _ _ _ (ptr_blocks ver)); [eapply pre_extra; [exact P3|unfold tags_blocks; rewrite Eds; cbn [flat_map]; counts]|]. intros h4 P4 X5.
        apply (Kp' h4 p3 ver null_arr).
        -- eapply pre_extra; [exact P4|]. unfold tags_blocks, null_arr. cbn [a_els a_at flat_map]. counts.
        -- eapply ext_trans; eassumption.
        -- rewrite <- V3. eapply pre_hp_ext; eassumption.
        -- split; [intros E; exfalso; apply E; reflexivity|apply Forall_nil].
        -- split; [|reflexivity]. rewrite <- Ev. apply version_ext; [apply P3|exact X5|]. apply pre_holds in P3. clear - P3. cn.
      * apply (Kp' h3 p3 ver dirs2); [exact P3|exact X4|exact V3|split; [intros _; exact (proj1 N2)|exact (proj2 N2)]|]. rewrite Eds. split; assumption.
    + specialize (Wd eq_refl). assert (Eds : a_els dirs2 = []).
      { destruct (Hw eq_refl) as (t & r & Ei & Et). rewrite Ei in D. cbn [directive_loop] in D. rewrite Ei in D.
        assert (D2 : DirsOk None [] v = DirsOk (version_at h2 ver) (map (pair_at h2) (a_els dirs2)) v2).
        { rewrite <- D. destruct (t_tok t); try reflexivity; discriminate Et. }
        injection D2 as _ D2 _. destruct (a_els dirs2); [reflexivity|discriminate D2]. }
      eapply sim_same; [apply bind_assoc|]. unfold h_del.
      eapply (sim_free _ _ _ _ _ (ptr_blocks ver)); [eapply pre_extra; [exact P3|unfold tags_blocks; rewrite Eds; cbn [flat_map]; counts]|]. intros h4 P4 X5.
      eapply sim_same; [apply bind_assoc|]. eapply (sim_free _ _ _ _ _ []); [eapply pre_extra; [exact P4|intros b; rewrite app_nil_r; reflexivity]|]. intros h5 P5 X6.
      apply (Kp' h5 p3 None null_arr).
      * eapply pre_extra; [exact P5|]. unfold tags_blocks, null_arr. cbn [a_els a_at flat_map]. counts.
      * eapply ext_trans; [exact X4|]. eapply ext_trans; eassumption.
      * rewrite <- V3, <- (pre_hp_ext _ _ _ _ _ _ _ P3 X5). eapply pre_hp_ext; eassumption.
      * split; [intros E; exfalso; apply E; reflexivity|apply Forall_nil].
      * split; reflexivity.
Qed.

Lemma skip_doc_ends_sim h0 taken K k : (forall h p v t, pre true h0 taken h p [] -> hp_at h p = v -> cur p t -> sound_tok (ht_tok t) -> sim (K p t) h h0 taken (k v (token_at h t))) ->
  forall f h p v fl, (length (p_in v) < f)%nat -> (length (p_in v) <= length fl)%nat -> pre true h0 taken h p [] -> hp_at h p = v ->
  sim (h_skip_doc_ends f p K) h h0 taken (peek (skip_doc_ends fl v) (k (skip_doc_ends fl v))).
Proof.
  intros Kt. induction f as [|f IH]; intros h p v fl Lf Lfl P V; [lia|]. cbn [h_skip_doc_ends].
  assert (Eout : peek (skip_doc_ends fl v) (k (skip_doc_ends fl v)) = peek v (fun _ => peek (skip_doc_ends fl v) (k (skip_doc_ends fl v)))).
  { unfold peek at 2. destruct (p_in v) eqn:Ei; [|reflexivity]. assert (E : skip_doc_ends fl v = v) by (destruct fl; cbn [skip_doc_ends]; rewrite ?Ei; reflexivity).
    rewrite E. unfold peek. rewrite Ei. reflexivity. }
  rewrite Eout. clear Eout. go. destruct (cur_next h1 p0 t) as (rest & Ein & _); [apply P0; reflexivity|exact C|]. rewrite V0 in Ein.
  destruct fl as [|f0 fl]; [rewrite Ein in Lfl; cbn in Lfl; lia|]. cbn [skip_doc_ends]. rewrite Ein. cbn [token_at t_tok].
  assert (D : sim (K p0 t) h1 h0 taken (peek v (k v))). { unfold peek. rewrite Ein. apply Kt; assumption. }
  destruct (ht_tok t) eqn:Et; cbn [tok_at]; try exact D. clear D. go.
  assert (Ls : p_in (skip v) = rest) by (unfold skip; rewrite Ein; reflexivity).
  rewrite Ein in Lf, Lfl. cbn [length] in Lf, Lfl.
  eapply IH; [rewrite Ls; lia|rewrite Ls; lia|exact P1|exact V1].
Qed.

Lemma doc_start_error_sim st h0 taken h p ver dirs out :
  pre st h0 taken h p (ptr_blocks ver ++ tags_blocks dirs) -> sound_tags dirs ->
  hp_error p <> None -> (out = PFail (hp_at h p) \/ ~ generous h0) -> sim (doc_start_error ver dirs p) h h0 taken out.
Proof.
  intros P S E F. unfold doc_start_error. eapply sim_free; [exact P|]. intros h1 P1 X1. unfold tags_blocks in P1.
  eapply sim_del_tags; [exact P1|exact (proj1 S)|apply pre_holds in P1; exact P1|]. intros h2 P2 X2.
  eapply (sim_free _ _ _ _ _ []); [eapply pre_extra; [exact P2|intros b; rewrite app_nil_r; reflexivity]|]. intros h3 P3 X3.
  eapply sim_none; [exact P3|exact E|]. destruct F as [F|F]; [left|right; exact F].
  rewrite F. f_equal. symmetry. eapply pre_hp_ext; [exact P|]. eapply ext_trans; [exact X1|]. eapply ext_trans; eassumption.
Qed.

Definition document_start_value (implicit : bool) (p : parser) (token : token) : pout :=
  if implicit && negb (starts_explicit (t_tok token)) && negb (is_stream_end (t_tok token)) then
    match process_directives p with
    | DirsFail p' => PFail p'
    | DirsOk _ _ p' =>
        ret (EDocStart None [] true) (t_start token) (t_start token)
            (set_state (push_state p' PS_DocEnd) PS_BlockNode)
    end
  else if negb (is_stream_end (t_tok token)) then
    match process_directives p with
    | DirsFail p' => PFail p'
    | DirsOk ver dirs p' =>
        peek p' (fun token2 =>
          match t_tok token2 with
          | TDocStart =>
              ret (EDocStart ver dirs false) (t_start token) (t_end token2)
                  (skip (set_state (push_state p' PS_DocEnd) PS_DocContent))
          | _ => error p' NoDocStart (t_start token2)
          end)
    end
  else ret EStreamEnd (t_start token) (t_end token) (skip (set_state p PS_End)).
Lemma explicit_at h t : starts_explicit (tok_at h t) = h_starts_explicit t. Proof. destruct t; reflexivity. Qed.
Lemma stream_end_at h t : is_stream_end (tok_at h t) = is_hstream_end t. Proof. destruct t; reflexivity. Qed.

Lemma document_start_at_sim h0 taken implicit h p v t : pre true h0 taken h p [] -> hp_at h p = v -> cur p t -> sound_tok (ht_tok t) ->
  sim (h_document_start_at implicit p t) h h0 taken (document_start_value implicit v (token_at h t)).
Proof.
  intros P V C S. unfold h_document_start_at, document_start_value. cbn [token_at t_tok t_start t_end]. rewrite explicit_at, stream_end_at.
  destruct (implicit && negb (h_starts_explicit (ht_tok t)) && negb (is_hstream_end (ht_tok t))) eqn:Ei.
  { eapply process_directives_sim; [reflexivity|exact P|exact V| | |].
    - intros _. destruct (cur_next h p t) as (rest & Ein & _); [apply P; reflexivity|exact C|]. rewrite V in Ein. exists (token_at h t), rest. split; [exact Ein|]. cbn [token_at t_tok]. rewrite explicit_at.
      destruct (h_starts_explicit (ht_tok t)); [|reflexivity]. rewrite andb_false_r in Ei. discriminate.
    - intros v' ->. reflexivity.
    - intros h1 p1 ver dirs wv wd v1 P1 X1 V1 S1 D [-> ->]. rewrite D.
      assert (P2 : pre true h0 taken h1 p1 []) by exact P1. clear P1. go.
      eapply ret_sim; [at_pre|at_value|reflexivity|exact S1|reflexivity|reflexivity]. }
  destruct (is_hstream_end (ht_tok t)) eqn:Ee; cbn [negb].
  { eapply (sim_skip_end h0 taken h (with_state p PS_End)); [apply pre_state; exact P|apply cur_state; exact C| |rewrite <- V; reflexivity|reflexivity|reflexivity|exact I|reflexivity|exact Ee].
    unfold token_blocks. destruct (ht_tok t); try discriminate Ee; reflexivity. }
  eapply process_directives_sim; [reflexivity|exact P|exact V|discriminate| |].
  { intros v' ->. reflexivity. }
  intros h1 p1 ver dirs wv wd v1 P1 X1 V1 S1 D [Ev Ed]. rewrite D.
  eapply sim_peek; [exact P1|discriminate|exact V1| |].
  { intros h2 p2 out P2 X2 E2 F2. eapply doc_start_error_sim; eassumption. }
  intros h2 p2 t2 P2 X2 V2 C2 S2 _. cbn [token_at t_tok t_start t_end].
  assert (Err : sim (doc_start_error ver dirs (with_error p2 (HProblem (mkPerr NoDocStart None (Some (ht_start t2)))))) h2 h0 taken (error v1 NoDocStart (ht_start t2))).
  { eapply doc_start_error_sim; [apply pre_error; exact P2|exact S1|discriminate|]. left. rewrite <- V2. reflexivity. }
  destruct (ht_tok t2) eqn:Et2; cbn [tok_at]; try exact Err. clear Err.
  eapply sim_push_state; [exact P2|exact V2|reflexivity| |].
  { intros h3 p3 P3 X3 E3 N. eapply doc_start_error_sim; [exact P3|exact S1|exact E3|right; exact N]. }
  intros h3 p3 P3 X3 V3 Es3.
  eapply sim_skip; [apply pre_state; exact P3|apply cur_state; unfold cur; rewrite Es3; exact C2|change (is_hstream_end (ht_tok t2) = false); rewrite Et2; reflexivity|reflexivity|]. intros p4 P4 V4 Es4 _.
  unfold token_blocks in P4. rewrite Et2 in P4. cbn [tok_blocks app] in P4.
  assert (V5 : hp_at h3 p4 = skip (set_state (push_state v1 PS_DocEnd) PS_DocContent)). { rewrite V4, <- V3. reflexivity. }
  rewrite <- V5. eapply sim_ret; [reflexivity|exact P4|reflexivity|exact S1| |].
  - cbn [event_at]. f_equal. f_equal.
    + rewrite <- Ev. apply version_ext; [apply P1|eapply ext_trans; eassumption|]. apply pre_holds in P1. clear - P1. cn.
    + rewrite <- Ed. apply pairs_ext; [apply P1|eapply ext_trans; eassumption|]. apply pre_holds in P1. clear - P1. cn.
  - intros E. rewrite Es4 in E. discriminate E.
Qed.
Lemma document_start_sim st h0 taken h p v implicit : pre st h0 taken h p [] -> (st = false -> going h p) -> hp_at h p = v ->
  sim (h_document_start p implicit) h h0 taken (parse_document_start v implicit).
Proof.
  intros P Go V. unfold h_document_start.
  assert (E : parse_document_start v implicit = peek v (fun _ => let q := if implicit then v else skip_doc_ends (p_in v) v in peek q (document_start_value implicit q))) by reflexivity.
  rewrite E. go. destruct implicit.
  - cbv zeta. unfold peek. destruct (cur_next h1 p0 t) as (rest & Ein & _); [apply P0; reflexivity|exact C|]. rewrite V0 in Ein. rewrite Ein, <- V0. apply document_start_at_sim; [exact P0|reflexivity|exact C|exact S].
  - eapply (skip_doc_ends_sim h0 taken (h_document_start_at false) (document_start_value false)); [| | |exact P0|exact V0].
    + intros. apply document_start_at_sim; assumption.
    + rewrite <- V0. pose proof (in_length h1 p0 (proj2 (proj1 (proj2 (proj2 (proj2 P0))) eq_refl))). lia.
    + lia.
Qed.

Lemma state_machine_sim st h0 taken h p v : pre st h0 taken h p [] -> (st = false -> going h p) -> hp_at h p = v -> first_ok p -> hp_state p <> PS_End ->
  sim (h_state_machine p) h h0 taken (state_machine v).
Proof.
  intros P Go V F N. unfold h_state_machine, state_machine.
  assert (E : p_state v = hp_state p) by (rewrite <- V; reflexivity). rewrite E. unfold first_ok in F.
  destruct (hp_state p) eqn:Es; try congruence; clear E;
    first [eapply stream_start_sim; eassumption | eapply document_start_sim; eassumption | eapply document_content_sim; eassumption | eapply document_end_sim; eassumption
      | eapply node_sim; eassumption | eapply block_sequence_entry_sim; [eassumption|eassumption|eassumption|] | eapply indentless_sim; eassumption | eapply block_mapping_key_sim; [eassumption|eassumption|eassumption|]
      | eapply block_mapping_value_sim; eassumption | eapply flow_sequence_entry_sim; [eassumption|eassumption|eassumption|] | eapply flow_pair_key_sim; eassumption
      | eapply flow_pair_value_sim; eassumption | eapply flow_pair_end_sim; eassumption | eapply flow_mapping_key_sim; [eassumption|eassumption|eassumption|] | eapply flow_mapping_value_sim; eassumption];
    first [discriminate | intros _; apply F; reflexivity].
Qed.
Lemma parse_sim h p : good h -> sound_hp h p -> holds h (hp_blocks p) -> sim (h_parse p) h h (hp_blocks p) (parse (hp_at h p)).
Proof.
  intros G (W & F & Fl) H. unfold h_parse, parse. cbn [p_end p_error p_state hp_at].
  assert (P : pre false h (hp_blocks p) h p []).
  { split; [exact G|]. split; [apply ext_refl|]. split; [exact W|]. split; [discriminate|]. clear - H. split; cn. }
  replace (match error_at (hp_error p) with Some _ => true | None => false end) with (match hp_error p with Some _ => true | None => false end)
    by (destruct (hp_error p) as [[| | |]|]; reflexivity).
  destruct (y_ended (hp_scan p) || match hp_error p with Some _ => true | None => false end || is_end_state (hp_state p)) eqn:E.
  - right. eapply ends_ret; [exact G|apply ext_refl| |].
    + instantiate (1 := hp_blocks p ++ []). clear. cn.
    + split; [split; [exact W|split; assumption]|]. cbn [fst snd he_ev ev_blocks]. split; [reflexivity|]. split; [exact I|]. split; reflexivity.
  - apply orb_false_iff in E. destruct E as [E E3]. apply orb_false_iff in E. destruct E as [E1 E2].
    eapply state_machine_sim; [exact P| |reflexivity| |].
    + intros _. split; [exact E1|]. apply Fl; [|exact E1]. destruct (hp_error p); [discriminate|reflexivity].
    + apply F. destruct (hp_error p); [discriminate|reflexivity].
    + intros N. rewrite N in E3. discriminate.
Qed.
