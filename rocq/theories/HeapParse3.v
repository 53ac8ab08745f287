(* The functions of parser.c for documents and directives. *)
From Coq Require Import Permutation.
From Verif Require Import Base ReaderModel Types CursorModel ScanModel ScannerModel ParserModel DocModel HeapModel HeapSpec HeapLemmas HeapEvents HeapLoaderModel HeapLoader HeapTokenModel HeapTokenSpec HeapScan
  HeapLexModel HeapScanModel HeapScanSpec HeapScanSim HeapParserModel HeapParserSpec ScanRest HeapParser HeapParse HeapParse2.
Local Open Scope hm_scope.

Lemma sim_same m m' h h0 taken out : m h = m' h -> sim m' h h0 taken out -> sim m h h0 taken out.
Proof. unfold sim. intros ->. auto. Qed.
Lemma bind_assoc {A B C} (m : hm A) (k : A -> hm B) (l : B -> hm C) h : hbind (hbind m k) l h = hbind m (fun a => hbind (k a) l) h.
Proof. unfold hbind. destruct (m h); reflexivity. Qed.
Lemma peek_bind {A B} p none k (K : A -> hm B) h :
  hbind (h_peek p none k) K h = h_peek p (fun q => hbind (none q) K) (fun q t => hbind (k q t) K) h.
Proof.
  unfold h_peek. rewrite bind_assoc. unfold hbind at 1 3. destruct (y_peek (hp_scan p) h) as [[y [t|e]] h'| |]; reflexivity.
Qed.
Lemma skip_bind {A B} p k (K : A -> hm B) h : hbind (h_skip p k) K h = h_skip p (fun q => hbind (k q) K) h.
Proof. unfold h_skip. apply bind_assoc. Qed.

Lemma sim_del_tags st h0 taken h p dirs extra K out : pre st h0 taken h p (flat_map pair_blocks (a_els dirs) ++ extra) -> sound_arr dirs ->
  holds h (flat_map pair_blocks (a_els dirs) ++ ptr_blocks (a_at dirs)) ->
  (forall h', pre st h0 taken h' p extra -> ext h h' -> sim (K tt) h' h0 taken out) -> sim (hbind (h_empty_stack free_pair dirs) K) h h0 taken out.
Proof.
  intros P S I Kp. eapply sim_bind; [exact P|apply (empty_stack_does free_pair pair_blocks)|].
  - intros x h1 G H. apply free_pair_does; assumption.
  - apply P.
  - exact S.
  - exact I.
  - cbn beta. intros [] g h' P' X' ->. apply Kp; assumption.
Qed.
Definition no_tags (p : hp) : hp := with_htags p (mkArr (a_at (hp_tags p)) [] (a_off (hp_tags p)) (a_cap (hp_tags p))).
Lemma drop_tags_sim st h0 taken h p v K out : pre st h0 taken h p [] -> hp_at h p = v ->
  (forall h' p', pre st h0 taken h' p' [] -> hp_at h' p' = set_tags v [] -> hp_state p' = hp_state p -> sim (K p') h' h0 taken out) ->
  sim (h_drop_tags p K) h h0 taken out.
Proof.
  intros P V Kp. unfold h_drop_tags. fold (no_tags p). pose proof P as (G & X & W & _ & H & _). destruct W as (Ws & Wst & Wm & Wt & Fs & Ft).
  assert (P' : pre st h0 taken h (no_tags p) (flat_map pair_blocks (a_els (hp_tags p)) ++ [])).
  { eapply pre_wf; [exact P| |reflexivity|].
    - repeat split; auto; try apply Ws; try apply Forall_nil.
    - unfold hp_blocks, no_tags, with_htags. cbn [hp_scan hp_states hp_marks hp_tags]. clear. cn. }
  eapply sim_del_tags; [exact P'|intros _; exact Wt|unfold hp_blocks in H; clear - H; cn|].
  intros h1 P1 X1. apply Kp; [exact P1| |reflexivity]. rewrite (pre_hp_ext _ _ _ _ _ _ _ P' X1), <- V. reflexivity.
Qed.
Lemma document_end_sim st h0 taken h p v : pre st h0 taken h p [] -> (st = false -> going h p) -> hp_at h p = v ->
  sim (h_document_end p) h h0 taken (parse_document_end v).
Proof.
  intros P Go V. unfold h_document_end, parse_document_end. go.
  assert (D : sim (h_drop_tags p0 (fun p => h_ret (HDocEnd true) (ht_start t) (ht_start t) (with_state p PS_DocStart))) h1 h0 taken
    (ret (EDocEnd true) (ht_start t) (ht_start t) (set_state (set_tags v []) PS_DocStart))).
  { eapply drop_tags_sim; [exact P0|exact V0|]. intros h2 p2 P2 V2 E2. out. }
  destruct (ht_tok t) eqn:Et; cbn [tok_at]; try exact D. clear D.
  go. eapply drop_tags_sim; [exact P1|exact V1|]. intros h2 p2 P2 V2 E2. out.
Qed.

Lemma find_bound h handle els :
  match find (fun x : hpair => str_eqb handle (str_at h (fst x))) els with Some _ => true | None => false end = bound (map (pair_at h) els) handle.
Proof.
  induction els as [|x els IH]; [reflexivity|]. cbn [find map bound existsb]. change (fst (pair_at h x)) with (str_at h (fst x)).
  destruct (str_eqb handle (str_at h (fst x))); [reflexivity|exact IH].
Qed.
Lemma same_tags v : set_tags v (p_tags v) = v. Proof. destruct v. reflexivity. Qed.
Definition set_error (v : parser) (e : perr) : parser := mkParser (p_in v) (p_end v) (Some e) (p_state v) (p_states v) (p_marks v) (p_tags v).
Lemma append_sim st h0 taken h p v extra handle prefix dup K out : pre st h0 taken h p extra -> hp_at h p = v ->
  (forall h' p', pre st h0 taken h' p' extra -> ext h h' -> hp_error p' <> None ->
     (exists e, dup = Some e /\ append_tag_directive (p_tags v) (handle, prefix) false = None /\ hp_at h' p' = set_error v e) \/ ~ generous h0 ->
     sim (K (p', false)) h' h0 taken out) ->
  (forall h' p' tags, pre st h0 taken h' p' extra -> ext h h' ->
     append_tag_directive (p_tags v) (handle, prefix) (match dup with None => true | Some _ => false end) = Some tags ->
     hp_at h' p' = set_tags v tags -> hp_scan p' = hp_scan p -> sim (K (p', true)) h' h0 taken out) ->
  sim (hbind (h_append_tag p handle prefix dup) K) h h0 taken out.
Proof.
  intros P V Kn Kp. eapply sim_same; [apply bind_assoc|]. eapply sim_ok; [eapply tags_find; exact P|].
  pose proof (find_bound h handle (a_els (hp_tags p))) as B. change (map (pair_at h) (a_els (hp_tags p))) with (p_tags (hp_at h p)) in B. rewrite V in B.
  unfold append_tag_directive in *. cbn [fst] in *. unfold hpair in *. rewrite <- B in *. clear B.
  match goal with |- context [@find ?A ?f ?l] => destruct (@find A f l) as [x|] end.
  { destruct dup as [e|].
    - apply (Kn h (with_error p (HProblem e))); [exact P|apply ext_refl|discriminate|]. left. exists e. split; [reflexivity|]. split; [reflexivity|]. rewrite <- V. reflexivity.
    - apply (Kp h p (p_tags v)); [exact P|apply ext_refl|reflexivity|rewrite same_tags; exact V|reflexivity]. }
  eapply sim_same; [apply bind_assoc|].
  assert (Free : forall h1 a b q e, pre st h0 taken h1 q (ptr_blocks b ++ ptr_blocks a ++ extra) -> ext h h1 -> ~ generous h0 ->
     sim (hbind (h_free a ;;; h_free b ;;; hret (with_error q e, false)) K) h1 h0 taken out).
  { intros h1 a b q e P1 X1 N. eapply sim_same; [apply bind_assoc|].
    eapply sim_free; [eapply pre_extra with (extra' := ptr_blocks a ++ ptr_blocks b ++ extra); [exact P1|counts]|]. intros h2 P2 X2.
    eapply sim_same; [apply bind_assoc|]. eapply sim_free; [exact P2|]. intros h3 P3 X3.
    apply (Kn h3 (with_error q e)); [exact P3| |discriminate|right; exact N]. eapply ext_trans; [exact X1|]. eapply ext_trans; eassumption. }
  eapply sim_malloc; [exact P| |].
  { intros h1 P1 X1 N. eapply sim_same; [apply bind_assoc|]. eapply sim_malloc; [exact P1| |].
    - intros h2 P2 X2 _. apply Free; [subst_extra P2|eapply ext_trans; eassumption|exact N].
    - intros h2 b P2 X2 _. apply Free; [subst_extra P2|eapply ext_trans; eassumption|exact N]. }
  intros h1 a P1 X1 Va. eapply sim_same; [apply bind_assoc|]. eapply sim_malloc; [exact P1| |].
  { intros h2 P2 X2 N. apply Free; [subst_extra P2|eapply ext_trans; eassumption|exact N]. }
  intros h2 b P2 X2 Vb. cbn [is_null orb]. pose proof P2 as (G & X & W & St & H & C). destruct W as (Ws & Wst & Wm & Wt & Fs & Ft).
  assert (H1 : holds h2 (ptr_blocks (a_at (hp_tags p)))). { clear - H. unfold hp_blocks in H. cn. }
  destruct (h_push_does (hp_tags p) (Some a, Some b) h2 G Wt H1) as ([ts ok] & g & h3 & E3 & G3 & X3 & C3 & -> & Wa & E & Y). cbn [fst snd] in *.
  eapply sim_same; [apply bind_assoc|]. unfold sim. rewrite (bind_ok _ _ _ _ _ E3).
  assert (P3 : forall q, hp_scan q = hp_scan p -> hp_states q = hp_states p -> hp_marks q = hp_marks p -> hp_tags q = ts ->
     pre st h0 taken h3 q (if ok then extra else ptr_blocks (Some b) ++ ptr_blocks (Some a) ++ extra)).
  { intros q E1 E2 E4 E5. split; [exact G3|]. split; [eapply ext_trans; eassumption|]. split.
    { unfold wf. rewrite E1, E2, E4, E5. repeat split; auto; try apply Ws. destruct ok; [|subst ts; exact Ft].
      rewrite E. apply Forall_app. split; [exact Ft|]. constructor; [split; discriminate|apply Forall_nil]. }
    split; [intros Es; destruct (St Es) as [Sa Sb]; unfold started, going; rewrite E1; split; [exact Sa|exact (going_ext h2 h3 p G X3 ltac:(clear - H; cn) Sb)]|].
    unfold hp_blocks in *. rewrite E1, E2, E4, E5. unfold tags_blocks in *. destruct ok; [rewrite E|subst ts]; clear - H C C3; split; cn. }
  assert (X4 : ext h h3). { eapply ext_trans; [exact X1|]. eapply ext_trans; eassumption. }
  destruct ok.
  - apply (Kp h3 (with_htags p ts) (p_tags v ++ [(handle, prefix)])); [apply P3; reflexivity|exact X4|reflexivity| |reflexivity].
    rewrite <- V, <- (pre_hp_ext _ _ _ _ _ _ _ P X4). unfold hp_at, set_tags, with_htags.
    cbn [hp_scan hp_error hp_state hp_states hp_marks hp_tags p_in p_end p_error p_state p_states p_marks p_tags]. rewrite E, map_app. cbn [map]. f_equal. f_equal. f_equal.
    assert (Ea : str_at h3 (Some a) = handle).
    { rewrite <- Va. apply str_ext; [apply P1|eapply ext_trans; eassumption|]. apply pre_holds in P1. clear - P1. cn. }
    assert (Eb : str_at h3 (Some b) = prefix).
    { rewrite <- Vb. apply str_ext; [apply P2|assumption|]. apply pre_holds in P2. clear - P2. cn. }
    unfold pair_at. cbn [fst snd]. rewrite Ea, Eb. reflexivity.
  - apply Free; [apply P3; reflexivity|exact X4|]. intros g. discriminate (Y (proj2 X g)).
Qed.

Lemma dirs_error_sim st h0 taken h p ver dirs (K : hp * option (ptr * arr hpair) -> hparsed) out :
  pre st h0 taken h p (ptr_blocks ver ++ tags_blocks dirs) -> sound_arr dirs -> (forall q h', K (q, None) h' = HOk (q, None) h') ->
  hp_error p <> None -> (out = PFail (hp_at h p) \/ ~ generous h0) -> sim (hbind (dirs_error ver dirs p) K) h h0 taken out.
Proof.
  intros P S Kn E F. unfold dirs_error. eapply sim_same; [apply bind_assoc|]. eapply sim_free; [exact P|]. intros h1 P1 X1.
  eapply sim_same; [apply bind_assoc|]. unfold tags_blocks in P1.
  eapply sim_del_tags; [exact P1|exact S|apply pre_holds in P1; exact P1|]. intros h2 P2 X2.
  eapply sim_same; [apply bind_assoc|]. unfold h_del.
  eapply (sim_free _ _ _ _ _ []); [eapply pre_extra; [exact P2|intros b; rewrite app_nil_r; reflexivity]|]. intros h3 P3 X3.
  eapply sim_same; [apply Kn|]. eapply sim_none; [exact P3|exact E|]. destruct F as [F|F]; [left|right; exact F].
  rewrite F. f_equal. symmetry. eapply pre_hp_ext; [exact P|]. eapply ext_trans; [exact X1|]. eapply ext_trans; eassumption.
Qed.
Lemma add_defaults_sim h0 taken extra st ds K : forall h p v out, pre st h0 taken h p extra -> hp_at h p = v ->
  (forall h' p', pre st h0 taken h' p' extra -> ext h h' -> hp_error p' <> None -> ~ generous h0 -> sim (K (p', false)) h' h0 taken out) ->
  (forall h' p', pre st h0 taken h' p' extra -> ext h h' ->
     hp_at h' p' = set_tags v (fold_left (fun ts d => match append_tag_directive ts d true with Some ts' => ts' | None => ts end) ds (p_tags v)) ->
     sim (K (p', true)) h' h0 taken out) ->
  sim (hbind (h_add_defaults ds p) K) h h0 taken out.
Proof.
  induction ds as [|d ds IH]; intros h p v out P V Kn Kp; cbn [h_add_defaults fold_left] in *.
  { apply Kp; [exact P|apply ext_refl|]. rewrite same_tags. exact V. }
  eapply sim_same; [apply bind_assoc|]. eapply append_sim; [exact P|exact V| |].
  - intros h1 p1 P1 X1 E1 [(e & D & _)|N]; [discriminate|]. apply (Kn h1 p1); assumption.
  - intros h1 p1 tags P1 X1 T V1 _. eapply IH; [exact P1|exact V1| |].
    + intros h2 p2 P2 X2 E2 N. apply Kn; try assumption. eapply ext_trans; eassumption.
    + intros h2 p2 P2 X2 V2. apply Kp; [exact P2|eapply ext_trans; eassumption|]. rewrite V2. destruct d as [dh dp]. cbn [fst snd] in T. rewrite T. reflexivity.
Qed.
Lemma str_holds st h0 taken h p extra h' x : pre st h0 taken h p extra -> ext h h' -> holds h (ptr_blocks x) -> str_at h' x = str_at h x.
Proof. intros P X H. apply str_ext; [apply P|exact X|exact H]. Qed.
Definition listed (dirs : arr hpair) : Prop := a_at dirs <> None /\ Forall nonnull (a_els dirs).
Lemma directive_loop_sim h0 taken (K : hp * option (ptr * arr hpair) -> hparsed) : (forall q h', K (q, None) h' = HOk (q, None) h') ->
  forall f h p v fl ver dirs wv wd out,
  (length (p_in v) < f)%nat -> (length (p_in v) <= length fl)%nat ->
  pre true h0 taken h p (ptr_blocks ver ++ tags_blocks dirs) -> hp_at h p = v -> listed dirs ->
  version_at h ver = wv -> (wv = None -> ver = None) -> map (pair_at h) (a_els dirs) = wd ->
  (forall v', directive_loop fl wv wd v = DirsFail v' -> out = PFail v') ->
  (forall h' p' ver' dirs' v', pre true h0 taken h' p' (ptr_blocks ver' ++ tags_blocks dirs') -> ext h h' -> hp_at h' p' = v' -> listed dirs' ->
     directive_loop fl wv wd v = DirsOk (version_at h' ver') (map (pair_at h') (a_els dirs')) v' ->
     sim (K (p', Some (ver', dirs'))) h' h0 taken out) ->
  sim (hbind (h_directive_loop f ver dirs p) K) h h0 taken out.
Proof.
  intros Kn. induction f as [|f IH]; intros h p v fl ver dirs wv wd out Lf Lfl P V Ns Ev Nv Ed Kf Kp; [lia|]. pose proof Ns as [Nd Nn].
  cbn [h_directive_loop]. eapply sim_same; [apply peek_bind|].
  assert (Eout : out = peek v (fun _ => out)).
  { unfold peek. destruct (p_in v) eqn:Ei; [|reflexivity]. unfold no_token, fail. apply Kf. destruct fl; cbn [directive_loop]; unfold dirs_fail; rewrite Ei; reflexivity. }
  rewrite Eout. eapply sim_peek; [exact P|discriminate|exact V| |].
  { intros h1 p1 out1 P1 X1 E1 F1. eapply dirs_error_sim; [exact P1|intros _; exact Nd|exact Kn|exact E1|exact F1]. }
  clear Eout. intros h1 p1 t P1 X1 V1 C1 S1 _.
  destruct (cur_next h1 p1 t) as (rest & Ein & _); [apply P1; reflexivity|exact C1|]. rewrite V1 in Ein.
  destruct fl as [|f0 fl]; [rewrite Ein in Lfl; cbn in Lfl; lia|]. cbn [directive_loop] in Kf, Kp. rewrite Ein in Kf, Kp. cbn [token_at t_tok t_start] in Kf, Kp.
  assert (Ls : p_in (skip v) = rest) by (unfold skip; rewrite Ein; reflexivity).
  assert (Ev1 : version_at h1 ver = wv). { rewrite <- Ev. apply version_ext; [apply P|exact X1|]. apply pre_holds in P. clear - P. cn. }
  assert (Ed1 : map (pair_at h1) (a_els dirs) = wd). { rewrite <- Ed. apply pairs_ext; [apply P|exact X1|]. apply pre_holds in P. clear - P. cn. }
  assert (Lr : (length rest < f)%nat /\ (length rest <= length fl)%nat). { rewrite Ein in Lf, Lfl. cbn [length] in Lf, Lfl. lia. } destruct Lr as [Lr Lr'].
  assert (Err : forall e, (forall v', DirsFail (set_error v e) = DirsFail v' -> out = PFail v') ->
    sim (hbind (dirs_error ver dirs (with_error p1 (HProblem e))) K) h1 h0 taken out).
  { intros e Ke. eapply dirs_error_sim; [exact P1|intros _; exact Nd|exact Kn|discriminate|]. left. rewrite (Ke _ eq_refl), <- V1. reflexivity. }
  assert (Default : (forall h' p' ver' dirs' v', pre true h0 taken h' p' (ptr_blocks ver' ++ tags_blocks dirs') -> ext h h' -> hp_at h' p' = v' -> listed dirs' ->
     DirsOk wv wd v = DirsOk (version_at h' ver') (map (pair_at h') (a_els dirs')) v' -> sim (K (p', Some (ver', dirs'))) h' h0 taken out) ->
     sim (hbind (hret (p1, Some (ver, dirs))) K) h1 h0 taken out).
  { intros Kd. apply (Kd h1 p1 ver dirs v); auto. rewrite Ev1, Ed1. reflexivity. }
  clear V Ev Ed P.
  destruct (ht_tok t) eqn:Et; cbn [tok_at] in Kf, Kp; try (exact (Default Kp)); clear Default.
  - (* %YAML *)
    destruct ver as [vb|]; cbn [is_null negb].
    { destruct wv; [|discriminate (Nv eq_refl)]. apply Err. exact Kf. }
    assert (Ewv : wv = None) by (rewrite <- Ev1; reflexivity). rewrite Ewv in *. clear Nv.
    destruct (negb (major =? 1) || (negb (minor =? 1) && negb (minor =? 2))); [apply Err; exact Kf|].
    eapply sim_same; [apply bind_assoc|]. eapply sim_malloc; [exact P1| |].
    { intros h2 P2 X2 N. cbn [is_null]. eapply dirs_error_sim; [exact P2|intros _; exact Nd|exact Kn|discriminate|right; exact N]. }
    intros h2 b P2 X2 Vb. cbn [is_null]. eapply sim_same; [apply skip_bind|].
    eapply sim_skip; [exact P2|exact C1|rewrite Et; reflexivity|rewrite (pre_hp_ext _ _ _ _ _ _ _ P1 X2); exact V1|]. intros p3 P3 V3 _ _. unfold token_blocks in P3. rewrite Et in P3. cbn [tok_blocks app] in P3.
    assert (Ev2 : version_at h2 (Some b) = Some (major, minor)) by (apply version_text_at; exact Vb).
    eapply (IH h2 p3 (skip v) fl (Some b) dirs); [rewrite Ls; exact Lr|rewrite Ls; exact Lr'|exact P3|exact V3|exact Ns|exact Ev2|discriminate| |exact Kf|].
    { rewrite <- Ed1. apply pairs_ext; [apply P1|exact X2|]. apply pre_holds in P1. clear - P1. cn. }
    intros h' p' ver' dirs' v' P' X' V' N' D'. apply (Kp h' p' ver' dirs' v'); try assumption. eapply ext_trans; [exact X1|]. eapply ext_trans; eassumption.
  - (* %TAG *)
    cbn [sound_tok] in S1. destruct S1 as [Sh Sp]. pose proof (cur_holds _ _ _ _ _ _ _ P1 C1) as Ht. unfold token_blocks in Ht. rewrite Et in Ht. cbn [tok_blocks] in Ht.
    eapply sim_same; [apply bind_assoc|]. eapply sim_ok; [apply h_read_ok; [exact Sh|clear - Ht; cn]|].
    eapply sim_same; [apply bind_assoc|]. eapply sim_ok; [apply h_read_ok; [exact Sp|clear - Ht; cn]|].
    eapply sim_same; [apply bind_assoc|]. eapply append_sim; [exact P1|exact V1| |].
    { intros h2 p2 P2 X2 E2 F2. cbn [negb]. eapply dirs_error_sim; [exact P2|intros _; exact Nd|exact Kn|exact E2|].
      destruct F2 as [(e & [= <-] & A2 & V2)|N]; [left|right; exact N]. rewrite A2 in Kf. rewrite V2. apply Kf. reflexivity. }
    intros h2 p2 tags P2 X2 A2 V2 Es2. cbn [negb]. rewrite A2 in Kf, Kp.
    pose proof P2 as (G2 & _ & _ & _ & H2 & _).
    assert (Hd : holds h2 (ptr_blocks (a_at dirs))). { clear - H2. cn. }
    eapply sim_same; [apply bind_assoc|]. eapply (sim_bind _ _ _ _ _ _ (ptr_blocks ver ++ flat_map pair_blocks (a_els dirs)) true (ptr_blocks (a_at dirs)));
      [eapply pre_extra; [exact P2|unfold tags_blocks; counts]|apply (h_push_does dirs (handle, prefix) h2 G2 Nd Hd)|].
    cbn beta. intros [dirs2 ok] g h3 P3 X3 (-> & Nd2 & E2 & Y). cbn [fst snd] in *.
    assert (Ev3 : version_at h3 ver = wv).
    { rewrite <- Ev1. apply version_ext; [apply P1|eapply ext_trans; eassumption|]. apply pre_holds in P1. clear - P1. cn. }
    assert (Ed3 : map (pair_at h3) (a_els dirs) = wd).
    { rewrite <- Ed1. apply pairs_ext; [apply P1|eapply ext_trans; eassumption|]. apply pre_holds in P1. clear - P1. cn. }
    assert (Ep3 : pair_at h3 (handle, prefix) = (str_at h1 handle, str_at h1 prefix)).
    { unfold pair_at. cbn [fst snd]. rewrite !(str_ext h1 h3); try (apply P1); try (eapply ext_trans; eassumption); try reflexivity; clear - Ht; cn. }
    destruct ok; cbn [negb].
    2:{ subst dirs2. eapply dirs_error_sim; [|intros _; exact Nd|exact Kn|discriminate|right; intros g; discriminate (Y (pre_gen _ _ _ _ _ _ P2 g))].
        apply pre_error. subst_extra P3. unfold tags_blocks. rewrite !cnt_app. lia. }
    eapply sim_same; [apply skip_bind|]. eapply sim_skip; [exact P3|unfold cur; rewrite Es2; exact C1|rewrite Et; reflexivity|rewrite (pre_hp_ext _ _ _ _ _ _ _ P2 X3); exact V2|].
    intros p4 P4 V4 _ _. unfold token_blocks in P4. rewrite Et in P4. cbn [tok_blocks app] in P4.
    assert (Ls2 : p_in (skip (set_tags v tags)) = rest). { unfold skip, set_tags. cbn [p_in]. rewrite Ein. reflexivity. }
    eapply (IH h3 p4 (skip (set_tags v tags)) fl ver dirs2 wv (wd ++ [(str_at h1 handle, str_at h1 prefix)]));
      [rewrite Ls2; exact Lr|rewrite Ls2; exact Lr'| |exact V4| |exact Ev3|exact Nv| |exact Kf|].
    + eapply pre_extra; [exact P4|]. unfold tags_blocks. rewrite E2, flat_map_app. cbn [flat_map]. unfold pair_blocks at 2. cbn [fst snd]. counts.
    + split; [exact Nd2|]. rewrite E2. apply Forall_app. split; [exact Nn|]. constructor; [split; assumption|apply Forall_nil].
    + rewrite E2, map_app, Ed3. cbn [map]. rewrite Ep3. reflexivity.
    + intros h' p' ver' dirs' v' P' X' V' N' D'. apply (Kp h' p' ver' dirs' v'); try assumption.
      eapply ext_trans; [exact X1|]. eapply ext_trans; [exact X2|]. eapply ext_trans; eassumption.
Qed.
