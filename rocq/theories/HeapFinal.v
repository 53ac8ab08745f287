(* Programs that use a parser lose no memory. *)
From Coq Require Import Permutation.
From Verif Require Import Base ReaderModel Types CursorModel ScanModel ScannerModel ScannerSpec ParserModel ParserSpec ParserFinal LoaderModel LoaderSpec LoaderFinal DocModel HeapModel HeapSpec HeapLemmas HeapEvents HeapDocs
  HeapLoaderModel HeapLoader HeapLoad HeapTokenModel HeapTokenSpec HeapScan HeapLexModel HeapScanModel HeapScanSpec HeapScanSim
  HeapParserModel HeapParserSpec ScanRest HeapParser HeapParse HeapParse2 HeapParse3 HeapParse4 HeapClient.
Local Open Scope hm_scope.

Definition hp_ended (p : hp) : bool := y_ended (hp_scan p).
Lemma sound_ext p h h' : good h -> ext h h' -> holds h (hp_blocks p) -> sound_hp h p -> sound_hp h' p.
Proof. intros G X H (W & F & Ok). split; [exact W|]. split; [exact F|]. rewrite (scan_ext h h' p G X H). exact Ok. Qed.
Lemma contract : keeps_contract hp h_parse started hp_ended hp_blocks hp_at sound_hp.
Proof.
  split; [intros p h h' G X H; apply hp_ext; assumption|]. split; [reflexivity|]. intros p h G S H.
  destruct (parse_sim h p G S H) as [D|(r & g & h' & E & G' & X & C & R)]; [left; exact D|right].
  exists r, g, h'. split; [exact E|]. split; [exact G'|]. split; [exact X|]. split; [exact C|].
  unfold presult in R. unfold parse_result. destruct R as (R1 & R2 & R3). split; [exact R1|]. split; [exact R2|].
  destruct (snd r); [exact R3|exact (proj2 R3)].
Qed.

(* ---- yaml_parser_initialize, yaml_parser_delete ---- *)
Definition fresh (s : sc) : Prop := exists e nest T bad plan, s = init_scanner e nest T bad plan.
Definition made (s : sc) (h : heap) (r : option hp) (g : list nat) (h' : heap) : Prop :=
  match r with
  | Some p => g = hp_blocks p /\ sound_hp h' p /\ started p = false /\ y_at h' (hp_scan p) = s /\ hp_at h' p = init_parser (upcoming s)
  | None => g = [] /\ ~ generous h
  end.
Definition eight raw buffer (tokens : arr htoken) (indents : arr Z) (keys : arr skey) (states : arr pstate) (marks : arr mark) (tags : arr hpair) : list nat :=
  ptr_blocks raw ++ ptr_blocks buffer ++ ptr_blocks (a_at tokens) ++ ptr_blocks (a_at indents) ++ ptr_blocks (a_at keys) ++
  ptr_blocks (a_at states) ++ ptr_blocks (a_at marks) ++ ptr_blocks (a_at tags).
Lemma free_then x h t (k : hm unit) : good h -> holds h (ptr_blocks x ++ t) ->
  (forall h2, good h2 -> holds h2 t -> does k h2 t (fun _ g _ => g = [])) -> does (h_free x ;;; k) h (ptr_blocks x ++ t) (fun _ g _ => g = []).
Proof.
  intros G1 H1 K. eapply ends_bind; [apply ext_refl|apply h_free_does; [exact G1|clear - H1; cn]|]. cbn beta. intros _ g h2 G2 X2 X3 C2 ->.
  assert (H2 : holds h2 t) by (clear - H1 C2; cn). specialize (K h2 G2 H2).
  eapply ends_does; [exact X2|exact K| |]; cbn beta; [tauto|]. intros _ g h3 C ->. clear - C C2. cn.
Qed.
Lemma eight_del raw buffer tokens indents keys states marks tags h : good h -> holds h (eight raw buffer tokens indents keys states marks tags) ->
  does (parser_blocks_del raw buffer tokens indents keys states marks tags) h (eight raw buffer tokens indents keys states marks tags) (fun _ g _ => g = []).
Proof.
  intros G H. unfold parser_blocks_del, eight, h_del in *.
  do 7 (apply free_then; [assumption|assumption|]; clear G H h; intros h G H). apply h_free_does; assumption.
Qed.
Lemma give_up s raw buffer tokens indents keys states marks tags h h1 : good h1 -> ext h h1 ->
  changes h [] (eight raw buffer tokens indents keys states marks tags) h1 -> ~ generous h ->
  ends ((parser_blocks_del raw buffer tokens indents keys states marks tags ;;; hret None) h1) h [] (made s h).
Proof.
  intros G X C N. eapply ends_bind; [exact X|apply eight_del; [exact G|clear - C; intros b; specialize (C b); rewrite cnt_nil in C; lia]|].
  cbn beta. intros _ g h2 G2 X2 X3 C2 ->. eapply ends_ret; [exact G2|exact X3| |split; [reflexivity|exact N]].
  intros b. specialize (C b). specialize (C2 b). rewrite cnt_nil in *. lia.
Qed.
Ltac quit := eapply give_up; [eassumption|eassumption|unfold eight; cbn [null_arr a_at ptr_blocks]|].
Ltac refuse Y := intros g; first [discriminate (Y g) | match goal with X : ext _ _ |- _ => discriminate (Y (proj2 X g)) end].
Lemma init_room {A} h : good h -> does (@h_init A) h [] (fun r g h' => g = ptr_blocks (a_at (fst r)) /\ a_els (fst r) = [] /\
    (if snd r then room (fst r) else fst r = null_arr) /\ (generous h -> snd r = true)).
Proof.
  intros G. pose proof (ext_refl h) as X. unfold does, h_init. call (h_malloc_does [] h G). destruct Rc as (-> & R & Y).
  eapply ends_ret; [assumption|assumption|exact Cc|]. destruct a as [b|]; cbn [fst snd a_at a_els].
  - split; [reflexivity|]. split; [reflexivity|]. split; [|auto]. split; [discriminate|]. split; [reflexivity|cbn; lia].
  - split; [reflexivity|]. split; [reflexivity|]. split; [reflexivity|]. intros g. exfalso. apply Y; [exact g|reflexivity].
Qed.
Lemma initialize_does s h : fresh s -> good h -> does (parser_initialize s) h [] (made s h).
Proof.
  intros (e & nest & T & bad & plan & ->) G. pose proof (ext_refl h) as X. unfold does, parser_initialize.
  call (h_malloc_does [] h G). destruct Rc as (-> & _ & Y1). destruct a as [b1|]; cbn [is_null].
  2:{ quit; [|intros g; apply Y1; [exact g|reflexivity]]. cn. }
  call (h_malloc_does [] hc Gc). destruct Rc as (-> & _ & Y2). destruct a as [b2|]; cbn [is_null].
  2:{ quit; [|intros g; apply Y2; [apply Xc, g|reflexivity]]. cn. }
  call (@init_room htoken hc0 Gc0). destruct a as [tokens ok]. cbn [fst snd] in *. destruct Rc as (-> & E3 & N3 & Y3). destruct ok; cbn [negb].
  2:{ subst tokens. quit; [cn|refuse Y3]. }
  call (@init_room Z hc1 Gc1). destruct a as [indents ok]. cbn [fst snd] in *. destruct Rc as (-> & E4 & N4 & Y4). destruct ok; cbn [negb].
  2:{ subst indents. quit; [cn|refuse Y4]. }
  call (@init_room skey hc2 Gc2). destruct a as [keys ok]. cbn [fst snd] in *. destruct Rc as (-> & E5 & N5 & Y5). destruct ok; cbn [negb].
  2:{ subst keys. quit; [cn|refuse Y5]. }
  call (@init_room pstate hc3 Gc3). destruct a as [states ok]. cbn [fst snd] in *. destruct Rc as (-> & E6 & N6 & Y6). destruct ok; cbn [negb].
  2:{ subst states. quit; [cn|refuse Y6]. }
  call (@init_room mark hc4 Gc4). destruct a as [marks ok]. cbn [fst snd] in *. destruct Rc as (-> & E7 & N7 & Y7). destruct ok; cbn [negb].
  2:{ subst marks. quit; [cn|refuse Y7]. }
  call (@init_room hpair hc5 Gc5). destruct a as [tags ok]. cbn [fst snd] in *. destruct Rc as (-> & E8 & N8 & Y8). destruct ok; cbn [negb].
  2:{ subst tags. quit; [cn|refuse Y8]. }
  eapply ends_ret; [eassumption|eassumption| |].
  2:{ assert (V : forall h', y_at h' (mkY (init_scanner e nest T bad plan) (Some b1) (Some b2) tokens indents keys) = init_scanner e nest T bad plan).
      { intros h'. unfold y_at. cbn [y_tokens y_indents y_keys y_sc]. rewrite E3, E4, E5. reflexivity. }
      split; [reflexivity|]. split.
      - split; [|split].
        + unfold wf. cbn [hp_scan hp_states hp_marks hp_tags]. rewrite E6, E8. split; [|split; [apply N6|split; [apply N7|split; [apply N8|split; apply Forall_nil]]]].
          split; [exact N3|]. split; [exact N4|]. split; [exact N5|]. cbn [y_tokens]. rewrite E3. apply Forall_nil.
        + intros _ F. discriminate F.
        + intros _ _. cbn [hp_scan]. rewrite V. exact (lively_init e nest T bad plan).
      - split; [reflexivity|]. cbn [hp_scan]. split; [apply V|]. unfold hp_at, init_parser. cbn [hp_scan hp_error hp_state hp_states hp_marks hp_tags error_at]. rewrite V, E6, E7, E8. reflexivity. }
  unfold hp_blocks, y_blocks, tags_blocks. cbn [hp_scan hp_states hp_marks hp_tags y_raw y_buffer y_tokens y_indents y_keys]. rewrite E3, E8. cbn [flat_map].
  clear - Cc Cc0 Cc1 Cc2 Cc3 Cc4 Cc5 Cc6. cn.
Qed.

Lemma token_delete_all t h : good h -> holds h (token_blocks t) -> does (token_delete (ht_tok t)) h (token_blocks t) (fun _ g _ => g = []).
Proof. exact (token_delete_does (ht_tok t) h). Qed.
Lemma delete_does p h : good h -> wf p -> holds h (hp_blocks p) -> does (parser_delete p) h (hp_blocks p) (fun _ g _ => g = []).
Proof.
  intros G (Ws & Wst & Wm & Wt & Fs & Ft) H. unfold parser_delete, h_del. pose proof (ext_refl h) as X. destruct Ws as (Wq & Wi & Wk & _). unfold does.
  unfold hp_blocks, y_blocks, tags_blocks in *.
  eapply ends_bind; [exact X|apply h_free_does; [exact G|clear - H; cn]|]. cbn beta. intros _ g h1 G1 Y1 X1 C1 ->.
  eapply ends_bind; [exact X1|apply h_free_does; [exact G1|clear - H C1; cn]|]. cbn beta. intros _ g h2 G2 Y2 X2 C2 ->.
  eapply ends_bind; [exact X2|apply (h_pop_all_does _ token_blocks); [exact token_delete_all|exact G2|intros _; apply Wq|clear - H C1 C2; cn]|]. cbn beta. intros _ g h3 G3 Y3 X3 C3 ->.
  eapply ends_bind; [exact X3|apply h_free_does; [exact G3|clear - H C1 C2 C3; cn]|]. cbn beta. intros _ g h4 G4 Y4 X4 C4 ->.
  eapply ends_bind; [exact X4|apply h_free_does; [exact G4|clear - H C1 C2 C3 C4; cn]|]. cbn beta. intros _ g h5 G5 Y5 X5 C5 ->.
  eapply ends_bind; [exact X5|apply h_free_does; [exact G5|clear - H C1 C2 C3 C4 C5; cn]|]. cbn beta. intros _ g h6 G6 Y6 X6 C6 ->.
  eapply ends_bind; [exact X6|apply h_free_does; [exact G6|clear - H C1 C2 C3 C4 C5 C6; cn]|]. cbn beta. intros _ g h7 G7 Y7 X7 C7 ->.
  eapply ends_bind; [exact X7|apply h_free_does; [exact G7|clear - H C1 C2 C3 C4 C5 C6 C7; cn]|]. cbn beta. intros _ g h8 G8 Y8 X8 C8 ->.
  eapply ends_bind; [exact X8|apply (empty_stack_does free_pair pair_blocks); [exact free_pair_does|exact G8|intros _; exact Wt|clear - H C1 C2 C3 C4 C5 C6 C7 C8; cn]|]. cbn beta. intros _ g h9 G9 Y9 X9 C9 ->.
  eapply ends_does; [exact X9|apply h_free_does; [exact G9|clear - H C1 C2 C3 C4 C5 C6 C7 C8 C9; cn]| |]; cbn beta; [tauto|]. intros _ g h10 C ->.
  clear - H C1 C2 C3 C4 C5 C6 C7 C8 C9 C. cn.
Qed.

(* ---- programs that parse ---- *)
Definition live_parser (input : list token) (h : heap) (p : hp) : Prop :=
  sound_hp h p /\ (hp_error p <> None \/ exists es, history input es (hp_at h p)).
Lemma failed_parse p h : hp_error p <> None -> h_parse p h = HOk (p, Some (mkHevent HNoEvent (mkMark 0 0 0) (mkMark 0 0 0))) h.
Proof.
  intros E. unfold h_parse. destruct (hp_error p); [|congruence]. rewrite orb_true_r. reflexivity.
Qed.
Lemma parse_calls_does input calls : forall p evs h, good h -> live_parser input h p -> Forall sound_event (map he_ev evs) ->
  holds h (hp_blocks p ++ flat_map (fun x => ev_blocks (he_ev x)) evs) ->
  does (parse_calls calls p evs) h (hp_blocks p ++ flat_map (fun x => ev_blocks (he_ev x)) evs) (fun r g h' =>
    let '(p', evs', seen) := r in
    g = hp_blocks p' ++ flat_map (fun x => ev_blocks (he_ev x)) evs' /\ wf p' /\ Forall sound_event (map he_ev evs') /\
    (forall es, hp_error p = None -> history input es (hp_at h p) -> exists q, history input (es ++ seen) q) /\ (hp_error p <> None -> seen = []) /\
    (generous h -> hp_error p = None -> seen = fst (parse_all (parses calls) (hp_at h p)))).
Proof.
  induction calls as [|c calls IH]; intros p evs h G L S H; pose proof (ext_refl h) as X; unfold does; cbn [parse_calls parses parse_all].
  { eapply ends_ret; [exact G|exact X| |].
    2:{ split; [reflexivity|]. split; [apply L|]. split; [exact S|]. split; [intros es _ Hs; rewrite app_nil_r; eexists; exact Hs|]. split; reflexivity. }
    clear - H. cn. }
  assert (Hp : holds h (hp_blocks p)) by (clear - H; cn).
  destruct c as [|k].
  - destruct L as [Sp L]. destruct (hp_error p) as [e|] eqn:Ee.
    { clear L. assert (Ne : hp_error p <> None) by (rewrite Ee; discriminate).
      rewrite (bind_ok _ _ _ _ _ (failed_parse p h Ne)). cbn [look event_at option_map he_ev].
      destruct (IH p (mkHevent HNoEvent (mkMark 0 0 0) (mkMark 0 0 0) :: evs) h G) as ([[p1 evs1] seen] & g & h1 & E1 & G1 & X1 & C1 & -> & W1 & S1 & _ & R & _).
      + split; [exact Sp|left; exact Ne].
      + constructor; [exact I|exact S].
      + exact H.
      + unfold hbind at 1. cbn [look event_at option_map he_ev]. rewrite (bind_ok _ _ _ _ _ E1). eapply ends_ret; [exact G1|exact X1|exact C1|].
        split; [reflexivity|]. split; [exact W1|]. split; [exact S1|]. split; [discriminate|]. split; [intros _; apply R, Ne|discriminate]. }
    destruct L as [L|(es & L)]; [congruence|].
    pose proof (history_next input es _ L) as Nx.
    destruct (parse_sim h p G Sp Hp) as [[_ U]|([p1 r] & g & h1 & E1 & G1 & X1 & C1 & Sp1 & -> & R)]; [rewrite U in Nx; contradiction|].
    cbn [fst snd] in *. rewrite (bind_ok _ _ _ _ _ E1). destruct r as [x|].
    + destruct R as (Sx & R). assert (Hx : holds h1 (hp_blocks p1 ++ flat_map (fun x => ev_blocks (he_ev x)) (x :: evs))).
      { cbn [flat_map]. clear - H C1. cn. }
      destruct (parse (hp_at h p)) as [e q|q| |] eqn:Ep; try contradiction.
      * destruct R as (Ve & Vs & Vm & Vq & _). assert (He : Some e = option_map (fun e0 => mkEvent e0 (he_start x) (he_end x)) (event_at h1 (he_ev x))).
        { rewrite Ve, Vs, Vm. destruct e; reflexivity. }
        pose proof (H_call _ _ _ _ _ L Ep) as L1. rewrite <- Vq in L1. assert (Ee1 : hp_error p1 = None).
        { assert (Er : error_at (hp_error p1) = p_error q) by (rewrite <- Vq; reflexivity). rewrite Nx in Er. destruct (hp_error p1) as [[| | |]|]; [discriminate|discriminate|discriminate|discriminate|reflexivity]. }
        destruct (IH p1 (x :: evs) h1 G1) as ([[p2 evs2] seen] & g & h2 & E2 & G2 & X2 & C2 & -> & W2 & S2 & R1 & R2 & R3); [|constructor; assumption|exact Hx|].
        { split; [exact Sp1|right; eexists; exact L1]. }
        unfold hbind at 1. unfold look. rewrite <- He. rewrite (bind_ok _ _ _ _ _ E2). eapply ends_ret; [exact G2|eapply ext_trans; eassumption| |].
        2:{ split; [reflexivity|]. split; [exact W2|]. split; [exact S2|]. split; [|split; [congruence|]].
            - intros es' _ L'. pose proof (H_call _ _ _ _ _ L' Ep) as L2. rewrite <- Vq in L2. destruct (R1 _ Ee1 L2) as (q' & R1'). exists q'.
              rewrite <- app_assoc in R1'. exact R1'.
            - intros g _. rewrite (R3 (proj2 X1 g) Ee1), Vq. cbn [parses parse_all]. rewrite Ep. destruct (parse_all (parses calls) q). reflexivity. }
        cbn [flat_map] in C2. clear - C1 C2. cn.
      * destruct R as (Vx & Vq). destruct Nx as [Nq _]. subst q. rewrite Vx in *.
        assert (L1 : history input es (hp_at h1 p1)) by (rewrite Vq; exact L).
        destruct (hp_error p1) as [e1|] eqn:Ee1.
        { exfalso. assert (Er : error_at (hp_error p1) = error_at (hp_error p)) by (change (p_error (hp_at h1 p1) = p_error (hp_at h p)); rewrite Vq; reflexivity).
          rewrite Ee1, Ee in Er. destruct e1; discriminate. }
        destruct (IH p1 (x :: evs) h1 G1) as ([[p2 evs2] seen] & g & h2 & E2 & G2 & X2 & C2 & -> & W2 & S2 & R1 & R2 & R3).
        { split; [exact Sp1|right; eexists; exact L1]. }
        { cbn [map]. rewrite Vx. constructor; [exact I|exact S]. }
        { exact Hx. }
        unfold hbind at 1. unfold look. rewrite Vx. cbn [event_at option_map]. rewrite (bind_ok _ _ _ _ _ E2). eapply ends_ret; [exact G2|eapply ext_trans; eassumption| |].
        2:{ split; [reflexivity|]. split; [exact W2|]. split; [exact S2|]. split; [|split; [congruence|]].
            - intros es' _ L'. rewrite <- Vq in L'. exact (R1 _ Ee1 L').
            - intros g _. rewrite (R3 (proj2 X1 g) Ee1), Vq. cbn [parses]. destruct (parses calls); cbn [parse_all]; rewrite Ep; reflexivity. }
        cbn [flat_map] in C2. rewrite Vx in C2. cbn [ev_blocks] in *. clear - C1 C2. cn.
    + destruct R as (Ne & R). 
      destruct (IH p1 evs h1 G1) as ([[p2 evs2] seen] & g & h2 & E2 & G2 & X2 & C2 & -> & W2 & S2 & R1 & R2 & R3).
      { split; [exact Sp1|left; exact Ne]. }
      { exact S. }
      { clear - H C1. cn. }
      rewrite E2. eexists. eexists. eexists. split; [reflexivity|]. split; [exact G2|]. split; [eapply ext_trans; eassumption|]. split.
      2:{ split; [reflexivity|]. split; [exact W2|]. split; [exact S2|]. split; [|split; [congruence|]].
          - intros es' _ L'. rewrite (R2 Ne), app_nil_r. eexists. exact L'.
          - intros g _. rewrite (R2 Ne). cbn [parses parse_all]. destruct R as [(q & R & _)|R]; [rewrite R; reflexivity|contradiction]. }
      clear - C1 C2. cn.
  - destruct (nth_error evs k) as [x|] eqn:Ek.
    2:{ apply (IH p evs h G L S H). }
    assert (Sx : sound_event (he_ev x)). { rewrite Forall_forall in S. apply S. apply in_map. eapply nth_error_In. exact Ek. }
    pose proof (fun b => flat_split (fun x => ev_blocks (he_ev x)) evs k x b Ek) as F.
    destruct (event_delete_does (he_ev x) h G Sx) as (u & g & h1 & E1 & G1 & X1 & C1 & ->).
    { intros b. specialize (H b). specialize (F b). rewrite cnt_app in H. lia. }
    rewrite (bind_ok _ _ _ _ _ E1). destruct L as [Sp L].
    assert (V1 : hp_at h1 p = hp_at h p) by (apply hp_ext; assumption).
    destruct (IH p (remove_nth k evs) h1 G1) as ([[p2 evs2] seen] & g & h2 & E2 & G2 & X2 & C2 & -> & W2 & S2 & R1 & R2 & R3).
    { split; [apply (sound_ext p h h1); assumption|]. rewrite V1. exact L. }
    { rewrite Forall_map in *. apply forall_remove. exact S. }
    { intros b. specialize (H b). specialize (F b). specialize (C1 b). rewrite cnt_app, cnt_nil in *. lia. }
    rewrite E2. eexists. eexists. eexists. split; [reflexivity|]. split; [exact G2|]. split; [eapply ext_trans; eassumption|]. split.
    2:{ split; [reflexivity|]. split; [exact W2|]. split; [exact S2|]. rewrite V1 in R1, R3. split; [exact R1|]. split; [exact R2|].
        intros g. apply R3, X1, g. }
    intros b. specialize (F b). specialize (C1 b). specialize (C2 b). rewrite !cnt_app, ?cnt_nil in *. lia.
Qed.

Theorem parser_history s calls h : fresh s -> good h ->
  match parser_initialize s h with
  | HOk None h' => Permutation (live h') (live h) /\ ~ generous h
  | HOk (Some p) h1 =>
      match parse_calls calls p [] h1 with
      | HOk (p', evs, seen) h2 =>
          Permutation (live h2) (hp_blocks p' ++ flat_map (fun x => ev_blocks (he_ev x)) evs ++ live h) /\
          (exists q, history (upcoming s) seen q) /\
          (generous h -> seen = fst (parse_all (parses calls) (init_parser (upcoming s)))) /\
          exists h3, parser_delete p' h2 = HOk tt h3 /\ Permutation (live h3) (flat_map (fun x => ev_blocks (he_ev x)) evs ++ live h)
      | _ => False
      end
  | _ => False
  end.
Proof.
  intros Fr G. destruct (initialize_does s h Fr G) as (r & g & h1 & E & G1 & X1 & C1 & R). rewrite E. destruct r as [p|]; cbn [made] in R.
  2:{ destruct R as (-> & N). split; [|exact N]. apply (changes_perm _ _ _ _ C1 eq_refl). }
  destruct R as (-> & Sp & _ & _ & V). assert (Ee : hp_error p = None).
  { assert (Er : error_at (hp_error p) = None) by (change (p_error (hp_at h1 p) = None); rewrite V; reflexivity). destruct (hp_error p) as [[| | |]|]; [discriminate|discriminate|discriminate|discriminate|reflexivity]. }
  assert (H1 : holds h1 (hp_blocks p)) by (clear - C1; cn).
  destruct (parse_calls_does (upcoming s) calls p [] h1 G1) as ([[p' evs] seen] & g & h2 & E2 & G2 & X2 & C2 & -> & W2 & S2 & R1 & _ & R3).
  { split; [exact Sp|]. right. exists []. rewrite V. constructor. }
  { apply Forall_nil. }
  { cbn [flat_map]. rewrite app_nil_r. exact H1. }
  rewrite E2. cbn [flat_map] in C2. rewrite app_nil_r in C2.
  assert (C3 : changes h [] (hp_blocks p' ++ flat_map (fun x => ev_blocks (he_ev x)) evs) h2) by (clear - C1 C2; cn).
  split; [rewrite app_assoc; apply (changes_perm _ _ _ _ C3 eq_refl)|]. split.
  { rewrite V in R1. exact (R1 [] Ee (H_start _)). }
  split; [intros g; rewrite <- V; apply R3; [apply X1, g|exact Ee]|].
  destruct (delete_does p' h2 G2 W2) as ([] & g & h3 & E3 & G3 & X3 & C4 & ->); [clear - C3; cn|].
  exists h3. split; [exact E3|]. apply (changes_perm h []); [|reflexivity]. clear - C3 C4. cn.
Qed.

(* ---- programs that load ---- *)
Definition live_loader (fuel : nat) (input : list token) (l : loader) : Prop :=
  (exists ds, load_history fuel input ds l) \/ load fuel l = LNoDocument l.
Lemma live_load fuel input l : (4 * length input < fuel)%nat -> live_loader fuel input l ->
  match load fuel l with
  | LDocument _ l' | LNoDocument l' => live_loader fuel input l'
  | LFailed _ => True
  | _ => False
  end.
Proof.
  intros F [(ds & H)|E].
  - pose proof (load_safe fuel input ds l F H) as L. pose proof (load_ended fuel input ds l) as En.
    destruct (load fuel l) as [d l'|l'|l'| | |] eqn:El; try exact I; try (destruct L; congruence); try contradiction.
    + left. eexists. eapply LH_call; eassumption.
    + right. apply En; auto.
  - rewrite E. right. exact E.
Qed.
Lemma flat_doc_snoc docs d : flat_map doc_blocks (docs ++ [d]) = flat_map doc_blocks docs ++ doc_blocks d.
Proof. rewrite flat_map_app. cbn [flat_map]. rewrite app_nil_r. reflexivity. Qed.
Lemma load_calls_does fuel input n : (4 * length input < fuel)%nat -> forall p docs h, good h -> sound_hp h p -> live_loader fuel input (mkLoader (hp_at h p) (started p)) ->
  Forall sound_doc docs -> holds h (hp_blocks p ++ flat_map doc_blocks docs) ->
  does (load_calls fuel n p docs) h (hp_blocks p ++ flat_map doc_blocks docs) (fun r g h' =>
    let '(p', docs', failed) := r in
    exists new leaked, docs' = docs ++ new /\ g = hp_blocks p' ++ flat_map doc_blocks docs' ++ leaked /\ wf p' /\ Forall sound_doc docs' /\ leak leaked /\
      (generous h -> leaked = []) /\ (failed = false -> leaked = []) /\
      (exists rest, fst (loads_of fuel n (mkLoader (hp_at h p) (started p))) = map (document_at h') new ++ rest) /\
      (generous h -> loads_of fuel n (mkLoader (hp_at h p) (started p)) = (map (document_at h') new, failed))).
Proof.
  intros F. induction n as [|n IH]; intros p docs h G Sp L Sd H; unfold does; cbn [load_calls loads_of].
  { eapply ends_ret; [exact G|apply ext_refl| |].
    2:{ exists [], []. rewrite !app_nil_r. split; [reflexivity|]. split; [reflexivity|]. split; [apply Sp|]. split; [exact Sd|]. split; [left; cbn; lia|].
        split; [reflexivity|]. split; [reflexivity|]. split; [exists []; reflexivity|reflexivity]. }
    clear - H. cn. }
  assert (Hp : holds h (hp_blocks p)) by (clear - H; cn).
  pose proof (live_load _ _ _ F L) as N. change (load_one fuel) with (h_load hp h_parse started hp_ended fuel).
  destruct (load_does hp h_parse started hp_ended hp_blocks hp_at sound_hp contract sound_ext fuel p h G Sp Hp) as [[_ U]|[[_ U]|([p1 o] & g & h1 & E1 & G1 & X1 & C1 & Sp1 & R)]];
    [rewrite U in N; contradiction|rewrite U in N; contradiction|].
  rewrite (bind_ok _ _ _ _ _ E1).
  assert (More : forall d l', g = hp_blocks p1 ++ doc_blocks d -> sound_doc d -> started p1 = true -> l' = mkLoader (hp_at h1 p1) true -> live_loader fuel input l' ->
    (let (ds, b) := loads_of fuel n l' in (document_at h1 d :: ds, b)) = loads_of fuel (Datatypes.S n) (mkLoader (hp_at h p) (started p)) ->
    ends (load_calls fuel n p1 (docs ++ [d]) h1) h (hp_blocks p ++ flat_map doc_blocks docs) (fun r g h' =>
    let '(p', docs', failed) := r in
    exists new leaked, docs' = docs ++ new /\ g = hp_blocks p' ++ flat_map doc_blocks docs' ++ leaked /\ wf p' /\ Forall sound_doc docs' /\ leak leaked /\
      (generous h -> leaked = []) /\ (failed = false -> leaked = []) /\
      (exists rest, fst (loads_of fuel (Datatypes.S n) (mkLoader (hp_at h p) (started p))) = map (document_at h') new ++ rest) /\
      (generous h -> loads_of fuel (Datatypes.S n) (mkLoader (hp_at h p) (started p)) = (map (document_at h') new, failed)))).
  { clear R N. intros d l' -> Sdd St -> N Ev. rewrite <- St in N. assert (Hd : holds h1 (doc_blocks d)) by (clear - C1 Hp; cn).
    destruct (IH p1 (docs ++ [d]) h1 G1 Sp1 N) as ([[p2 docs2] failed] & g & h2 & E2 & G2 & X2 & C2 & new & leaked & -> & -> & W & Sd2 & Lk & Gn & Fl & (rest & Vr) & Vg).
    { apply Forall_app. split; [exact Sd|]. constructor; [exact Sdd|apply Forall_nil]. }
    { rewrite flat_doc_snoc. clear - H C1. cn. }
    rewrite E2. exists (p2, (docs ++ [d]) ++ new, failed), (hp_blocks p2 ++ flat_map doc_blocks ((docs ++ [d]) ++ new) ++ leaked), h2. split; [reflexivity|]. split; [exact G2|]. split; [eapply ext_trans; eassumption|]. split.
    { rewrite flat_doc_snoc in C2. clear - C1 C2. cn. }
    exists (d :: new), leaked. rewrite <- app_assoc in *. split; [reflexivity|]. split; [reflexivity|]. split; [exact W|]. split; [exact Sd2|]. split; [exact Lk|].
    split; [intros g; apply Gn, X1, g|]. split; [exact Fl|]. rewrite St in *. cbn [map]. rewrite (document_ext h1 h2 d G1 X2 Hd). rewrite <- Ev.
    destruct (loads_of fuel n (mkLoader (hp_at h1 p1) true)) as [ds b]. cbn [fst] in *. split; [exists rest; rewrite Vr; reflexivity|].
    intros g. specialize (Vg (proj2 X1 g)). injection Vg as -> ->. reflexivity. }
  destruct o as [d|d| |].
  - destruct R as (R1 & R2 & R3 & R4). rewrite R4 in N. eapply More; eauto. cbn [loads_of]. rewrite R4. reflexivity.
  - destruct R as (R1 & R2 & R3 & R4 & R5). rewrite R5 in N. eapply More; eauto. cbn [loads_of]. rewrite R4, R5. reflexivity.
  - destruct R as (leaked & -> & Lk & R). clear More. eapply ends_ret; [exact G1|exact X1| |].
    2:{ exists [], leaked. rewrite !app_nil_r. split; [reflexivity|]. split; [reflexivity|]. split; [apply Sp1|]. split; [exact Sd|]. split; [exact Lk|].
        split; [intros g; apply R, g|]. split; [discriminate|]. split; [eexists; reflexivity|]. intros g. destruct (R g) as (_ & l' & ->). reflexivity. }
    clear - H C1. cn.
  - rewrite R in N. contradiction.
Qed.

Lemma delete_docs_does docs : forall h, good h -> Forall sound_doc docs -> holds h (flat_map doc_blocks docs) ->
  does (delete_docs docs) h (flat_map doc_blocks docs) (fun _ g _ => g = []).
Proof.
  induction docs as [|d docs IH]; intros h G S H; unfold does; cbn [delete_docs flat_map] in *.
  { eapply ends_ret; [exact G|apply ext_refl| |reflexivity]. cn. }
  inversion S as [|? ? Sd Sr]; subst. destruct Sd as (S1 & _ & S3).
  destruct (document_delete_does d h G) as (u & g & h1 & E1 & G1 & X1 & C1 & ->); [intros _; apply S1|exact (proj1 S3)|clear - H; cn|].
  rewrite (bind_ok _ _ _ _ _ E1). destruct (IH h1 G1 Sr) as (u2 & g & h2 & E2 & G2 & X2 & C2 & ->); [clear - H C1; cn|].
  rewrite E2. eexists. eexists. eexists. split; [reflexivity|]. split; [exact G2|]. split; [eapply ext_trans; eassumption|]. split; [|reflexivity]. clear - C1 C2. cn.
Qed.

Theorem loader_history s fuel n h : fresh s -> good h -> (4 * length (upcoming s) < fuel)%nat ->
  match parser_initialize s h with
  | HOk None h' => Permutation (live h') (live h) /\ ~ generous h
  | HOk (Some p) h1 =>
      match load_calls fuel n p [] h1 with
      | HOk (p', docs, failed) h2 =>
          exists leaked,
          Permutation (live h2) (hp_blocks p' ++ flat_map doc_blocks docs ++ leaked ++ live h) /\
          leak leaked /\ (leaked <> [] -> failed = true /\ ~ generous h) /\
          (exists rest, fst (loads_of fuel n (init_loader (upcoming s))) = map (document_at h2) docs ++ rest) /\
          (generous h -> (map (document_at h2) docs, failed) = loads_of fuel n (init_loader (upcoming s))) /\
          exists h3, (delete_docs docs ;;; parser_delete p') h2 = HOk tt h3 /\ Permutation (live h3) (leaked ++ live h)
      | _ => False
      end
  | _ => False
  end.
Proof.
  intros Fr G F. destruct (initialize_does s h Fr G) as (r & g & h1 & E & G1 & X1 & C1 & R). rewrite E. destruct r as [p|]; cbn [made] in R.
  2:{ destruct R as (-> & N). split; [|exact N]. apply (changes_perm _ _ _ _ C1 eq_refl). }
  destruct R as (-> & Sp & St & _ & V). assert (H1 : holds h1 (hp_blocks p)) by (clear - C1; cn).
  assert (Vi : mkLoader (hp_at h1 p) (started p) = init_loader (upcoming s)) by (rewrite V, St; reflexivity).
  destruct (load_calls_does fuel (upcoming s) n F p [] h1 G1 Sp) as ([[p' docs] failed] & g & h2 & E2 & G2 & X2 & C2 & new & leaked & En & -> & W & Sd & Lk & Gn & Fl & Vr & Vg).
  { rewrite Vi. left. eexists. constructor. }
  { apply Forall_nil. }
  { cbn [flat_map]. rewrite app_nil_r. exact H1. }
  cbn [app] in En. subst new. rewrite E2. rewrite Vi in *. cbn [flat_map] in C2. rewrite app_nil_r in C2.
  assert (C3 : changes h [] (hp_blocks p' ++ flat_map doc_blocks docs ++ leaked) h2) by (clear - C1 C2; cn).
  exists leaked. split; [rewrite !app_assoc, <- (app_assoc _ (flat_map _ _) leaked); apply (changes_perm _ _ _ _ C3 eq_refl)|]. split; [exact Lk|].
  split; [intros Nl; split; [destruct failed; [reflexivity|destruct Nl; auto]|intros g; apply Nl, Gn, X1, g]|].
  split; [exact Vr|]. split; [intros g; symmetry; apply Vg, X1, g|].
  destruct (delete_docs_does docs h2 G2 Sd) as ([] & g & h3 & E3 & G3 & X3 & C4 & ->); [clear - C3; cn|].
  destruct (delete_does p' h3 G3 W) as ([] & g & h4 & E4 & G4 & X4 & C5 & ->); [clear - C3 C4; cn|].
  exists h4. rewrite (bind_ok _ _ _ _ _ E3). split; [exact E4|]. apply (changes_perm h []); [|reflexivity]. clear - C3 C4 C5. cn.
Qed.
