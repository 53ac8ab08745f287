(* yaml_parser_load at the level of allocated blocks, for any parser that keeps
   the contract below (HeapParser.v: the model of parser.c keeps it). *)
From Coq Require Import Permutation.
From Verif Require Import Base ReaderModel Types ParserModel DocModel LoaderModel HeapModel HeapSpec HeapLemmas HeapEvents HeapDocs HeapLoaderModel HeapLoader.

Lemma delete_aliases_does al h : good h -> (a_els al <> [] -> a_at al <> None) -> holds h (aliases_blocks al) ->
  does (delete_aliases al) h (aliases_blocks al) (fun _ g _ => g = []).
Proof.
  intros G S H. pose proof (ext_refl h) as X. unfold does, delete_aliases, h_del, aliases_blocks in *.
  eapply ends_bind; [exact X|apply (empty_stack_does (fun a : halias => h_free (fst (fst a))) alias_blocks)|].
  - intros x h1 G1 H1. apply h_free_does; assumption.
  - exact G.
  - exact S.
  - exact H.
  - cbn beta. intros _ g h1 G1 X1 X2 C ->. eapply ends_does; [eassumption|apply h_free_does; [exact G1|cn]| |]; cbn beta; [tauto|]. intros _ g h2 C2 ->. cn.
Qed.

Section Contract.
  Variable P : Type.
  Variable hparse : P -> hm (P * option hevent).
  Variable started ended : P -> bool.
  Variable blocks : P -> list nat.
  Variable value : heap -> P -> parser.
  Variable sound : heap -> P -> Prop.

  Definition parse_result (h : heap) (p : P) (r : P * option hevent) (g : list nat) (h' : heap) : Prop :=
    sound h' (fst r) /\
    g = blocks (fst r) ++ match snd r with Some x => ev_blocks (he_ev x) | None => [] end /\
    match snd r with
    | Some x => sound_event (he_ev x) /\
        match parse (value h p) with
        | PEvent e q => event_at h' (he_ev x) = Some (e_ev e) /\ he_start x = e_start e /\ he_end x = e_end e /\
            value h' (fst r) = q /\ started (fst r) = true
        | PNothing q => he_ev x = HNoEvent /\ value h' (fst r) = q
        | _ => False
        end
    | None => (exists q, parse (value h p) = PFail q /\ value h' (fst r) = q) \/ ~ generous h
    end.
  Definition keeps_contract : Prop :=
    (forall p h h', good h -> ext h h' -> holds h (blocks p) -> value h' p = value h p) /\
    (forall p h, ended p = p_end (value h p)) /\
    forall p h, good h -> sound h p -> holds h (blocks p) ->
      (hparse p h = HUndef /\ parse (value h p) = PUB) \/ does (hparse p) h (blocks p) (parse_result h p).
  Hypothesis K : keeps_contract.
  Hypothesis Ks : forall p h h', good h -> ext h h' -> holds h (blocks p) -> sound h p -> sound h' p.

  Definition nodes_result (h : heap) (s : lh) (k : parser -> lstate -> bool -> lout) (out : lout) (r : P * lh * hnodes) (g : list nat) (h' : heap) : Prop :=
    let '(p', s', n) := r in
    exists leaked, g = blocks p' ++ lh_blocks s' ++ leaked /\ (length leaked <= 1)%nat /\ (generous h -> leaked = []) /\
      sound h' p' /\ lh_sound s' /\ same_head (lh_doc s) (lh_doc s') /\
      match n with
      | HNodesDone i => leaked = [] /\ started p' = true /\ out = k (value h' p') (lh_at h' s') i
      | HNodesFailed => (exists l', out = LFailed l') \/ ~ generous h
      | HNodesFuel => leaked = [] /\ out = LOutOfFuel
      end.
  Lemma nodes_result_mono h h1 s s1 k out r g h' : ext h h1 -> same_head (lh_doc s) (lh_doc s1) ->
    nodes_result h1 s1 k out r g h' -> nodes_result h s k out r g h'.
  Proof.
    intros X D. destruct r as [[p' s'] n]. intros (leaked & A & B & C & E & F & F2 & F3). exists leaked. split; [exact A|]. split; [exact B|].
    split; [intros g0; apply C, X, g0|]. split; [exact E|]. split; [exact F|]. split; [eapply same_head_trans; eassumption|].
    destruct n; auto. destruct F3 as [F3|F3]; [left; exact F3|right; intros g0; apply F3, X, g0].
  Qed.

  Lemma load_nodes_does fuel : forall p s h k, good h -> sound h p -> lh_sound s -> holds h (blocks p ++ lh_blocks s) ->
    let out := load_nodes fuel (value h p) (lh_at h s) k in
    let r := h_load_nodes P hparse fuel p s h in
    (r = HAssert /\ out = LAssertFail) \/ (r = HUndef /\ out = LUB) \/ ends r h (blocks p ++ lh_blocks s) (nodes_result h s k out).
  Proof.
    destruct K as (Kx & Ke & Kp). induction fuel as [|f IH]; intros p s h k G Sp S H; pose proof (ext_refl h) as X; cbn [load_nodes h_load_nodes]; cbv zeta.
    { right. right. eapply ends_ret; [assumption|assumption| |].
      2:{ exists []. split; [reflexivity|]. split; [cbn; lia|]. split; [auto|]. split; [exact Sp|]. split; [exact S|]. split; [apply same_head_refl|]. split; reflexivity. }
      rewrite app_nil_r. intros b. lia. }
    assert (H1 : holds h (blocks p)) by cn. assert (H2 : holds h (lh_blocks s)) by cn.
    destruct (Kp p h G Sp H1) as [[Eu Ev]|([p1 r] & g & h1 & E1 & G1 & X1 & C1 & R)].
    { right. left. rewrite Ev. split; [|reflexivity]. unfold hbind. rewrite Eu. reflexivity. }
    rewrite (bind_ok _ _ _ _ _ E1). destruct R as (Sp1 & -> & R). cbn [fst snd] in *. destruct r as [x|].
    2:{ right. right. eapply ends_ret; [assumption|assumption| |].
        2:{ exists []. split; [reflexivity|]. split; [cbn; lia|]. split; [auto|]. split; [exact Sp1|]. split; [exact S|]. split; [apply same_head_refl|].
            destruct R as [(q & R & _)|R]; [left; rewrite R; eexists; reflexivity|right; exact R]. }
        clear IH K Ks Kp Kx Ke. cn. }
    destruct R as (Sx & R). destruct (parse (value h p)) as [e q|q| |] eqn:Ep; try contradiction.
    2:{ destruct R as (Rn & _). left. split; [|reflexivity]. unfold h_load_event, hbind. rewrite Rn. reflexivity. }
    destruct R as (Ve & Vs & Vm & Vq & St).
    assert (H3 : holds h1 (lh_blocks s ++ ev_blocks (he_ev x))) by (clear IH K Ks Kp Kx Ke; cn).
    pose proof (load_event_does s x e h1 G1 S Sx Ve Vs H3) as Step. rewrite (lh_ext h h1 s G X1 H2) in Step.
    assert (Other : (forall i, he_ev x <> HDocEnd i) ->
      let out := match load_event (lh_at h s) e with LNext s' => load_nodes f q s' k | LError err => LFailed (mkLoader (set_error q err) true)
                 | LAssertion => LAssertFail | LUndefined => LUB end in
      let r := hbind (h_load_event s x) (fun '(s0, ok) => if ok then h_load_nodes P hparse f p1 s0 else hret (p1, s0, HNodesFailed)) h1 in
      (r = HAssert /\ out = LAssertFail) \/ (r = HUndef /\ out = LUB) \/ ends r h (blocks p ++ lh_blocks s) (nodes_result h s k out)).
    { intros _. cbv zeta. destruct Step as [[[E2 E3]|[E2 E3]]|Step].
      - left. rewrite E3. split; [|reflexivity]. unfold hbind. rewrite E2. reflexivity.
      - right. left. rewrite E3. split; [|reflexivity]. unfold hbind. rewrite E2. reflexivity.
      - destruct Step as ([s1 ok] & g & h2 & E2 & G2 & X2 & C2 & leaked & -> & L1 & L2 & S1 & D1 & F1). cbn [fst snd] in *.
        rewrite (bind_ok _ _ _ _ _ E2). pose proof (ext_trans _ _ _ X1 X2) as X3.
        assert (H4 : holds h2 (blocks p1)) by (clear IH K Ks Kp Kx Ke; cn). assert (Hp1 : holds h1 (blocks p1)) by (clear IH K Ks Kp Kx Ke; cn).
        destruct ok.
        + rewrite F1. rewrite (L2 (or_intror eq_refl)) in C2. assert (H5 : holds h2 (blocks p1 ++ lh_blocks s1)) by (clear IH K Ks Kp Kx Ke; cn).
          rewrite <- Vq. assert (Vp : value h2 p1 = value h1 p1). { apply Kx; [exact G1|exact X2|]. clear IH K Ks Kp Kx Ke. cn. }
          rewrite <- Vp. destruct (IH p1 s1 h2 k G2 (Ks p1 h1 h2 G1 X2 Hp1 Sp1) S1 H5) as [D|[D|D]]; [left; exact D|right; left; exact D|right; right].
          eapply ends_does; [exact X3|exact D| |]; cbn beta.
          * intros a g h3 G3 X4 X5 C3 N _. exact (nodes_result_mono _ _ _ _ _ _ _ _ _ X3 D1 N).
          * intros a g h3 C3 _. clear IH K Ks Kp Kx Ke. cn.
        + right. right. eapply ends_ret; [assumption|exact X3| |].
          2:{ exists leaked. split; [reflexivity|]. split; [exact L1|]. split; [intros g; apply L2; left; apply X1, g|]. split; [exact (Ks p1 h1 h2 G1 X2 Hp1 Sp1)|]. split; [exact S1|]. split; [exact D1|].
              destruct F1 as [(er & F1)|F1]; [left; rewrite F1; eexists; reflexivity|right; intros g; apply F1, X1, g]. }
          clear IH K Ks Kp Kx Ke. cn. }
    assert (Ev : (forall i, he_ev x <> HDocEnd i) -> match e_ev e with EDocEnd _ => False | _ => True end).
    { intros N. destruct (he_ev x); cbn [event_at] in Ve; try discriminate; injection Ve as <-; try exact I. exact (N implicit eq_refl). }
    destruct (he_ev x) eqn:Ex; try (specialize (Other ltac:(discriminate)); specialize (Ev ltac:(discriminate)); destruct (e_ev e); try contradiction; exact Other).
    cbn [event_at ev_blocks] in *. injection Ve as <-.
    right. right. eapply ends_ret; [assumption|assumption| |].
    2:{ exists []. split; [reflexivity|]. split; [cbn; lia|]. split; [auto|]. split; [exact Sp1|]. split; [exact S|]. split; [apply same_head_refl|].
        split; [reflexivity|]. split; [exact St|]. rewrite Vq, (lh_ext h h1 s G X1 H2). reflexivity. }
    clear IH K Ks Kp Kx Ke Other Ev Step. cn.
  Qed.

  (* blocks lost: none, one array of a node, or the strings of one event *)
  Definition leak (l : list nat) : Prop := (length l <= 1)%nat \/ exists e, l = ev_blocks e.
  Definition load_result (h : heap) (out : lout) (r : P * hload) (g : list nat) (h' : heap) : Prop :=
    let '(p', o) := r in
    sound h' p' /\
    match o with
    | HLoaded d => g = blocks p' ++ doc_blocks d /\ sound_doc d /\ started p' = true /\ out = LDocument (document_at h' d) (mkLoader (value h' p') true)
    | HLoadedEnd d => g = blocks p' ++ doc_blocks d /\ sound_doc d /\ started p' = true /\ document_at h' d = mkDoc [] None [] false false /\
        out = LNoDocument (mkLoader (value h' p') true)
    | HLoadFailed => exists leaked, g = blocks p' ++ leaked /\ leak leaked /\ (generous h -> leaked = [] /\ exists l', out = LFailed l')
    | HLoadFuel => out = LOutOfFuel
    end.
  Definition loads (r : hres (P * hload)) (h : heap) (taken : list nat) (out : lout) : Prop :=
    (r = HAssert /\ out = LAssertFail) \/ (r = HUndef /\ out = LUB) \/ ends r h taken (load_result h out).

  Lemma fail_ends al d p' h0 h1 taken leaked out :
    good h1 -> ext h0 h1 -> (a_els al <> [] -> a_at al <> None) -> sound_arr (hd_nodes d) -> sound_arr (hd_tags d) -> sound h1 p' ->
    changes h0 taken (blocks p' ++ doc_blocks d ++ aliases_blocks al ++ leaked) h1 -> leak leaked -> (generous h0 -> leaked = [] /\ exists l', out = LFailed l') ->
    holds h1 (blocks p' ++ doc_blocks d ++ aliases_blocks al) ->
    ends ((delete_aliases al ;;; document_delete d ;;; hret (p', HLoadFailed)) h1) h0 taken (load_result h0 out).
  Proof.
    clear K. intros G X Sa Sn St Sp C L F H. assert (Hp : holds h1 (blocks p')) by (clear - H; cn).
    eapply ends_bind; [exact X|apply delete_aliases_does; [exact G|exact Sa|clear - H; cn]|]. cbn beta. intros _ g h2 G2 X2 X3 C2 ->.
    eapply ends_bind; [exact X3|apply document_delete_does; [exact G2|exact Sn|exact St|clear - H C2; cn]|]. cbn beta. intros _ g h3 G3 X4 X5 C3 ->.
    eapply ends_ret; [assumption|assumption| |]. 2:{ split; [exact (Ks p' h1 h3 G (ext_trans _ _ _ X2 X4) Hp Sp)|]. exists leaked. split; [reflexivity|]. split; [exact L|exact F]. }
    clear - H C C2 C3. cn.
  Qed.

  Lemma event_ext h h' e : good h -> ext h h' -> holds h (ev_blocks e) -> event_at h' e = event_at h e.
  Proof.
    clear K Ks. intros G X H. destruct e; cbn [event_at ev_blocks] in *; try reflexivity.
    - unfold tags_blocks in H. rewrite (version_ext h h' _ G X), (pairs_ext h h' _ G X); [reflexivity| |]; cn.
    - rewrite (str_ext h h' _ G X); [reflexivity|]; cn.
    - rewrite !(opt_ext h h' _ G X), (str_ext h h' _ G X); [reflexivity| | |]; cn.
    - rewrite !(opt_ext h h' _ G X); [reflexivity| |]; cn.
    - rewrite !(opt_ext h h' _ G X); [reflexivity| |]; cn.
  Qed.
  Definition new_doc (nodes : arr hnode) : hdoc := with_nodes null_doc nodes.
  Lemma null_sound {A} : a_els (@null_arr A) <> [] -> a_at (@null_arr A) <> None.
  Proof. intros E. exfalso. apply E. reflexivity. Qed.

  Lemma load_document_does fuel p nodes al x e h0 h taken : good h -> ext h0 h -> sound h p -> started p = true ->
    a_at nodes <> None -> a_els nodes = [] -> a_at al <> None -> a_els al = [] ->
    sound_event (he_ev x) -> event_at h (he_ev x) = Some (e_ev e) ->
    holds h (blocks p ++ ptr_blocks (a_at nodes) ++ ptr_blocks (a_at al) ++ ev_blocks (he_ev x)) ->
    changes h0 taken (blocks p ++ ptr_blocks (a_at nodes) ++ ptr_blocks (a_at al) ++ ev_blocks (he_ev x)) h ->
    loads (h_load_document P hparse fuel p (new_doc nodes) al x h) h0 taken (load_document fuel (value h p) e).
  Proof.
    intros G X Sp St Sn En Sa Ea Sx V H C. unfold h_load_document, load_document.
    destruct (he_ev x) as [| | |v tags implicit| | | | | | |] eqn:Ex; cbn [event_at] in V; try discriminate; injection V as <-; try (left; split; reflexivity).
    cbn [new_doc with_nodes hd_nodes hd_end_implicit null_doc ev_blocks sound_event] in *.
    set (d := mkHdoc nodes v tags implicit false).
    assert (Bd : doc_blocks d = ptr_blocks (a_at nodes) ++ ptr_blocks v ++ tags_blocks tags).
    { unfold doc_blocks, d. cbn [hd_nodes hd_version hd_tags]. rewrite En. reflexivity. }
    assert (Ba : aliases_blocks al = ptr_blocks (a_at al)) by (unfold aliases_blocks; rewrite Ea; reflexivity).
    assert (Sd : sound_doc d). { split; [exact Sn|]. unfold d. cbn [hd_nodes hd_tags]. rewrite En. split; [constructor|exact Sx]. }
    destruct (@h_init_does nat h G) as ([ctx ok] & g & h1 & E1 & G1 & X1 & C1 & -> & Ei & Ri & Y). cbn [fst snd] in *. rewrite (bind_ok _ _ _ _ _ E1).
    pose proof (ext_trans _ _ _ X X1) as X2.
    assert (Hp : holds h (blocks p)) by (clear K Ks Bd Ba; cn). pose proof (Ks p h h1 G X1 Hp Sp) as Sp'. clear Hp. destruct ok; cbn [negb].
    2:{ right. right. subst ctx. apply (fail_ends al d p h0 h1 taken []); auto.
        - intros _. exact Sn.
        - exact (proj1 Sx).
        - rewrite Bd, Ba, app_nil_r. clear K Ks Bd Ba. cn.
        - left. cbn. lia.
        - intros g. exfalso. discriminate (Y (proj2 X g)).
        - rewrite Bd, Ba. clear K Ks Bd Ba. cn. }
    set (s := mkLh d al ctx).
    assert (Bs : lh_blocks s = (ptr_blocks (a_at nodes) ++ ptr_blocks v ++ tags_blocks tags) ++ ptr_blocks (a_at al) ++ ptr_blocks (a_at ctx)).
    { unfold lh_blocks, s. cbn [lh_doc lh_aliases lh_ctx]. rewrite Bd, Ba. reflexivity. }
    assert (Ss : lh_sound s). { split; [exact Sd|]. split; [exact Sa|]. split; [exact Ri|]. unfold s. cbn [lh_aliases]. rewrite Ea. constructor. }
    assert (Vs : lh_at h1 s = mkLstate [] [] []). { unfold lh_at, lh_nodes, s, d. cbn [lh_doc lh_aliases lh_ctx hd_nodes]. rewrite En, Ea, Ei. reflexivity. }
    assert (H1 : holds h1 (blocks p ++ lh_blocks s)). { rewrite Bs. clear K Ks Bd Ba Bs. cn. }
    assert (Vp : value h1 p = value h p). { destruct K as (Kx & _). apply Kx; [exact G|exact X1|]. clear K Ks Bd Ba Bs. cn. }
    pose proof (load_nodes_does fuel p s h1 (fun p' s' i => LDocument (mkDoc (l_nodes s') (version_at h v) (map (pair_at h) (a_els tags)) implicit i) (mkLoader p' true)) G1 Sp' Ss H1) as D.
    cbv zeta in D. rewrite Vs, Vp in D. destruct D as [[E2 D]|[[E2 D]|D]].
    - left. split; [|exact D]. unfold hbind. rewrite E2. reflexivity.
    - right. left. split; [|exact D]. unfold hbind. rewrite E2. reflexivity.
    - right. right. destruct D as ([[p2 s2] n] & g & h2 & E2 & G2 & X3 & C2 & leaked & -> & L1 & L2 & Sp2 & Ss2 & (D1 & D2 & D3) & R).
      rewrite (bind_ok _ _ _ _ _ E2). pose proof (ext_trans _ _ _ X2 X3) as X4. pose proof Ss2 as (Sd2 & Sa2 & Sc2 & _).
      assert (C3 : changes h0 taken (blocks p2 ++ lh_blocks s2 ++ leaked) h2). { rewrite Bs in C2. clear K Ks Bd Ba Bs. cn. }
      assert (Hv : holds h (ptr_blocks v)) by (clear K Ks Bd Ba Bs; cn).
      assert (Ht : holds h (flat_map pair_blocks (a_els tags))) by (unfold tags_blocks in H; clear K Ks Bd Ba Bs; cn).
      assert (H2 : holds h2 (blocks p2 ++ lh_blocks s2)). { rewrite Bs in C2, H1. clear K Ks Bd Ba Bs. cn. }
      clear C2 C C1 H1 H Bs Bd Ba. unfold lh_blocks in C3, H2. destruct n as [i| |].
      + destruct R as (-> & St2 & R). unfold h_del. freeing.
        eapply ends_bind; [eassumption|apply delete_aliases_does; [assumption|intros _; exact Sa2|clear K Ks; cn]|]. cbn beta. intros _ g h3 G3 X5 X6 C4 ->.
        eapply ends_ret; [assumption|assumption| |].
        2:{ split; [apply (Ks p2 h2 h3 G2 (ext_trans _ _ _ Xf X5)); [clear K Ks; cn|exact Sp2]|]. split; [reflexivity|]. split; [exact Sd2|]. split; [exact St2|]. rewrite R.
            assert (Vp2 : value h3 p2 = value h2 p2). { destruct K as (Kx & _). apply Kx; [exact G2|exact (ext_trans _ _ _ Xf X5)|]. clear K Ks. cn. }
            rewrite Vp2. unfold document_at. cbn [hd_nodes hd_version hd_tags hd_start_implicit hd_end_implicit]. rewrite D1, D2, D3. unfold s, d. cbn [lh_doc hd_version hd_tags hd_start_implicit].
            pose proof (ext_trans _ _ _ (ext_trans _ _ _ X1 X3) (ext_trans _ _ _ Xf X5)) as X7. f_equal. f_equal.
            - unfold lh_at, lh_nodes. cbn [l_nodes]. symmetry. apply nodes_ext; [exact G2|exact (ext_trans _ _ _ Xf X5)|]. unfold doc_blocks in H2. clear K Ks C3. cn.
            - symmetry. apply version_ext; [exact G|exact X7|exact Hv].
            - symmetry. apply pairs_ext; [exact G|exact X7|exact Ht]. }
        change (doc_blocks (mkHdoc (hd_nodes (lh_doc s2)) (hd_version (lh_doc s2)) (hd_tags (lh_doc s2)) (hd_start_implicit (lh_doc s2)) i)) with (doc_blocks (lh_doc s2)). clear K Ks. cn.
      + unfold h_del. freeing. apply (fail_ends (lh_aliases s2) (lh_doc s2) p2 h0 hf taken leaked); auto.
        * intros _. exact (proj1 Sd2).
        * exact (proj1 (proj2 (proj2 Sd2))).
        * apply (Ks p2 h2 hf G2 Xf); [clear K Ks; cn|exact Sp2].
        * clear K Ks. cn.
        * left. exact L1.
        * intros g. split; [apply L2, X2, g|]. destruct R as [R|R]; [exact R|exfalso; apply R, X2, g].
        * clear K Ks. cn.
      + destruct R as (-> & R). eapply ends_ret; [assumption|assumption|exact C3|]. split; [exact Sp2|exact R].
  Qed.

  Lemma new_doc_blocks nodes : a_els nodes = [] -> doc_blocks (new_doc nodes) = ptr_blocks (a_at nodes).
  Proof. intros E. unfold doc_blocks, new_doc, with_nodes, null_doc, tags_blocks. cbn [hd_nodes hd_version hd_tags a_at a_els null_arr ptr_blocks flat_map]. rewrite E. cbn [flat_map]. rewrite !app_nil_r. reflexivity. Qed.
  Lemma new_doc_sound nodes : a_els nodes = [] -> a_at nodes <> None -> sound_doc (new_doc nodes).
  Proof. intros E S. split; [exact S|].
 unfold new_doc, with_nodes. cbn [hd_nodes hd_tags]. rewrite E. split; [apply Forall_nil|]. split; [exact (@null_sound _)|apply Forall_nil]. Qed.
  Lemma new_doc_at h nodes : a_els nodes = [] -> document_at h (new_doc nodes) = mkDoc [] None [] false false.
  Proof. intros E. unfold document_at, new_doc, with_nodes. cbn [hd_nodes hd_tags hd_version hd_start_implicit hd_end_implicit null_doc]. rewrite E. reflexivity. Qed.

  Lemma load_next_does fuel p nodes h0 h taken : good h -> ext h0 h -> sound h p -> started p = true -> a_at nodes <> None -> a_els nodes = [] ->
    holds h (blocks p ++ ptr_blocks (a_at nodes)) -> changes h0 taken (blocks p ++ ptr_blocks (a_at nodes)) h ->
    loads (h_load_next P hparse ended fuel p (new_doc nodes) h) h0 taken (load_next fuel (value h p)).
  Proof.
    intros G X Sp St Sn En H C. unfold h_load_next, load_next. destruct K as (Kx & Ke & Kp). rewrite (Ke p h).
    pose proof (new_doc_blocks nodes En) as Bd. pose proof (new_doc_sound nodes En Sn) as Sd.
    destruct (p_end (value h p)).
    { right. right. eapply ends_ret; [assumption|assumption| |].
      2:{ split; [exact Sp|]. split; [reflexivity|]. split; [exact Sd|]. split; [exact St|]. split; [apply new_doc_at, En|reflexivity]. }
      rewrite Bd. exact C. }
    assert (H1 : holds h (blocks p)) by (clear Ks Kx Ke Kp Bd; cn).
    destruct (Kp p h G Sp H1) as [[Eu Ev]|([p1 r] & g & h1 & E1 & G1 & X1 & C1 & R)].
    { right. left. rewrite Ev. split; [|reflexivity]. unfold hbind. rewrite Eu. reflexivity. }
    rewrite (bind_ok _ _ _ _ _ E1). destruct R as (Sp1 & -> & R). cbn [fst snd] in *. pose proof (ext_trans _ _ _ X X1) as X2.
    destruct r as [x|].
    2:{ right. right. apply (fail_ends null_arr (new_doc nodes) p1 h0 h1 taken []); auto using null_sound.
        - intros _. exact (proj1 Sd).
        - exact (proj1 (proj2 (proj2 Sd))).
        - rewrite Bd. unfold aliases_blocks. cbn [null_arr a_at a_els ptr_blocks flat_map]. clear K Ks Kx Ke Kp Bd. cn.
        - left. cbn. lia.
        - intros g. split; [reflexivity|]. destruct R as [(q & R & _)|R]; [rewrite R; eexists; reflexivity|exfalso; apply R, X, g].
        - rewrite Bd. unfold aliases_blocks. cbn [null_arr a_at a_els ptr_blocks flat_map]. clear K Ks Kx Ke Kp Bd. cn. }
    destruct R as (Sx & R).
    assert (Other : forall out, ~ generous h0 \/ out = match parse (value h p) with PEvent e q => load_document fuel q e | _ => LAssertFail end ->
      loads (hbind h_init (fun '(al, ok) => if negb ok then delete_aliases al ;;; document_delete (new_doc nodes) ;;; hret (p1, HLoadFailed)
                                            else h_load_document P hparse fuel p1 (new_doc nodes) al x) h1) h0 taken
        (match parse (value h p) with PEvent e q => load_document fuel q e | _ => LAssertFail end)).
    { intros _ _. destruct (@h_init_does halias h1 G1) as ([al ok] & g & h2 & E2 & G2 & X3 & C2 & -> & Ei & Ri & Y). cbn [fst snd] in *. rewrite (bind_ok _ _ _ _ _ E2).
      pose proof (ext_trans _ _ _ X2 X3) as X4.
      assert (Hp : holds h1 (blocks p1)) by (clear K Ks Kx Ke Kp Bd; cn). pose proof (Ks p1 h1 h2 G1 X3 Hp Sp1) as Sp2. clear Hp. destruct ok; cbn [negb].
      2:{ right. right. subst al. apply (fail_ends null_arr (new_doc nodes) p1 h0 h2 taken (ev_blocks (he_ev x))); auto using null_sound.
          - intros _. exact (proj1 Sd).
          - exact (proj1 (proj2 (proj2 Sd))).
          - rewrite Bd. unfold aliases_blocks. cbn [null_arr a_at a_els ptr_blocks flat_map] in *. clear K Ks Kx Ke Kp Bd. cn.
          - right. eexists. reflexivity.
          - intros g. exfalso. discriminate (Y (proj2 X2 g)).
          - rewrite Bd. unfold aliases_blocks. cbn [null_arr a_at a_els ptr_blocks flat_map] in *. clear K Ks Kx Ke Kp Bd. cn. }
      destruct (parse (value h p)) as [e q|q| |]; try contradiction.
      2:{ left. destruct R as (R & _). unfold h_load_document. rewrite R. split; reflexivity. }
      destruct R as (Ve & Vs & Vm & Vq & St1).
      assert (Vp : value h2 p1 = value h1 p1). { apply Kx; [exact G1|exact X3|]. clear K Ks Kx Ke Kp Bd. cn. }
      rewrite <- Vq, <- Vp. apply load_document_does; auto.
      - rewrite <- Ve. apply event_ext; [exact G1|exact X3|]. clear K Ks Kx Ke Kp Bd. cn.
      - clear K Ks Kx Ke Kp Bd. cn.
      - clear K Ks Kx Ke Kp Bd. cn. }
    specialize (Other _ (or_intror eq_refl)).
    destruct (parse (value h p)) as [e q|q| |]; try contradiction.
    2:{ destruct R as (R & _). rewrite R in *. exact Other. }
    destruct R as (Ve & Vs & Vm & Vq & St1).
    destruct (he_ev x) eqn:Ex; cbn [event_at] in Ve; try discriminate Ve; injection Ve as Ve; rewrite <- Ve; try exact Other.
    right. right. eapply ends_ret; [assumption|exact X2| |].
    2:{ split; [exact Sp1|]. split; [reflexivity|]. split; [exact Sd|]. split; [exact St1|]. split; [apply new_doc_at, En|rewrite Vq; reflexivity]. }
    rewrite Bd. cbn [ev_blocks] in *. clear K Ks Kx Ke Kp Bd Other. cn.
  Qed.

  Theorem load_does fuel p h : good h -> sound h p -> holds h (blocks p) ->
    loads (h_load P hparse started ended fuel p h) h (blocks p) (load fuel (mkLoader (value h p) (started p))).
  Proof.
    intros G Sp H. pose proof (ext_refl h) as X. unfold h_load, load. cbn [ld_parser ld_started]. 
    destruct (@h_init_does hnode h G) as ([nodes ok] & g & h1 & E1 & G1 & X1 & C1 & -> & Ei & Ri & Y). cbn [fst snd] in *. rewrite (bind_ok _ _ _ _ _ E1).
    pose proof (new_doc_blocks nodes Ei) as Bd. fold (new_doc nodes).
    assert (Vp : value h1 p = value h p). { destruct K as (Kx & _). apply Kx; assumption. }
    pose proof (Ks p h h1 G X1 H Sp) as Sp'. destruct ok; cbn [negb].
    2:{ right. right. subst nodes. apply (fail_ends null_arr (new_doc null_arr) p h h1 (blocks p) []); auto using null_sound.
        - exact (@null_sound _).
        - exact (@null_sound _).
        - rewrite Bd. unfold aliases_blocks. cbn [null_arr a_at a_els ptr_blocks flat_map] in *. clear K Ks Bd. cn.
        - left. cbn. lia.
        - intros g. exfalso. discriminate (Y g).
        - rewrite Bd. unfold aliases_blocks. cbn [null_arr a_at a_els ptr_blocks flat_map] in *. clear K Ks Bd. cn. }
    pose proof (new_doc_sound nodes Ei Ri) as Sd. rewrite <- Vp. destruct (started p) eqn:St.
    { apply load_next_does; auto; clear K Ks Bd; cn. }
    destruct K as (Kx & Ke & Kp). assert (H1 : holds h1 (blocks p)) by (clear K Ks Kx Ke Kp Bd; cn).
    destruct (Kp p h1 G1 Sp' H1) as [[Eu Ev]|([p1 r] & g & h2 & E2 & G2 & X2 & C2 & R)].
    { right. left. rewrite Ev. split; [|reflexivity]. unfold hbind. rewrite Eu. reflexivity. }
    rewrite (bind_ok _ _ _ _ _ E2). destruct R as (Sp1 & -> & R). cbn [fst snd] in *. pose proof (ext_trans _ _ _ X1 X2) as X3.
    destruct r as [x|].
    2:{ right. right. apply (fail_ends null_arr (new_doc nodes) p1 h h2 (blocks p) []); auto using null_sound.
        - intros _. exact (proj1 Sd).
        - exact (proj1 (proj2 (proj2 Sd))).
        - rewrite Bd. unfold aliases_blocks. cbn [null_arr a_at a_els ptr_blocks flat_map]. clear K Ks Kx Ke Kp Bd. cn.
        - left. cbn. lia.
        - intros g. split; [reflexivity|]. destruct R as [(q & R & _)|R]; [rewrite R; eexists; reflexivity|exfalso; apply R, X1, g].
        - rewrite Bd. unfold aliases_blocks. cbn [null_arr a_at a_els ptr_blocks flat_map]. clear K Ks Kx Ke Kp Bd. cn. }
    destruct R as (Sx & R). destruct (parse (value h1 p)) as [e q|q| |]; try contradiction.
    2:{ left. destruct R as (R & _). rewrite R. split; reflexivity. }
    destruct R as (Ve & Vs & Vm & Vq & St1).
    destruct (he_ev x) eqn:Ex; cbn [event_at] in Ve; try discriminate Ve; injection Ve as Ve; rewrite <- Ve; try (left; split; reflexivity).
    rewrite <- Vq. cbn [ev_blocks] in *. apply load_next_does; auto; clear K Ks Kx Ke Kp Bd; cn.
  Qed.
End Contract.
