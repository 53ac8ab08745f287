(* Programs that use a parser and an emitter lose no memory. *)
From Coq Require Import Permutation.
From Verif Require Import CursorModel ScanModel ScannerModel ScannerSpec HeapTokenModel HeapTokenSpec HeapScan HeapLexModel HeapScanModel HeapScanSpec HeapScanSim ScanRest.
From Verif Require Import Base ReaderModel Types ParserModel ParserSpec ParserFinal LoaderModel LoaderSpec LoaderFinal DocModel DocSpec DocProofs DumperModel DumperSpec DumperFinal
  HeapModel HeapSpec HeapLemmas HeapEvents HeapDocs HeapLoaderModel HeapLoader HeapLoad
  HeapParserModel HeapParserSpec HeapScan HeapParser HeapParse4 HeapClient HeapFinal HeapEmitModel HeapEmitSpec HeapEmit HeapDump HeapDumps HeapWorld.

(* ---- documents built by the API are closed ---- *)
Lemma push_closed d n alloc : children n = [] -> closed d -> closed (snd (push_node d n alloc)).
Proof.
  intros N C. destruct alloc; [|exact C]. destruct (push_node_ok d n) as (d' & -> & A). exact (adds_closed d n _ d' A N C).
Qed.
Lemma dstep_closed d op alloc : closed d -> closed (snd (dstep d op alloc)).
Proof.
  intros C. destruct op as [tag v st|tag st|tag st|s i|s k v]; cbn [dstep].
  - unfold add_scalar. destruct (utf8_good _); cbn [negb]; [|exact C]. destruct (utf8_good v); cbn [negb]; [|exact C]. apply push_closed; [reflexivity|exact C].
  - unfold add_sequence. destruct (utf8_good _); cbn [negb]; [|exact C]. apply push_closed; [reflexivity|exact C].
  - unfold add_mapping. destruct (utf8_good _); cbn [negb]; [|exact C]. apply push_closed; [reflexivity|exact C].
  - apply (call_closed d alloc (AppendItem s i) (fst (dstep d (AppendItem s i) alloc))); [|exact C].
    pose proof (dstep_ok d (AppendItem s i) alloc I) as K. cbn [dstep] in *. destruct (append_sequence_item d s i alloc). exact K.
  - apply (call_closed d alloc (AppendPair s k v) (fst (dstep d (AppendPair s k v) alloc))); [|exact C].
    pose proof (dstep_ok d (AppendPair s k v) alloc I) as K. cbn [dstep] in *. destruct (append_mapping_pair d s k v alloc). exact K.
Qed.
Lemma drun_closed ops : forall d, closed d -> closed (snd (drun d ops)).
Proof.
  induction ops as [|[op alloc] ops IH]; intros d C; cbn [drun]; [exact C|].
  pose proof (dstep_closed d op alloc C) as C1. destruct (dstep d op alloc) as [[r|] d1]; cbn [snd] in *; [|exact C1].
  specialize (IH d1 C1). destruct (drun d1 ops). exact IH.
Qed.
Lemma empty_closed v ts si ei : closed (mkDoc [] v ts si ei).
Proof. intros [|[|i]] n c Hn; discriminate. Qed.

(* ---- yaml_emitter_initialize, yaml_emitter_delete ---- *)
Definition made_em (h : heap) (r : option em) (g : list nat) (h' : heap) : Prop :=
  match r with
  | Some m => g = em_blocks m /\ wf_em m /\ em_at m = mkVem false false [] None
  | None => g = [] /\ ~ generous h
  end.
Definition six buffer raw (states : arr unit) (events : arr hev) (indents : arr unit) (tags : arr hpair) : list nat :=
  ptr_blocks buffer ++ ptr_blocks raw ++ ptr_blocks (a_at states) ++ ptr_blocks (a_at events) ++ ptr_blocks (a_at indents) ++ ptr_blocks (a_at tags).
Lemma six_del buffer raw states events indents tags h : good h -> holds h (six buffer raw states events indents tags) ->
  does (emitter_blocks_del buffer raw states events indents tags) h (six buffer raw states events indents tags) (fun _ g _ => g = []).
Proof.
  intros G H. unfold emitter_blocks_del, six, h_del in *.
  do 5 (apply free_then; [assumption|assumption|]; clear G H h; intros h G H). apply h_free_does; assumption.
Qed.
Lemma em_give_up buffer raw states events indents tags h h1 : good h1 -> ext h h1 ->
  changes h [] (six buffer raw states events indents tags) h1 -> ~ generous h ->
  ends ((emitter_blocks_del buffer raw states events indents tags ;;; hret None) h1) h [] (made_em h).
Proof.
  intros G X C N. eapply ends_bind; [exact X|apply six_del; [exact G|clear - C; intros b; specialize (C b); rewrite cnt_nil in C; lia]|].
  cbn beta. intros _ g h2 G2 X2 X3 C2 ->. eapply ends_ret; [exact G2|exact X3| |split; [reflexivity|exact N]].
  intros b. specialize (C b). specialize (C2 b). rewrite cnt_nil in *. lia.
Qed.
Ltac quit := eapply em_give_up; [eassumption|eassumption|unfold six; cbn [null_arr a_at ptr_blocks]|].
Ltac refuse Y := intros g; first [discriminate (Y g) | match goal with X : ext _ _ |- _ => discriminate (Y (proj2 X g)) end].
Lemma em_initialize_does ein h : good h -> does (emitter_initialize ein) h [] (made_em h).
Proof.
  intros G. pose proof (ext_refl h) as X. unfold does, emitter_initialize.
  call (h_malloc_does [] h G). destruct Rc as (-> & _ & Y1). destruct a as [b1|]; cbn [is_null].
  2:{ quit; [|intros g; apply Y1; [exact g|reflexivity]]. cn. }
  call (h_malloc_does [] hc Gc). destruct Rc as (-> & _ & Y2). destruct a as [b2|]; cbn [is_null].
  2:{ quit; [|intros g; apply Y2; [apply Xc, g|reflexivity]]. cn. }
  call (@h_init_does unit hc0 Gc0). destruct a as [states ok]. cbn [fst snd] in *. destruct Rc as (-> & E3 & N3 & Y3). destruct ok; cbn [negb].
  2:{ subst states. quit; [cn|refuse Y3]. }
  call (@h_init_does hev hc1 Gc1). destruct a as [events ok]. cbn [fst snd] in *. destruct Rc as (-> & E4 & N4 & Y4). destruct ok; cbn [negb].
  2:{ subst events. quit; [cn|refuse Y4]. }
  call (@h_init_does unit hc2 Gc2). destruct a as [indents ok]. cbn [fst snd] in *. destruct Rc as (-> & E5 & N5 & Y5). destruct ok; cbn [negb].
  2:{ subst indents. quit; [cn|refuse Y5]. }
  call (@h_init_does hpair hc3 Gc3). destruct a as [tags ok]. cbn [fst snd] in *. destruct Rc as (-> & E6 & N6 & Y6). destruct ok; cbn [negb].
  2:{ subst tags. quit; [cn|refuse Y6]. }
  eapply ends_ret; [eassumption|eassumption| |].
  2:{ split; [reflexivity|]. split; [|reflexivity]. unfold wf_em. emu. rewrite E4, E6. repeat (split; [assumption|]). split; apply Forall_nil. }
  emu. unfold tags_blocks. rewrite E4, E6. cbn [flat_map]. clear - Cc Cc0 Cc1 Cc2 Cc3 Cc4. cn.
Qed.
Lemma events_delete_does e h : good h -> holds h (ev_blocks e) -> sound_event e -> does (event_delete e) h (ev_blocks e) (fun _ g _ => g = []).
Proof. intros G H S. exact (event_delete_does e h G S H). Qed.
Lemma queue_delete_does at_ els : forall h, good h -> Forall sound_event els -> (els <> [] -> at_ <> None) -> holds h (flat_map ev_blocks els ++ ptr_blocks at_) ->
  does (h_pop_all event_delete at_ els) h (flat_map ev_blocks els) (fun _ g _ => g = []).
Proof.
  induction els as [|x els IH]; intros h G S N H; pose proof (ext_refl h) as X; unfold does; cbn [h_pop_all flat_map] in *.
  - eapply ends_ret; [exact G|exact X| |reflexivity]. clear. cn.
  - inversion S as [|? ? Sx Sr]; subst. assert (Na : at_ <> None) by (apply N; discriminate).
    eapply ends_ok; [apply h_touch_ok; [exact Na|clear - H; cn]|].
    eapply ends_bind; [exact X|apply event_delete_does; [exact G|exact Sx|clear - H; cn]|]. cbn beta. intros _ g h2 G2 X2 X3 C ->.
    eapply ends_does; [exact X2|apply IH; [exact G2|exact Sr|intros _; exact Na|clear - H C; cn]| |]; cbn beta; [tauto|]. intros _ g h3 C3 ->. clear - C C3. cn.
Qed.
Lemma em_delete_does m h : good h -> wf_em m -> holds h (em_blocks m) -> does (emitter_delete m) h (em_blocks m) (fun _ g _ => g = []).
Proof.
  intros G (W1 & W2 & W3 & W4 & W5 & W6) H. unfold emitter_delete, h_del, h_for_each. pose proof (ext_refl h) as X. unfold does. unfold em_blocks, tags_blocks in *.
  eapply ends_bind; [exact X|apply h_free_does; [exact G|clear - H; cn]|]. cbn beta. intros _ g h1 G1 Y1 X1 C1 ->.
  eapply ends_bind; [exact X1|apply h_free_does; [exact G1|clear - H C1; cn]|]. cbn beta. intros _ g h2 G2 Y2 X2 C2 ->.
  eapply ends_bind; [exact X2|apply h_free_does; [exact G2|clear - H C1 C2; cn]|]. cbn beta. intros _ g h3 G3 Y3 X3 C3 ->.
  eapply ends_bind; [exact X3|apply queue_delete_does; [exact G3|exact W5|intros _; exact W2|clear - H C1 C2 C3; cn]|]. cbn beta. intros _ g h4 G4 Y4 X4 C4 ->.
  eapply ends_bind; [exact X4|apply h_free_does; [exact G4|clear - H C1 C2 C3 C4; cn]|]. cbn beta. intros _ g h5 G5 Y5 X5 C5 ->.
  eapply ends_bind; [exact X5|apply h_free_does; [exact G5|clear - H C1 C2 C3 C4 C5; cn]|]. cbn beta. intros _ g h6 G6 Y6 X6 C6 ->.
  eapply ends_bind; [exact X6|apply (empty_stack_does free_pair pair_blocks); [exact free_pair_does|exact G6|intros _; exact W4|clear - H C1 C2 C3 C4 C5 C6; cn]|]. cbn beta. intros _ g h7 G7 Y7 X7 C7 ->.
  eapply ends_does; [exact X7|apply h_free_does; [exact G7|clear - H C1 C2 C3 C4 C5 C6 C7; cn]| |]; cbn beta; [tauto|]. intros _ g h8 C ->.
  clear - H C1 C2 C3 C4 C5 C6 C7 C. cn.
Qed.

(* ---- h_make ---- *)
Definition made_both (input : sc) (h : heap) (r : option (hp * em)) (g : list nat) (h' : heap) : Prop :=
  match r with
  | Some (p, m) => g = hp_blocks p ++ em_blocks m /\ wf_em m /\ em_at m = mkVem false false [] None /\
      sound_hp h' p /\ started p = false /\ hp_at h' p = init_parser (upcoming input)
  | None => g = [] /\ ~ generous h
  end.
Lemma make_does input ein h : fresh input -> good h -> does (h_make input ein) h [] (made_both input h).
Proof.
  intros Fr G. pose proof (ext_refl h) as X. unfold does, h_make.
  destruct (initialize_does input h Fr G) as (r & g & h1 & E & G1 & X1 & C1 & R). rewrite (bind_ok _ _ _ _ _ E). destruct r as [p|]; cbn [made] in R.
  2:{ destruct R as (-> & N). eapply ends_ret; [exact G1|exact X1|exact C1|]. split; [reflexivity|exact N]. }
  destruct R as (-> & Sp & St & _ & V).
  destruct (em_initialize_does ein h1 G1) as (r & g & h2 & E2 & G2 & X2 & C2 & R). rewrite (bind_ok _ _ _ _ _ E2). destruct r as [m|]; cbn [made_em] in R.
  - destruct R as (-> & W & Vm). eapply ends_ret with (g := hp_blocks p ++ em_blocks m); [exact G2|eapply ext_trans; eassumption|clear - C1 C2; cn|].
    split; [reflexivity|]. split; [exact W|]. split; [exact Vm|]. split; [apply (sound_ext p h1 h2 G1 X2); [clear - C1; cn|exact Sp]|]. split; [exact St|]. rewrite <- V. apply hp_ext; [exact G1|exact X2|clear - C1; cn].
  - destruct R as (-> & N). eapply ends_bind; [eapply ext_trans; eassumption|apply delete_does; [exact G2|apply Sp|clear - C1 C2; cn]|]. cbn beta. intros _ g h3 G3 X3 X4 C3 ->.
    eapply ends_ret with (g := []); [exact G3|exact X4|clear - C1 C2 C3; cn|]. split; [reflexivity|]. intros g. apply N, X1, g.
Qed.

(* ---- values across steps ---- *)
Lemma docs_ext h h' l : good h -> ext h h' -> holds h (flat_map doc_blocks l) -> map (document_at h') l = map (document_at h) l.
Proof.
  intros G X. induction l as [|d l IH]; intros H; [reflexivity|]. cbn [map flat_map] in *. f_equal.
  - apply document_ext; [exact G|exact X|clear - H; cn].
  - apply IH. clear - H. cn.
Qed.
Lemma events_ext h h' l : good h -> ext h h' -> holds h (flat_map ev_blocks l) -> map (event_at h') l = map (event_at h) l.
Proof.
  intros G X. induction l as [|d l IH]; intros H; [reflexivity|]. cbn [map flat_map] in *. f_equal.
  - apply (event_ext hp hp_at sound_hp); [exact G|exact X|clear - H; cn].
  - apply IH. clear - H. cn.
Qed.
Lemma map_remove {A B} (f : A -> B) l : forall k, map f (remove_nth k l) = remove_nth k (map f l).
Proof. induction l as [|x l IH]; intros [|k]; cbn [map remove_nth]; [reflexivity|reflexivity|reflexivity|f_equal; apply IH]. Qed.
Lemma flat_ev_snoc l e : flat_map ev_blocks (l ++ [e]) = flat_map ev_blocks l ++ ev_blocks e.
Proof. rewrite flat_map_app. cbn [flat_map]. rewrite app_nil_r. reflexivity. Qed.
Lemma forall_snoc {A} (P : A -> Prop) l x : Forall P l -> P x -> Forall P (l ++ [x]).
Proof. intros F H. apply Forall_app. split; [exact F|]. constructor; [exact H|apply Forall_nil]. Qed.

Lemma dump_safe fuel s d : (length (d_nodes d) < fuel)%nat -> closed d -> fresh_dumper s -> dump fuel s d <> DUndefined /\ dump fuel s d <> DOutOfFuel.
Proof.
  intros L C F. assert (K : match dump fuel s d with DOk _ | DFail _ => True | _ => False end).
  { destruct (d_nodes d) as [|n r] eqn:N.
    - pose proof (ends_cases _ _ _ _ _ (dump_empty fuel s d F N)) as K. destruct (dump fuel s d); auto.
    - rewrite <- N in L. destruct (dump_one fuel s d L C F ltac:(congruence)) as (dt & _ & E). apply ends_cases in E. destruct (dump fuel s d); auto. }
  destruct (dump fuel s d); try contradiction; split; discriminate.
Qed.
Lemma loads_closed fuel input l d l' : (4 * length input < fuel)%nat -> live_loader fuel input l -> load fuel l = LDocument d l' -> closed d.
Proof.
  intros B [(ds & H)|E] L; [|congruence]. pose proof (loaded_ok fuel input _ _ B (LH_call _ _ _ _ _ _ H L)) as F.
  apply Forall_app in F. destruct F as [_ F]. inversion F as [|? ? K _]; subst. apply K.
Qed.

(* ---- one call of a document program ---- *)
Definition winv (fuel : nat) (input : list token) (h : heap) (w : world) : Prop :=
  sound_hp h (w_parser w) /\
  (w_failed w = false -> live_loader fuel input (mkLoader (hp_at h (w_parser w)) (started (w_parser w)))) /\
  wf_em (w_emitter w) /\ Forall sound_doc (w_docs w) /\ Forall closed (map (document_at h) (w_docs w)).
Definition wpost (g : Prop) (fuel : nat) (input : list token) (h : heap) (w : world) (step : vworld -> vworld -> Prop) (w' : world) (given : list nat) (h' : heap) : Prop :=
  exists leaked, given = world_blocks w' ++ leaked /\ leak leaked /\ (leaked <> [] -> w_failed w = false /\ w_failed w' = true /\ ~ g) /\
    (w_failed w = true -> w_failed w' = true) /\ winv fuel input h' w' /\ step (world_at h w) (world_at h' w').
Lemma no_leak : leak []. Proof. left. cbn. lia. Qed.
Ltac noleak := exists []; split; [symmetry; apply app_nil_r|]; split; [exact no_leak|]; split; [congruence|]; split; [first [tauto|cbn; congruence]|].
Lemma call_of (g : Prop) (f : dumper -> dres) m m' ok used : (forall rest, f (D m (used ++ rest)) = went m' ok rest) ->
  (g -> ok = false -> m_error m' <> None) -> (g -> m_error m' = Some MMemory -> m_error m = Some MMemory) -> emitter_call g f (em_at m) (em_at m').
Proof.
  intros V E1 E2. exists used. specialize (V []). rewrite app_nil_r in V. split; [|exact E2].
  unfold dumper_of. cbn [em_at ve_opened ve_closed ve_log ve_error]. unfold D in V. unfold went, D in V. destruct ok; [left; exact V|right; split; [exact V|auto]].
Qed.

Section Step.
Variable g : Prop.
Variable fuel : nat.
Variable input : list token.
Hypothesis F : (4 * length input < fuel)%nat.
Lemma keep_emitter h h1 w m1 (step : vworld -> vworld -> Prop) : good h -> (g -> generous h) -> winv fuel input h w -> holds h (world_blocks w) ->
  good h1 -> ext h h1 -> wf_em m1 ->
  step (world_at h w) (mkVworld (v_loader (world_at h w)) (w_failed w) (em_at m1) (v_docs (world_at h w))) ->
  wpost g fuel input h w step (w_with_emitter w m1) (world_blocks (w_with_emitter w m1)) h1.
Proof.
  intros G Hg (I1 & I2 & I3 & I4 & I5) H G1 X1 W1 St.
  assert (Vp : hp_at h1 (w_parser w) = hp_at h (w_parser w)) by (apply hp_ext; [exact G|exact X1|unfold world_blocks in H; clear - H; cn]). assert (Sp0 : sound_hp h1 (w_parser w)) by (eapply (sound_ext _ h); [exact G|exact X1|unfold world_blocks in H; clear - H; cn|exact I1]).
  assert (Vd : map (document_at h1) (w_docs w) = map (document_at h) (w_docs w)) by (apply docs_ext; [exact G|exact X1|unfold world_blocks in H; clear - H; cn]).
  noleak. unfold winv, world_at, w_with_emitter in *. cbn [w_parser w_failed w_emitter w_docs v_loader v_docs] in *. rewrite Vp, Vd. split; [|exact St].
  split; [assumption|]. split; [exact I2|]. split; [exact W1|]. split; assumption.
Qed.
Lemma wstep_does w c h : good h -> (g -> generous h) -> winv fuel input h w -> holds h (world_blocks w) ->
  (h_wstep fuel w c h = HAssert /\ asserts [c]) \/
  does (h_wstep fuel w c) h (world_blocks w) (wpost g fuel input h w (vstep g fuel c)).
Proof.
  intros G Hg Inv H. pose proof Inv as (I1 & I2 & I3 & I4 & I5). pose proof (ext_refl h) as X.
  assert (Hp : holds h (hp_blocks (w_parser w))) by (unfold world_blocks in H; clear - H; cn).
  assert (He : holds h (em_blocks (w_emitter w))) by (unfold world_blocks in H; clear - H; cn).
  assert (Hd : holds h (flat_map doc_blocks (w_docs w))) by (unfold world_blocks in H; clear - H; cn).
  assert (Stay : forall step : vworld -> vworld -> Prop, step (world_at h w) (world_at h w) -> ends (hret w h) h (world_blocks w) (wpost g fuel input h w step)).
  { intros step St. eapply ends_ret; [exact G|exact X|apply still|]. noleak. split; [exact Inv|exact St]. }
  destruct c as [|v ts si ei ops|k|k| | |e]; cbn [h_wstep].
  - (* load *)
    right. unfold does. destruct (w_failed w) eqn:Ef.
    { apply Stay. unfold world_at. rewrite Ef. constructor. }
    specialize (I2 eq_refl). pose proof (live_load _ _ _ F I2) as N. change (load_one fuel) with (h_load hp h_parse started hp_ended fuel).
    destruct (load_does hp h_parse started hp_ended hp_blocks hp_at sound_hp contract sound_ext fuel (w_parser w) h G I1 Hp) as [[_ U]|[[_ U]|([p1 o] & g1 & h1 & E1 & G1 & X1 & C1 & Sp1 & R)]];
      [rewrite U in N; contradiction|rewrite U in N; contradiction|].
    rewrite (bind_ok _ _ _ _ _ E1).
    assert (Vd : map (document_at h1) (w_docs w) = map (document_at h) (w_docs w)) by (apply docs_ext; assumption).
    destruct o as [d|d| |].
    + destruct R as (-> & S1 & St & R). rewrite R in N.
      eapply ends_ret with (g := world_blocks (mkWorld p1 false (w_emitter w) (w_docs w ++ [d]))); [exact G1|exact X1| |].
      { unfold world_blocks. cbn [w_parser w_emitter w_docs]. rewrite flat_doc_snoc. clear - H C1. cn. }
      noleak. unfold winv, world_at. cbn [w_parser w_failed w_emitter w_docs]. rewrite map_app, Vd. cbn [map]. unfold started in St. rewrite St, Ef. split.
      * split; [exact Sp1|]. split; [intros _; unfold started; rewrite St; exact N|]. split; [exact I3|]. split; [apply forall_snoc; assumption|].
        apply forall_snoc; [exact I5|]. exact (loads_closed _ _ _ _ _ F I2 R).
      * apply V_loaded. exact R.
    + destruct R as (-> & S1 & St & Vn & R). rewrite R in N.
      eapply ends_ret with (g := world_blocks (mkWorld p1 false (w_emitter w) (w_docs w ++ [d]))); [exact G1|exact X1| |].
      { unfold world_blocks. cbn [w_parser w_emitter w_docs]. rewrite flat_doc_snoc. clear - H C1. cn. }
      noleak. unfold winv, world_at. cbn [w_parser w_failed w_emitter w_docs]. rewrite map_app, Vd. cbn [map]. unfold started in St. rewrite St, Ef, Vn. split.
      * split; [exact Sp1|]. split; [intros _; unfold started; rewrite St; exact N|]. split; [exact I3|]. split; [apply forall_snoc; assumption|].
        apply forall_snoc; [exact I5|]. apply empty_closed.
      * apply V_loaded_end. exact R.
    + destruct R as (leaked & -> & Lk & R).
      eapply ends_ret with (g := world_blocks (mkWorld p1 true (w_emitter w) (w_docs w)) ++ leaked); [exact G1|exact X1| |].
      { unfold world_blocks. cbn [w_parser w_emitter w_docs]. clear - H C1. cn. }
      exists leaked. split; [reflexivity|]. split; [exact Lk|]. split.
      { intros Nl. split; [exact Ef|]. split; [reflexivity|]. intros gg. apply Nl. exact (proj1 (R (Hg gg))). }
      split; [congruence|]. unfold winv, world_at. cbn [w_parser w_failed w_emitter w_docs]. rewrite Vd, Ef. split.
      * split; [exact Sp1|]. split; [discriminate|]. split; [exact I3|]. split; assumption.
      * apply V_load_fails. intros gg. exact (proj2 (R (Hg gg))).
    + rewrite R in N. contradiction.
  - (* build *)
    unfold does at 1. destruct (document_initialize_does v ts si ei h G) as (r & g1 & h1 & E1 & G1 & X1 & C1 & R). rewrite (bind_ok _ _ _ _ _ E1). destruct r as [d|].
    2:{ right. destruct R as (-> & alloc & En & Al). eapply ends_ret with (g := world_blocks w); [exact G1|exact X1|clear - C1; cn|].
        assert (Vp : hp_at h1 (w_parser w) = hp_at h (w_parser w)) by (apply hp_ext; assumption). assert (Sp0 : sound_hp h1 (w_parser w)) by (eapply (sound_ext _ h); assumption).
        assert (Vd : map (document_at h1) (w_docs w) = map (document_at h) (w_docs w)) by (apply docs_ext; assumption).
        noleak. unfold winv, world_at in *. rewrite Vp, Vd. split; [repeat (split; [assumption|]); assumption|].
        apply V_not_built. intros gg. rewrite (Al (Hg gg)) in En. unfold document_initialize in En. rewrite andb_true_r in En.
        match type of En with context [forallb ?f ts] => destruct (forallb f ts) eqn:Eb end; [discriminate|]. clear - Eb. induction ts as [|t ts IH]; [discriminate|]. cbn [forallb] in Eb.
        destruct (utf8_good (fst t) && utf8_good (snd t)) eqn:Et.
        - destruct (IH Eb) as (t' & It & Q). exists t'. split; [right; exact It|exact Q].
        - exists t. split; [left; reflexivity|]. apply andb_false_iff in Et. exact Et. }
    destruct R as (-> & Sd & Vd). unfold document_initialize in Vd. match type of Vd with context [if ?b then _ else _] => destruct b end; [|discriminate]. assert (Vd1 : mkDoc [] v ts si ei = document_at h1 d) by congruence. clear Vd. rename Vd1 into Vd.
    destruct (drun_does ops d h1 G1 Sd) as [(A & allocs & rs & L & B)|R]; [clear - C1; cn| |].
    + left. unfold hbind. rewrite A. split; [reflexivity|]. rewrite <- Vd in B. exists v, ts, si, ei, ops, allocs, rs. split; [left; reflexivity|]. split; assumption.
    + right. destruct R as ([rs d2] & g2 & h2 & E2 & G2 & X2 & C2 & -> & S2 & allocs & L & R & Al). cbn [fst snd] in *. rewrite (bind_ok _ _ _ _ _ E2).
      assert (X3 : ext h h2) by (eapply ext_trans; eassumption).
      assert (Vp : hp_at h2 (w_parser w) = hp_at h (w_parser w)) by (apply hp_ext; assumption). assert (Sp0 : sound_hp h2 (w_parser w)) by (eapply (sound_ext _ h); assumption).
      assert (Ve : map (document_at h2) (w_docs w) = map (document_at h) (w_docs w)) by (apply docs_ext; assumption).
      eapply ends_ret with (g := world_blocks (w_with_docs w (w_docs w ++ [d2]))); [exact G2|exact X3| |].
      { unfold world_blocks, w_with_docs. cbn [w_parser w_emitter w_docs]. rewrite flat_doc_snoc. clear - H C1 C2. cn. }
      rewrite <- Vd in R. noleak. unfold winv, world_at, w_with_docs. cbn [w_parser w_failed w_emitter w_docs]. rewrite map_app, Vp, Ve. cbn [map]. split.
      * split; [assumption|]. split; [exact I2|]. split; [exact I3|]. split; [apply forall_snoc; assumption|]. apply forall_snoc; [exact I5|].
        pose proof (drun_closed (combine ops allocs) _ (empty_closed v ts si ei)) as K. rewrite R in K. exact K.
      * eapply V_built; [exact L|exact R|]. intros gg. apply Al, X1, Hg, gg.
  - (* dump *)
    right. unfold does. destruct (nth_error (w_docs w) k) as [d|] eqn:Ek.
    2:{ apply Stay. apply V_dump_none. cbn [world_at v_docs]. rewrite nth_error_map, Ek. reflexivity. }
    assert (Sd : sound_doc d) by (rewrite Forall_forall in I4; apply I4; eapply nth_error_In; exact Ek).
    assert (Ek' : nth_error (map (document_at h) (w_docs w)) k = Some (document_at h d)) by (rewrite nth_error_map, Ek; reflexivity).
    assert (Cd : closed (document_at h d)) by (rewrite Forall_forall in I5; apply I5; eapply nth_error_In; exact Ek').
    pose proof (fun b => flat_split doc_blocks (w_docs w) k d b Ek) as Fs.
    assert (Len : length (d_nodes (document_at h d)) = length (a_els (hd_nodes d))) by (cbn [document_at d_nodes]; apply map_length).
    pose proof (fun sink => dump_safe (Datatypes.S (length (a_els (hd_nodes d)))) (D (w_emitter w) sink) (document_at h d) ltac:(lia) Cd (conj eq_refl eq_refl)) as Safe.
    destruct (dump_sim (Datatypes.S (length (a_els (hd_nodes d)))) (w_emitter w) d h G I3 Sd) as [(_ & used & U)|R].
    { intros b. specialize (H b). specialize (Fs b). unfold world_blocks in H. rewrite !cnt_app in *. lia. }
    { exfalso. exact (proj1 (Safe _) (U [])). }
    destruct R as ([m1 o] & g1 & h1 & E1 & G1 & X1 & C1 & R & B1 & B2). rewrite (bind_ok _ _ _ _ _ E1). cbn [fst snd] in *.
    destruct o as [ok|]; [|destruct R as (used & U); exfalso; exact (proj2 (Safe _) (U []))].
    destruct R as (-> & W1 & used & R).
    assert (Vp : hp_at h1 (w_parser w) = hp_at h (w_parser w)) by (apply hp_ext; assumption). assert (Sp0 : sound_hp h1 (w_parser w)) by (eapply (sound_ext _ h); assumption).
    assert (Ve : map (document_at h1) (w_docs w) = map (document_at h) (w_docs w)) by (apply docs_ext; assumption).
    eapply ends_ret with (g := world_blocks (mkWorld (w_parser w) (w_failed w) m1 (remove_nth k (w_docs w)))); [exact G1|exact X1| |].
    { unfold world_blocks. cbn [w_parser w_emitter w_docs]. intros b. specialize (H b). specialize (Fs b). specialize (C1 b). unfold world_blocks in H. rewrite !cnt_app in *. lia. }
    noleak. unfold winv, world_at. cbn [w_parser w_failed w_emitter w_docs]. rewrite map_remove, Vp, Ve. split.
    + split; [assumption|]. split; [exact I2|]. split; [exact W1|]. split; apply forall_remove; assumption.
    + eapply V_dump; [exact Ek'|]. rewrite Len. apply (call_of g (fun s => dump _ s (document_at h d)) _ _ ok used R).
      * intros gg ->. apply B1; [apply Hg, gg|reflexivity].
      * intros gg. apply B2, Hg, gg.
  - (* delete *)
    right. unfold does. destruct (nth_error (w_docs w) k) as [d|] eqn:Ek.
    2:{ apply Stay. apply V_delete_none. cbn [world_at v_docs]. rewrite nth_error_map, Ek. reflexivity. }
    assert (Sd : sound_doc d) by (rewrite Forall_forall in I4; apply I4; eapply nth_error_In; exact Ek).
    assert (Ek' : nth_error (map (document_at h) (w_docs w)) k = Some (document_at h d)) by (rewrite nth_error_map, Ek; reflexivity).
    pose proof (fun b => flat_split doc_blocks (w_docs w) k d b Ek) as Fs. destruct Sd as (S1 & S2 & S3).
    destruct (document_delete_does d h G) as (u & g1 & h1 & E1 & G1 & X1 & C1 & ->); [intros _; exact S1|exact (proj1 S3)| |].
    { intros b. specialize (Hd b). specialize (Fs b). lia. }
    rewrite (bind_ok _ _ _ _ _ E1).
    assert (Vp : hp_at h1 (w_parser w) = hp_at h (w_parser w)) by (apply hp_ext; assumption). assert (Sp0 : sound_hp h1 (w_parser w)) by (eapply (sound_ext _ h); assumption).
    assert (Ve : map (document_at h1) (w_docs w) = map (document_at h) (w_docs w)) by (apply docs_ext; assumption).
    eapply ends_ret with (g := world_blocks (w_with_docs w (remove_nth k (w_docs w)))); [exact G1|exact X1| |].
    { unfold world_blocks, w_with_docs. cbn [w_parser w_emitter w_docs]. intros b. specialize (H b). specialize (Fs b). specialize (C1 b). unfold world_blocks in H. rewrite !cnt_app, ?cnt_nil in *. lia. }
    noleak. unfold winv, world_at, w_with_docs. cbn [w_parser w_failed w_emitter w_docs]. rewrite map_remove, Vp, Ve. split.
    + split; [assumption|]. split; [exact I2|]. split; [exact I3|]. split; apply forall_remove; assumption.
    + eapply V_delete; exact Ek'.
  - (* open *)
    right. unfold does. destruct (m_opened (w_emitter w)) eqn:Eo; [apply Stay, V_open_skipped; exact Eo|].
    destruct (open_does (w_emitter w) h G I3 He Eo) as ([m1 ok] & g1 & h1 & E1 & G1 & X1 & C1 & (-> & W1 & (used & R) & B1 & B2) & _). cbn [fst snd] in *. rewrite (bind_ok _ _ _ _ _ E1).
    eapply ends_ret; [exact G1|exact X1| |eapply keep_emitter; try eassumption].
    { unfold world_blocks, w_with_emitter. cbn [w_parser w_emitter w_docs]. clear - H C1. cn. }
    apply V_open; [exact Eo|]. apply (call_of g dump_open _ _ ok used R); [intros _; exact B1|intros gg; apply B2, Hg, gg].
  - (* close *)
    right. unfold does. destruct (m_opened (w_emitter w)) eqn:Eo; [|apply Stay, V_close_skipped; exact Eo].
    destruct (close_does (w_emitter w) h G I3 He Eo) as ([m1 ok] & g1 & h1 & E1 & G1 & X1 & C1 & (-> & W1 & (used & R) & B1 & B2) & _). cbn [fst snd] in *. rewrite (bind_ok _ _ _ _ _ E1).
    eapply ends_ret; [exact G1|exact X1| |eapply keep_emitter; try eassumption].
    { unfold world_blocks, w_with_emitter. cbn [w_parser w_emitter w_docs]. clear - H C1. cn. }
    apply V_close; [exact Eo|]. apply (call_of g dump_close _ _ ok used R); [intros _; exact B1|intros gg; apply B2, Hg, gg].
  - (* emit *)
    right. unfold does. destruct (event_initialize_does e h G) as (r & g1 & h1 & E1 & G1 & X1 & C1 & R). rewrite (bind_ok _ _ _ _ _ E1). destruct r as [x|].
    2:{ destruct R as (-> & R). eapply ends_ret with (g := world_blocks w); [exact G1|exact X1|clear - C1; cn|].
        assert (Vp : hp_at h1 (w_parser w) = hp_at h (w_parser w)) by (apply hp_ext; assumption). assert (Sp0 : sound_hp h1 (w_parser w)) by (eapply (sound_ext _ h); assumption).
        assert (Vd : map (document_at h1) (w_docs w) = map (document_at h) (w_docs w)) by (apply docs_ext; assumption).
        noleak. unfold winv, world_at in *. rewrite Vp, Vd. split; [repeat (split; [assumption|]); assumption|].
        apply V_not_made. intros gg. destruct R as [R|R]; [destruct R; apply Hg, gg|exact R]. }
    destruct R as (-> & Sx & Vx & Gx).
    destruct (emit_does (w_emitter w) x h1 G1 I3 Sx) as ([m1 ok] & g2 & h2 & E2 & G2 & X2 & C2 & -> & W1 & O1 & O2 & O3 & B1 & B2); [clear - He C1; cn|]. cbn [fst snd] in *. rewrite (bind_ok _ _ _ _ _ E2).
    eapply ends_ret; [exact G2|eapply ext_trans; eassumption| |eapply keep_emitter; try eassumption; [eapply ext_trans; eassumption|]].
    { unfold world_blocks, w_with_emitter. cbn [w_parser w_emitter w_docs]. clear - H C1 C2. cn. }
    apply V_emit; [exact Gx|]. rewrite Vx in O3. apply (call_of g (fun s => emit s e) _ _ ok [ok]); [|intros _; exact B1|intros gg; apply B2, X1, Hg, gg].
    intros rest. unfold went, D. rewrite O1, O2, O3. destruct ok; cbn; [reflexivity|rewrite app_nil_r; reflexivity].
Qed.
End Step.

(* ---- document programs ---- *)
Lemma wrun_does (g : Prop) fuel input : (4 * length input < fuel)%nat -> forall calls w h, good h -> (g -> generous h) -> winv fuel input h w -> holds h (world_blocks w) ->
  (h_wrun fuel w calls h = HAssert /\ asserts calls) \/
  does (h_wrun fuel w calls) h (world_blocks w) (wpost g fuel input h w (vrun g fuel calls)).
Proof.
  intros F. induction calls as [|c calls IH]; intros w h G Hg Inv H; cbn [h_wrun].
  { right. eapply ends_ret; [exact G|apply ext_refl|apply still|]. noleak. split; [exact Inv|constructor]. }
  destruct (wstep_does g fuel input F w c h G Hg Inv H) as [(A & v & ts & si & ei & ops & al & rs & [B|[]] & B2)|(w1 & g1 & h1 & E1 & G1 & X1 & C1 & lk1 & -> & L1 & N1 & M1 & Inv1 & V1)].
  { left. unfold hbind. rewrite A. split; [reflexivity|]. exists v, ts, si, ei, ops, al, rs. split; [left; exact B|exact B2]. }
  unfold does. rewrite (bind_ok _ _ _ _ _ E1).
  destruct (IH w1 h1 G1) as [(A & v & ts & si & ei & ops & al & rs & B & B2)|(w2 & g2 & h2 & E2 & G2 & X2 & C2 & lk2 & -> & L2 & N2 & M2 & Inv2 & V2)].
  { intros gg. apply X1, Hg, gg. }
  { exact Inv1. }
  { clear - H C1. cn. }
  { left. split; [exact A|]. exists v, ts, si, ei, ops, al, rs. split; [right; exact B|exact B2]. }
  right. rewrite E2. exists w2, (world_blocks w2 ++ lk1 ++ lk2), h2. split; [reflexivity|]. split; [exact G2|]. split; [eapply ext_trans; eassumption|]. split; [clear - C1 C2; cn|].
  exists (lk1 ++ lk2). split; [reflexivity|]. split; [|split; [|split; [|split; [exact Inv2|econstructor; eassumption]]]].
  - destruct lk1 as [|x lk1]; [exact L2|]. destruct lk2 as [|y lk2]; [rewrite app_nil_r; exact L1|].
    destruct (N1 ltac:(discriminate)) as (_ & T & _). destruct (N2 ltac:(discriminate)) as (U & _ & _). congruence.
  - intros N. destruct lk1 as [|x lk1].
    + destruct (N2 N) as (U & V & W). split; [|split; assumption]. destruct (w_failed w); [rewrite M1 in U by reflexivity; discriminate|reflexivity].
    + destruct (N1 ltac:(discriminate)) as (U & T & W). split; [exact U|]. split; [apply M2, T|exact W].
  - auto.
Qed.
Lemma world_delete_does fuel input h w : good h -> winv fuel input h w -> holds h (world_blocks w) -> does (world_delete w) h (world_blocks w) (fun _ g _ => g = []).
Proof.
  intros G (I1 & I2 & I3 & I4 & I5) H. unfold does, world_delete, world_blocks in *. pose proof (ext_refl h) as X.
  eapply ends_bind; [exact X|apply delete_docs_does; [exact G|exact I4|clear - H; cn]|]. cbn beta. intros _ g h1 G1 Y1 X1 C1 ->.
  eapply ends_bind; [exact X1|apply em_delete_does; [exact G1|exact I3|clear - H C1; cn]|]. cbn beta. intros _ g h2 G2 Y2 X2 C2 ->.
  eapply ends_does; [exact X2|apply delete_does; [exact G2|apply I1|clear - H C1 C2; cn]| |]; cbn beta; [tauto|]. intros _ g h3 C ->. clear - C1 C2 C. cn.
Qed.

Theorem document_programs input ein fuel calls h : fresh input -> good h -> (4 * length (upcoming input) < fuel)%nat ->
  match document_program fuel input ein calls h with
  | HOk None h' => Permutation (live h') (live h) /\ ~ generous h
  | HOk (Some w) h' =>
      exists leaked,
      Permutation (live h') (world_blocks w ++ leaked ++ live h) /\
      leak leaked /\ (leaked <> [] -> w_failed w = true /\ ~ generous h) /\
      vrun (generous h) fuel calls (vworld0 (upcoming input)) (world_at h' w) /\
      exists h'', world_delete w h' = HOk tt h'' /\ Permutation (live h'') (leaked ++ live h)
  | HAssert => asserts calls
  | HUndef => False
  end.
Proof.
  intros Fr G F. unfold document_program.
  destruct (make_does input ein h Fr G) as (r & g & h1 & E & G1 & X1 & C1 & R). rewrite (bind_ok _ _ _ _ _ E). destruct r as [[p m]|]; cbn [made_both] in R.
  2:{ destruct R as (-> & N). cbn. split; [|exact N]. apply (changes_perm _ _ _ _ C1 eq_refl). }
  destruct R as (-> & Wm & Vm & Sp & St & V).
  assert (Vi : mkLoader (hp_at h1 p) (started p) = init_loader (upcoming input)) by (rewrite V, St; reflexivity).
  assert (V0 : world_at h1 (mkWorld p false m []) = vworld0 (upcoming input)).
  { unfold world_at, vworld0. cbn [w_parser w_failed w_emitter w_docs map]. rewrite Vm. unfold started in Vi. rewrite Vi. reflexivity. }
  destruct (wrun_does (generous h) fuel (upcoming input) F calls (mkWorld p false m []) h1 G1) as [(A & B)|(w & g & h2 & E2 & G2 & X2 & C2 & lk & -> & L & N & _ & Inv & Vr)].
  { intros gg. apply X1, gg. }
  { split; [exact Sp|]. cbn [w_parser w_failed w_emitter w_docs]. split; [intros _; rewrite Vi; left; eexists; constructor|]. split; [exact Wm|]. split; apply Forall_nil. }
  { unfold world_blocks. cbn [w_parser w_emitter w_docs flat_map]. clear - C1. cn. }
  { unfold hbind. rewrite A. exact B. }
  rewrite (bind_ok _ _ _ _ _ E2). unfold world_blocks in C2 at 1. cbn [w_parser w_emitter w_docs flat_map] in C2. rewrite V0 in Vr.
  assert (C3 : changes h [] (world_blocks w ++ lk) h2) by (clear - C1 C2; cn).
  cbn. exists lk. split; [rewrite app_assoc; apply (changes_perm _ _ _ _ C3 eq_refl)|]. split; [exact L|]. split; [intros Nl; destruct (N Nl) as (_ & Q); exact Q|]. split; [exact Vr|].
  destruct (world_delete_does fuel _ h2 w G2 Inv) as ([] & g & h3 & E3 & G3 & X3 & C4 & ->); [clear - C3; cn|].
  exists h3. split; [exact E3|]. apply (changes_perm h []); [|reflexivity]. clear - C3 C4. cn.
Qed.

(* ---- event programs ---- *)
Definition rinv (input : list token) (h : heap) (w : relay) : Prop :=
  live_parser input h (r_parser w) /\ wf_em (r_emitter w) /\ Forall sound_event (r_events w).
Definition rpost (input : list token) (h : heap) (w : relay) (step : vrelay -> vrelay -> Prop) (w' : relay) (given : list nat) (h' : heap) : Prop :=
  given = relay_blocks w' /\ rinv input h' w' /\ step (relay_at h w) (relay_at h' w').
Lemma rstep_does (g : Prop) input w c h : good h -> (g -> generous h) -> rinv input h w -> holds h (relay_blocks w) ->
  does (h_rstep w c) h (relay_blocks w) (rpost input h w (rstep g c)).
Proof.
  intros G Hg Inv H. pose proof Inv as ((I1 & I2) & I3 & I4). pose proof (ext_refl h) as X.
  assert (Hp : holds h (hp_blocks (r_parser w))) by (unfold relay_blocks in H; clear - H; cn).
  assert (He : holds h (em_blocks (r_emitter w))) by (unfold relay_blocks in H; clear - H; cn).
  assert (Hd : holds h (flat_map ev_blocks (r_events w))) by (unfold relay_blocks in H; clear - H; cn).
  assert (Stay : forall step : vrelay -> vrelay -> Prop, step (relay_at h w) (relay_at h w) -> ends (hret w h) h (relay_blocks w) (rpost input h w step)).
  { intros step St. eapply ends_ret; [exact G|exact X|apply still|]. split; [reflexivity|]. split; [exact Inv|exact St]. }
  unfold does. destruct c as [|e|k|k]; cbn [h_rstep].
  - (* parse *)
    destruct (hp_error (r_parser w)) as [er|] eqn:Ee.
    { assert (Ne : hp_error (r_parser w) <> None) by (rewrite Ee; discriminate).
      rewrite (bind_ok _ _ _ _ _ (failed_parse _ h Ne)). cbn [he_ev].
      eapply ends_ret with (g := relay_blocks (mkRelay (r_parser w) (r_emitter w) (r_events w ++ [HNoEvent]))); [exact G|exact X| |].
      { unfold relay_blocks. cbn [r_parser r_emitter r_events]. rewrite flat_ev_snoc. cbn [ev_blocks]. clear. cn. }
      split; [reflexivity|]. split.
      - split; [split; [exact I1|left; exact Ne]|]. split; [exact I3|]. apply forall_snoc; [exact I4|exact I].
      - unfold relay_at. cbn [r_parser r_emitter r_events]. rewrite Ee, map_app. cbn [map event_at]. apply R_parse_none. left. reflexivity. }
    destruct I2 as [I2|(es & I2)]; [congruence|]. pose proof (history_next input es _ I2) as Nx.
    destruct (parse_sim h (r_parser w) G I1 Hp) as [[_ U]|([p1 r] & g1 & h1 & E1 & G1 & X1 & C1 & Sp1 & -> & R)]; [rewrite U in Nx; contradiction|].
    cbn [fst snd] in *. rewrite (bind_ok _ _ _ _ _ E1).
    assert (Ve : map (event_at h1) (r_events w) = map (event_at h) (r_events w)) by (apply events_ext; assumption).
    destruct r as [x|].
    + destruct R as (Sx & R).
      eapply ends_ret with (g := relay_blocks (mkRelay p1 (r_emitter w) (r_events w ++ [he_ev x]))); [exact G1|exact X1| |].
      { unfold relay_blocks. cbn [r_parser r_emitter r_events]. rewrite flat_ev_snoc. clear - H C1. unfold relay_blocks in H. cn. }
      split; [reflexivity|].
      destruct (parse (hp_at h (r_parser w))) as [e q|q| |] eqn:Ep; try contradiction.
      * destruct R as (Vx & _ & _ & Vq & _). pose proof (H_call _ _ _ _ _ I2 Ep) as L1. rewrite <- Vq in L1.
        assert (Ee1 : hp_error p1 = None).
        { assert (Er : error_at (hp_error p1) = p_error q) by (rewrite <- Vq; reflexivity). rewrite Nx in Er. destruct (hp_error p1) as [[| | |]|]; [discriminate|discriminate|discriminate|discriminate|reflexivity]. }
        split.
        { split; [split; [exact Sp1|right; eexists; exact L1]|]. split; [exact I3|]. apply forall_snoc; assumption. }
        unfold relay_at. cbn [r_parser r_emitter r_events]. rewrite Ee, Ee1, map_app, Ve. cbn [map]. rewrite Vx, Vq. apply R_parse. exact Ep.
      * destruct R as (Vx & Vq). destruct Nx as [Nq _]. subst q. rewrite Vx in *.
        assert (L1 : history input es (hp_at h1 p1)) by (rewrite Vq; exact I2).
        destruct (hp_error p1) as [e1|] eqn:Ee1.
        { exfalso. assert (Er : error_at (hp_error p1) = error_at (hp_error (r_parser w))) by (change (p_error (hp_at h1 p1) = p_error (hp_at h (r_parser w))); rewrite Vq; reflexivity).
          rewrite Ee1, Ee in Er. destruct e1; discriminate. }
        split.
        { split; [split; [exact Sp1|right; eexists; exact L1]|]. split; [exact I3|]. apply forall_snoc; [exact I4|exact I]. }
        unfold relay_at. cbn [r_parser r_emitter r_events]. rewrite Ee, Ee1, map_app, Ve, Vq. cbn [map event_at]. apply R_parse_none. right. exact Ep.
    + destruct R as (Ne & R). rewrite app_nil_r in *.
      eapply ends_ret with (g := relay_blocks (mkRelay p1 (r_emitter w) (r_events w))); [exact G1|exact X1| |].
      { unfold relay_blocks. cbn [r_parser r_emitter r_events]. clear - H C1. unfold relay_blocks in H. cn. }
      split; [reflexivity|]. split.
      { split; [split; [exact Sp1|left; exact Ne]|]. split; [exact I3|exact I4]. }
      unfold relay_at. cbn [r_parser r_emitter r_events]. rewrite Ee, Ve. destruct (hp_error p1); [|congruence]. apply R_parse_fails.
      intros gg. destruct R as [(q & R & <-)|R]; [exact R|destruct R; apply Hg, gg].
  - (* make *)
    destruct (event_initialize_does e h G) as (r & g1 & h1 & E1 & G1 & X1 & C1 & R). rewrite (bind_ok _ _ _ _ _ E1).
    assert (Vp : hp_at h1 (r_parser w) = hp_at h (r_parser w)) by (apply hp_ext; assumption). assert (Sp0 : sound_hp h1 (r_parser w)) by (eapply (sound_ext _ h); assumption).
    assert (Ve : map (event_at h1) (r_events w) = map (event_at h) (r_events w)) by (apply events_ext; assumption).
    destruct r as [x|].
    + destruct R as (-> & Sx & Vx & Gx). eapply ends_ret with (g := relay_blocks (mkRelay (r_parser w) (r_emitter w) (r_events w ++ [x]))); [exact G1|exact X1| |].
      { unfold relay_blocks. cbn [r_parser r_emitter r_events]. rewrite flat_ev_snoc. clear - C1. cn. }
      split; [reflexivity|]. split.
      { split; [split; [assumption|cbn [r_parser]; rewrite Vp; exact I2]|]. split; [exact I3|]. apply forall_snoc; assumption. }
      unfold relay_at. cbn [r_parser r_emitter r_events]. rewrite map_app, Ve, Vp. cbn [map]. rewrite Vx. apply R_made. exact Gx.
    + destruct R as (-> & R). rewrite app_nil_r. eapply ends_ret with (g := relay_blocks (mkRelay (r_parser w) (r_emitter w) (r_events w))); [exact G1|exact X1| |].
      { unfold relay_blocks. cbn [r_parser r_emitter r_events]. clear - C1. cn. }
      split; [reflexivity|]. split.
      { split; [split; [assumption|cbn [r_parser]; rewrite Vp; exact I2]|]. split; [exact I3|exact I4]. }
      unfold relay_at. cbn [r_parser r_emitter r_events]. rewrite Ve, Vp. apply R_not_made. intros gg. destruct R as [R|R]; [destruct R; apply Hg, gg|exact R].
  - (* emit *)
    destruct (nth_error (r_events w) k) as [x|] eqn:Ek.
    2:{ apply Stay. apply R_emit_none. cbn [relay_at vr_events]. rewrite nth_error_map, Ek. reflexivity. }
    assert (Sx : sound_event x) by (rewrite Forall_forall in I4; apply I4; eapply nth_error_In; exact Ek).
    assert (Ek' : nth_error (map (event_at h) (r_events w)) k = Some (event_at h x)) by (rewrite nth_error_map, Ek; reflexivity).
    pose proof (fun b => flat_split ev_blocks (r_events w) k x b Ek) as Fs.
    destruct (emit_does (r_emitter w) x h G I3 Sx) as ([m1 ok] & g2 & h1 & E1 & G1 & X1 & C1 & -> & W1 & O1 & O2 & O3 & B1 & B2).
    { intros b. specialize (H b). specialize (Fs b). unfold relay_blocks in H. rewrite !cnt_app in *. lia. }
    cbn [fst snd] in *. rewrite (bind_ok _ _ _ _ _ E1).
    assert (Vp : hp_at h1 (r_parser w) = hp_at h (r_parser w)) by (apply hp_ext; assumption). assert (Sp0 : sound_hp h1 (r_parser w)) by (eapply (sound_ext _ h); assumption).
    assert (Ve : map (event_at h1) (r_events w) = map (event_at h) (r_events w)) by (apply events_ext; assumption).
    eapply ends_ret with (g := relay_blocks (mkRelay (r_parser w) m1 (remove_nth k (r_events w)))); [exact G1|exact X1| |].
    { unfold relay_blocks. cbn [r_parser r_emitter r_events]. intros b. specialize (H b). specialize (Fs b). specialize (C1 b). unfold relay_blocks in H. rewrite !cnt_app in *. lia. }
    split; [reflexivity|]. split.
    { split; [split; [assumption|cbn [r_parser]; rewrite Vp; exact I2]|]. split; [exact W1|]. apply forall_remove. exact I4. }
    unfold relay_at. cbn [r_parser r_emitter r_events]. rewrite map_remove, Ve, Vp. eapply R_emit; [exact Ek'|].
    apply (call_of g (emit_opt (event_at h x)) _ _ ok [ok]); [|intros _; exact B1|intros gg; apply B2, Hg, gg].
    intros rest. unfold went, D. rewrite O1, O2, O3. destruct (event_at h x); destruct ok; cbn; rewrite ?app_nil_r; reflexivity.
  - (* drop *)
    destruct (nth_error (r_events w) k) as [x|] eqn:Ek.
    2:{ apply Stay. apply R_drop_none. cbn [relay_at vr_events]. rewrite nth_error_map, Ek. reflexivity. }
    assert (Sx : sound_event x) by (rewrite Forall_forall in I4; apply I4; eapply nth_error_In; exact Ek).
    assert (Ek' : nth_error (map (event_at h) (r_events w)) k = Some (event_at h x)) by (rewrite nth_error_map, Ek; reflexivity).
    pose proof (fun b => flat_split ev_blocks (r_events w) k x b Ek) as Fs.
    destruct (event_delete_does x h G Sx) as (u & g1 & h1 & E1 & G1 & X1 & C1 & ->).
    { intros b. specialize (H b). specialize (Fs b). unfold relay_blocks in H. rewrite !cnt_app in *. lia. }
    rewrite (bind_ok _ _ _ _ _ E1).
    assert (Vp : hp_at h1 (r_parser w) = hp_at h (r_parser w)) by (apply hp_ext; assumption). assert (Sp0 : sound_hp h1 (r_parser w)) by (eapply (sound_ext _ h); assumption).
    assert (Ve : map (event_at h1) (r_events w) = map (event_at h) (r_events w)) by (apply events_ext; assumption).
    eapply ends_ret with (g := relay_blocks (mkRelay (r_parser w) (r_emitter w) (remove_nth k (r_events w)))); [exact G1|exact X1| |].
    { unfold relay_blocks. cbn [r_parser r_emitter r_events]. intros b. specialize (H b). specialize (Fs b). specialize (C1 b). unfold relay_blocks in H. rewrite !cnt_app, ?cnt_nil in *. lia. }
    split; [reflexivity|]. split.
    { split; [split; [assumption|cbn [r_parser]; rewrite Vp; exact I2]|]. split; [exact I3|]. apply forall_remove. exact I4. }
    unfold relay_at. cbn [r_parser r_emitter r_events]. rewrite map_remove, Ve, Vp. eapply R_drop. exact Ek'.
Qed.
Lemma rrun_does (g : Prop) input : forall calls w h, good h -> (g -> generous h) -> rinv input h w -> holds h (relay_blocks w) ->
  does (h_rrun w calls) h (relay_blocks w) (rpost input h w (rrun g calls)).
Proof.
  induction calls as [|c calls IH]; intros w h G Hg Inv H; cbn [h_rrun].
  { eapply ends_ret; [exact G|apply ext_refl|apply still|]. split; [reflexivity|]. split; [exact Inv|constructor]. }
  destruct (rstep_does g input w c h G Hg Inv H) as (w1 & g1 & h1 & E1 & G1 & X1 & C1 & -> & Inv1 & V1).
  unfold does. rewrite (bind_ok _ _ _ _ _ E1).
  destruct (IH w1 h1 G1) as (w2 & g2 & h2 & E2 & G2 & X2 & C2 & -> & Inv2 & V2).
  { intros gg. apply X1, Hg, gg. }
  { exact Inv1. }
  { clear - H C1. cn. }
  rewrite E2. exists w2, (relay_blocks w2), h2. split; [reflexivity|]. split; [exact G2|]. split; [eapply ext_trans; eassumption|]. split; [clear - C1 C2; cn|].
  split; [reflexivity|]. split; [exact Inv2|econstructor; eassumption].
Qed.
Lemma delete_events_does l : forall h, good h -> Forall sound_event l -> holds h (flat_map ev_blocks l) ->
  does (delete_events l) h (flat_map ev_blocks l) (fun _ g _ => g = []).
Proof.
  induction l as [|e l IH]; intros h G S H; unfold does; cbn [delete_events flat_map] in *.
  { eapply ends_ret; [exact G|apply ext_refl| |reflexivity]. clear. cn. }
  inversion S as [|? ? Sd Sr]; subst.
  destruct (event_delete_does e h G Sd) as (u & g & h1 & E1 & G1 & X1 & C1 & ->); [clear - H; cn|].
  rewrite (bind_ok _ _ _ _ _ E1). destruct (IH h1 G1 Sr) as (u2 & g & h2 & E2 & G2 & X2 & C2 & ->); [clear - H C1; cn|].
  rewrite E2. eexists. eexists. eexists. split; [reflexivity|]. split; [exact G2|]. split; [eapply ext_trans; eassumption|]. split; [|reflexivity]. clear - C1 C2. cn.
Qed.
Lemma relay_delete_does input h w : good h -> rinv input h w -> holds h (relay_blocks w) -> does (relay_delete w) h (relay_blocks w) (fun _ g _ => g = []).
Proof.
  intros G ((I1 & I2) & I3 & I4) H. unfold does, relay_delete, relay_blocks in *. pose proof (ext_refl h) as X.
  eapply ends_bind; [exact X|apply delete_events_does; [exact G|exact I4|clear - H; cn]|]. cbn beta. intros _ g h1 G1 Y1 X1 C1 ->.
  eapply ends_bind; [exact X1|apply em_delete_does; [exact G1|exact I3|clear - H C1; cn]|]. cbn beta. intros _ g h2 G2 Y2 X2 C2 ->.
  eapply ends_does; [exact X2|apply delete_does; [exact G2|apply I1|clear - H C1 C2; cn]| |]; cbn beta; [tauto|]. intros _ g h3 C ->. clear - C1 C2 C. cn.
Qed.
Theorem event_programs input ein calls h : fresh input -> good h ->
  match event_program input ein calls h with
  | HOk None h' => Permutation (live h') (live h) /\ ~ generous h
  | HOk (Some w) h' =>
      Permutation (live h') (relay_blocks w ++ live h) /\
      rrun (generous h) calls (vrelay0 (upcoming input)) (relay_at h' w) /\
      exists h'', relay_delete w h' = HOk tt h'' /\ Permutation (live h'') (live h)
  | _ => False
  end.
Proof.
  intros Fr G. unfold event_program.
  destruct (make_does input ein h Fr G) as (r & g & h1 & E & G1 & X1 & C1 & R). rewrite (bind_ok _ _ _ _ _ E). destruct r as [[p m]|]; cbn [made_both] in R.
  2:{ destruct R as (-> & N). cbn. split; [|exact N]. apply (changes_perm _ _ _ _ C1 eq_refl). }
  destruct R as (-> & Wm & Vm & Sp & St & V).
  assert (Ee : hp_error p = None).
  { assert (Er : error_at (hp_error p) = None) by (change (p_error (hp_at h1 p) = None); rewrite V; reflexivity). destruct (hp_error p) as [[| | |]|]; [discriminate|discriminate|discriminate|discriminate|reflexivity]. }
  assert (V0 : relay_at h1 (mkRelay p m []) = vrelay0 (upcoming input)).
  { unfold relay_at, vrelay0. cbn [r_parser r_emitter r_events map]. rewrite Vm, V, Ee. reflexivity. }
  destruct (rrun_does (generous h) (upcoming input) calls (mkRelay p m []) h1 G1) as (w & g & h2 & E2 & G2 & X2 & C2 & -> & Inv & Vr).
  { intros gg. apply X1, gg. }
  { split; [split; [exact Sp|right; exists []; cbn [r_parser]; rewrite V; constructor]|]. split; [exact Wm|apply Forall_nil]. }
  { unfold relay_blocks. cbn [r_parser r_emitter r_events flat_map]. clear - C1. cn. }
  rewrite (bind_ok _ _ _ _ _ E2). unfold relay_blocks in C2 at 1. cbn [r_parser r_emitter r_events flat_map] in C2. rewrite V0 in Vr.
  assert (C3 : changes h [] (relay_blocks w) h2) by (clear - C1 C2; cn).
  cbn. split; [apply (changes_perm _ _ _ _ C3 eq_refl)|]. split; [exact Vr|].
  destruct (relay_delete_does _ h2 w G2 Inv) as ([] & g & h3 & E3 & G3 & X3 & C4 & ->); [clear - C3; cn|].
  exists h3. split; [exact E3|]. change (Permutation (live h3) ([] ++ live h)); apply (changes_perm h []); [|reflexivity]. clear - C3 C4. cn.
Qed.
