(* The emitter's output, through the writer. *)
From Verif Require Import Base Utf8Spec ReaderModel Utf8Lemmas ReaderSpec ReaderProofs CharSpec Types TreeSpec EventAcc WriterModel WriterSpec WriterProofs PenModel EmitModel EmitIOModel EmitSpec EmitInv EmitLoop EmitSettings PenOut EmitOut.

Definition out_of (u : bool) (m : emitter) : Prop :=
  exists r, p_ops (m_pen m) = (if encoding_eqb (g_encoding (m_cfg m)) Utf8Enc then [] else [CPut [0xFEFF]]) ++ r /\ Forall (out_op (out_char u)) r.
Definition oinv (g : cfg) (m : emitter) (a : acc) : Prop :=
  einv m a /\
  match a with
  | AStart => p_ops (m_pen m) = [] /\ m_cfg m = g /\ m_state m = StreamStart
  | _ => good (g_unicode g) m /\ out_of (g_unicode g) m /\ m_state m <> StreamStart /\ g_encoding (m_cfg m) <> AnyEnc /\ exists enc, m_cfg m = normalise g enc
  end /\ (a = ADone -> exists ops, p_ops (m_pen m) = ops ++ [CFlush]).

Lemma out_of_moves u m m' : out_of u m -> moves u m m' -> out_of u m'.
Proof.
  intros (r & E & F) ((r' & E' & F') & G & C). exists (r ++ r'). rewrite E', E, C, app_assoc. split; [reflexivity|]. apply Forall_app; auto.
Qed.
Lemma astep_not_start a e : astep a e <> Some AStart.
Proof.
  destruct a as [| |[|f st]|]; intros H; try (destruct e; discriminate H).
  destruct e; cbn in H; try (destruct f, st; discriminate H); destruct (after_node f), st; destruct f; discriminate H.
Qed.
Lemma state_start m a : einv m a -> m_state m = StreamStart -> a = AStart.
Proof. intros [A _ _ _ _] E. rewrite E in A. inversion A; subst; [reflexivity|]. cbn in H. discriminate. Qed.

Lemma one_out g m a e q : oinv g m a -> m_events m = e :: q -> text_event e ->
  match emit_one m e with
  | EOk m' => exists a', oinv g m' a' /\ m_events m' = q /\ a' <> AStart
  | EErr _ m' => (a <> AStart -> out_of (g_unicode g) m' /\ m_cfg m' = m_cfg m) /\ (a = AStart -> p_ops (m_pen m') = [])
  | EBad => False
  end.
Proof.
  intros (Inv & O & Fl) Q T.
  assert (St : m_state m = StreamStart -> a = AStart) by (apply state_start; exact Inv).
  destruct (one_step m a e q Inv Q) as [(a' & m' & S & V & E & I' & E' & G)|(F & x & m' & E & E')]; rewrite E.
  - exists a'. split; [|split; [exact E'|intros ->; exact (astep_not_start _ _ S)]]. split; [exact I'|].
    pose proof (astep_not_start a e) as NA. rewrite S in NA.
    assert (N' : m_state m' <> StreamStart) by (intros X; apply (state_start _ _ I') in X; congruence).
    assert (K : (good (g_unicode g) m' /\ out_of (g_unicode g) m' /\ m_state m' <> StreamStart /\ g_encoding (m_cfg m') <> AnyEnc /\ exists enc, m_cfg m' = normalise g enc)).
    { destruct a as [| |st|].
      - destruct O as (O1 & O2 & O3). destruct e; try discriminate S.
        unfold emit_one, state_machine, emit_stream_start in E. cbn [analyze_event set_data m_state] in E. rewrite O3 in E. cbn [on_pen set_pen m_cfg ebind] in E.
        change (m_cfg (set_data m no_data)) with (m_cfg m) in E. rewrite O2 in E.
        pose proof (normalise_ok g e) as (N1 & N2 & N3 & N4).
        assert (Tg : m_tags m = []) by (destruct Inv as [_ _ _ _ It]; apply It; auto).
        destruct (encoding_eqb (g_encoding (normalise g e)) Utf8Enc) eqn:En; injection E as <-.
        + split; [constructor; cbn; try assumption; [reflexivity|rewrite Tg; constructor]|]. split; [|split; [discriminate|split; [exact N3|eexists; reflexivity]]].
          exists []. split; [|constructor]. cbn -[encoding_eqb normalise]. rewrite En, O1. reflexivity.
        + split; [constructor; cbn; try assumption; [reflexivity|rewrite Tg; constructor]|]. split; [|split; [discriminate|split; [exact N3|eexists; reflexivity]]].
          exists []. split; [|constructor]. cbn -[encoding_eqb normalise]. rewrite En, O1. reflexivity.
      - destruct O as (O1 & O2 & O3 & O4). pose proof (keeps_one _ m e O1 T O3) as K. rewrite E in K. cbn [keeps] in K.
        split; [apply K|]. split; [eapply out_of_moves; eassumption|]. split; [exact N'|]. destruct K as (_ & _ & ->). exact O4.
      - destruct O as (O1 & O2 & O3 & O4). pose proof (keeps_one _ m e O1 T O3) as K. rewrite E in K. cbn [keeps] in K.
        split; [apply K|]. split; [eapply out_of_moves; eassumption|]. split; [exact N'|]. destruct K as (_ & _ & ->). exact O4.
      - destruct O as (O1 & O2 & O3 & O4). pose proof (keeps_one _ m e O1 T O3) as K. rewrite E in K. cbn [keeps] in K.
        split; [apply K|]. split; [eapply out_of_moves; eassumption|]. split; [exact N'|]. destruct K as (_ & _ & ->). exact O4. }
    split; [destruct a'; [congruence|exact K..]|].
    intros ->. destruct a as [| |st|]; try (destruct e; discriminate S).
    + destruct e; try discriminate S. unfold emit_one, state_machine in E. cbn [analyze_event set_data m_state] in E.
      destruct Inv as [Ia _ _ _ _]. inversion Ia as [|E1 E2|E1 E2| |]; rewrite <- E1 in E; cbn [emit_document_start ebind] in E; injection E as <-; eexists; reflexivity.
    + destruct st as [|f st]; [discriminate S|]. cbn in S. destruct e; try discriminate S; try (destruct f, st; discriminate S); destruct (after_node f), f, st; discriminate S.
  - destruct a as [| |st|].
    + destruct O as (O1 & O2 & O3). assert (P' : p_ops (m_pen m') = []).
      { unfold emit_one, state_machine in E. destruct (analyze_event (m_cfg m) (m_tags m) e) as [y|d]; [injection E as _ <-; exact O1|].
        cbn [set_data m_state] in E. rewrite O3 in E. unfold emit_stream_start in E. destruct e; try (injection E as _ <-; exact O1). discriminate E. }
      split; [congruence|auto].
    + destruct O as (O1 & O2 & O3 & O4). pose proof (keeps_one _ m e O1 T O3) as K. rewrite E in K. cbn [keeps] in K.
      split; [intros _; split; [eapply out_of_moves; eassumption|apply K]|congruence].
    + destruct O as (O1 & O2 & O3 & O4). pose proof (keeps_one _ m e O1 T O3) as K. rewrite E in K. cbn [keeps] in K.
      split; [intros _; split; [eapply out_of_moves; eassumption|apply K]|congruence].
    + destruct O as (O1 & O2 & O3 & O4). pose proof (keeps_one _ m e O1 T O3) as K. rewrite E in K. cbn [keeps] in K.
      split; [intros _; split; [eapply out_of_moves; eassumption|apply K]|congruence].
Qed.

Definition ended (g : cfg) (r : eres) : Prop :=
  match r with
  | EOk m' => exists a', oinv g m' a' /\ Forall text_event (m_events m')
  | EErr _ m' => (out_of (g_unicode g) m' /\ g_encoding (m_cfg m') <> AnyEnc) \/ p_ops (m_pen m') = []
  | EBad => False
  end.
Lemma loop_out n g : forall m a, oinv g m a -> Forall text_event (m_events m) -> ended g (emit_loop n m).
Proof.
  induction n as [|n IH]; intros m a O T; [exists a; auto|]. cbn [emit_loop].
  destruct (m_events m) as [|e q] eqn:Q; [exists a; rewrite Q; auto|].
  destruct (need_more (e :: q)); [exists a; rewrite Q; auto|].
  inversion T; subst. pose proof (one_out g m a e q O Q ltac:(assumption)) as K. destruct (emit_one m e) as [m'|x m'|]; cbn [ebind].
  - destruct K as (a' & O' & Q' & _). apply (IH m' a' O'). rewrite Q'. assumption.
  - cbn. destruct K as (K1 & K2). destruct O as (_ & O & _). destruct a; [right; auto|left..]; (destruct K1 as [K1 K3]; [discriminate|]); (split; [exact K1|rewrite K3; apply O]).
  - exact K.
Qed.
Lemma oinv_events g m a q : oinv g m a -> oinv g (set_events m q) a.
Proof. intros (I1 & O & F). split; [apply einv_events; exact I1|]. split; [|exact F]. destruct a; try exact O; (destruct O as ([O1 O2 O3 O4] & O5); split; [constructor; assumption|exact O5]). Qed.
Lemma all_out es g : forall m a, oinv g m a -> Forall text_event (m_events m) -> Forall text_event es -> ended g (emit_all m es).
Proof.
  induction es as [|e r IH]; intros m a O T F; cbn [emit_all]; [exists a; auto|]. inversion F; subst.
  unfold emit_event. set (m1 := set_events m (m_events m ++ [e])).
  pose proof (loop_out (length (m_events m1)) g m1 a (oinv_events _ _ _ _ O)) as K.
  assert (T1 : Forall text_event (m_events m1)) by (cbn; apply Forall_app; split; [exact T|constructor; [assumption|constructor]]).
  specialize (K T1). destruct (emit_loop (length (m_events m1)) m1) as [m2|x m2|]; cbn [ebind]; [|exact K|exact K].
  destruct K as (a2 & O2 & T2). apply (IH m2 a2 O2 T2). assumption.
Qed.
Lemma run_out g es : Forall text_event es -> ended g (emit_all (init_emitter g) es).
Proof.
  intros F. apply (all_out es g (init_emitter g) AStart); [|constructor|exact F]. split; [apply einv_init|]. split; [split; [reflexivity|split; reflexivity]|discriminate].
Qed.

(* the settings in force at the end do not depend on the events, apart from the encoding *)
Lemma run_settings g es m enc : Forall text_event es -> emit_all (init_emitter g) es = EOk m -> p_ops (m_pen m) <> [] ->
  g_indent (m_cfg m) = g_indent (normalise g enc) /\ g_width (m_cfg m) = g_width (normalise g enc).
Proof.
  intros F E N. pose proof (run_out g es F) as K. rewrite E in K. destruct K as (a & (_ & O & _) & _).
  assert (H : exists enc0, m_cfg m = normalise g enc0) by (destruct a; [contradiction N; apply O|apply O..]). destruct H as [enc0 ->]. split; reflexivity.
Qed.

Lemma one_char_chars (P : N -> Prop) l : P 0xD -> P 0xA -> one_char P l -> Forall P l.
Proof. intros Pd Pa [(c & -> & H)|H]; subst; auto. Qed.
Lemma ops_chars u r : Forall (out_op (out_char u)) r -> Forall (out_char u) (chars_of r).
Proof.
  induction 1 as [|op r H F IH]; [constructor|]. unfold chars_of. cbn [flat_map]. apply Forall_app. split; [|exact IH].
  destruct op; cbn in *; [apply one_char_chars; auto using Plf, Pcr|apply one_char_chars; auto using Plf, Pcr|constructor].
Qed.
Lemma out_chars u m : out_of u m \/ p_ops (m_pen m) = [] -> exists bom body, chars_of (p_ops (m_pen m)) = bom ++ body /\
  (bom = [] \/ (bom = [0xFEFF] /\ g_encoding (m_cfg m) <> Utf8Enc)) /\ Forall (out_char u) body.
Proof.
  intros [(r & E & F)|E]; [|exists [], []; rewrite E; split; [reflexivity|split; [auto|constructor]]].
  exists (if encoding_eqb (g_encoding (m_cfg m)) Utf8Enc then [] else [0xFEFF]), (chars_of r). rewrite E. unfold chars_of at 1. rewrite flat_map_app.
  split; [destruct (encoding_eqb _ _); reflexivity|]. split; [|apply ops_chars; exact F].
  destruct (encoding_eqb (g_encoding (m_cfg m)) Utf8Enc) eqn:En; [left; reflexivity|right; split; [reflexivity|]]. intros X. rewrite X in En. discriminate.
Qed.

Theorem emitter_repertoire g es : Forall text_event es ->
  match emit_all (init_emitter g) es with
  | EOk m | EErr _ m => exists bom body, chars_of (p_ops (m_pen m)) = bom ++ body /\
      (bom = [] \/ (bom = [0xFEFF] /\ g_encoding (m_cfg m) <> Utf8Enc)) /\
      Forall (fun c => yaml_char c /\ c <> 0xFEFF /\ c <= 0xFFFF /\ (g_unicode g = false -> c < 0x80)) body
  | EBad => False
  end.
Proof.
  intros F. pose proof (run_out g es F) as K. destruct (emit_all (init_emitter g) es) as [m|x m|]; cbn [ended] in K; [| |exact K].
  - destruct K as (a & (_ & O & _) & _). apply (out_chars (g_unicode g)). destruct a; [right; apply O|left; apply O..].
  - apply (out_chars (g_unicode g)). destruct K as [[K _]|K]; auto.
Qed.

(* --- the bytes --- *)
Lemma op_ok_one limit c : c < limit -> op_ok limit (CPut [c]) /\ op_ok limit (CBreak [c]).
Proof.
  intros H. assert (K : forall op, op = CPut [c] \/ op = CBreak [c] -> op_ok limit op); [|auto].
  intros op [-> | ->]; cbn; destruct c as [|[[[[]|[]|]|[[]|[]|]|]|[[[]|[]|]|[[]|[]|]|]|]]; exact H.
Qed.
Lemma out_op_ok u op : out_op (out_char u) op -> op_ok 0x10000 op.
Proof.
  destruct op as [l|l|]; cbn; [| |auto]; intros [(c & -> & H)|H]; subst; try exact I; assert (Hc : c < 0x10000) by (unfold out_char in H; lia); apply (op_ok_one _ _ Hc).
Qed.
Lemma out_of_ops u m : out_of u m -> Forall (op_ok 0x10000) (p_ops (m_pen m)).
Proof.
  intros (r & E & F). rewrite E. apply Forall_app. split.
  - destruct (encoding_eqb _ _); constructor; [cbn; lia|constructor].
  - eapply Forall_impl; [|exact F]. intros op. apply out_op_ok.
Qed.

Lemma limit_16 e : e <> AnyEnc -> limit_ok e 0x10000.
Proof. destruct e; cbn; intros; try congruence; lia. Qed.
Lemma wrun_nil e plan : wrun (init_writer e plan) (map op_bytes []) = WOk (init_writer e plan).
Proof. reflexivity. Qed.

Theorem write_failure_reported plan g es : Forall text_event es ->
  match emit_io plan g es with
  | IOk m w => emit_all (init_emitter g) es = EOk m /\ all_accepted w
  | IEmitter x m w => emit_all (init_emitter g) es = EErr x m /\ all_accepted w
  | IWriter w => ~ all_accepted w
  | IBad => False
  end.
Proof.
  intros F. pose proof (run_out g es F) as K. unfold emit_io.
  assert (R : forall m, (out_of (g_unicode g) m /\ g_encoding (m_cfg m) <> AnyEnc) \/ p_ops (m_pen m) = [] ->
    (exists w, wrun (init_writer (g_encoding (m_cfg m)) plan) (map op_bytes (p_ops (m_pen m))) = WOk w /\ all_accepted w) \/
    (exists w, wrun (init_writer (g_encoding (m_cfg m)) plan) (map op_bytes (p_ops (m_pen m))) = WFail w /\ ~ all_accepted w)).
  { intros m [[O E]|E].
    - apply (wrun_reports _ 0x10000); [apply limit_16; exact E|lia|eapply out_of_ops; exact O].
    - left. rewrite E. eexists. split; [reflexivity|constructor]. }
  destruct (emit_all (init_emitter g) es) as [m|x m|]; cbn [ended] in K; [| |exact K].
  - destruct K as (a & (_ & O & _) & _).
    assert (H : (out_of (g_unicode g) m /\ g_encoding (m_cfg m) <> AnyEnc) \/ p_ops (m_pen m) = []).
    { destruct a; [right; apply O|left; split; apply O..]. }
    destruct (R m H) as [(w & -> & A)|(w & -> & A)]; auto.
  - destruct (R m K) as [(w & -> & A)|(w & -> & A)]; auto.
Qed.

(* a complete stream: everything has been handed over *)
Theorem complete_output plan g es m w : Forall text_event es -> well_formed es -> emit_io plan g es = IOk m w ->
  let e := g_encoding (m_cfg m) in
  e <> AnyEnc /\ accepted w = encode e (chars_of (p_ops (m_pen m))) /\
  exists body, chars_of (p_ops (m_pen m)) = (if encoding_eqb e Utf8Enc then [] else [0xFEFF]) ++ body /\
    Forall (fun c => yaml_char c /\ c <> 0xFEFF /\ c <= 0xFFFF /\ (g_unicode g = false -> c < 0x80)) body.
Proof.
  intros F W H. pose proof (run_out g es F) as K. unfold emit_io in H.
  pose proof (emitter_accepts g es) as A.
  destruct (emit_all (init_emitter g) es) as [m'|x m'|] eqn:E; [|destruct (wrun _ _); discriminate|discriminate].
  destruct (wrun _ _) as [w'|w'|] eqn:Ew in H; try discriminate. injection H as -> ->.
  pose proof (run_progress g es) as P. rewrite E in P. destruct P as (done' & a & P1 & P2 & P3 & P4 & _ & N).
  destruct K as (a' & (I' & O & Fl) & _).
  assert (Dn : m_events m = [] /\ m_state m = EndState).
  { destruct (m_events m) as [|e0 q0] eqn:Q.
    - split; [reflexivity|]. apply well_formed_acc in W. rewrite P1, app_nil_r, P2 in W. injection W as ->. destruct P3 as [X _ _ _ _]. inversion X; congruence.
    - exfalso. apply well_formed_acc in W. rewrite P1, arun_app, P2 in W. cbn [arun] in W.
      apply need_more_spec in N as (n & O' & L & C). destruct (astep a e0) as [b|] eqn:S; [|discriminate].
      cbn [never_closed] in C. destruct (level_after 0 e0 =? 0)%Z; [discriminate|].
      assert (l1 : level_after 0 e0 = 1%Z) by (destruct e0; try discriminate O'; reflexivity). rewrite l1 in C.
      rewrite closed_below in C; [discriminate|lia|]. rewrite (run_depth _ _ _ 1%Z W). cbn [depth].
      pose proof (step_depth _ _ _ S) as D. assert (1 <= depth a)%Z; [|lia].
      destruct a; cbn [depth]; try lia; [destruct e0; discriminate O' + discriminate S|destruct e0; discriminate S]. }
  assert (a' = ADone).
  { destruct I' as [X _ _ _ _]. rewrite (proj2 Dn) in X. inversion X as [| | | |? ? ? X1]; subst; [reflexivity|]. cbn in X1. discriminate. }
  subst a'. destruct (Fl eq_refl) as [ops Eo]. destruct O as (O1 & O2 & O3 & O4 & _). cbn zeta. split; [exact O4|].
  pose proof (out_of_ops _ _ O2) as Ok. split.
  - rewrite Eo in Ew, Ok |- *. apply Forall_app in Ok as [Ok _].
    destruct (wrun_flush_accepted _ 0x10000 plan ops w (limit_16 _ O4) ltac:(lia) Ok Ew) as [B _].
    rewrite B. unfold chars_of. rewrite flat_map_app. cbn. rewrite app_nil_r. reflexivity.
  - destruct O2 as (r & Er & Fr). exists (chars_of r). split; [|apply ops_chars; exact Fr].
    rewrite Er. unfold chars_of. rewrite flat_map_app. destruct (encoding_eqb _ _); reflexivity.
Qed.

(* --- and read again --- *)
Lemma unit_bytes_ok be u : u <= 0xFFFF -> Forall byte_ok (unit_bytes be u).
Proof. intros H. unfold unit_bytes, byte_ok. destruct be; repeat constructor; lia. Qed.
Lemma encode_bytes e cs : Forall (fun c => c <= 0xFFFF) cs -> Forall byte_ok (encode e cs).
Proof.
  intros F. destruct e; cbn [encode]; [constructor| | |]; (induction F as [|c r H F IH]; [constructor|]); cbn [utf8 utf16 flat_map]; apply Forall_app; (split; [|exact IH]).
  - apply utf8_enc_bytes. lia.
  - unfold utf16_enc, utf16_units. destruct (N.ltb_spec c 0x10000); [|lia]. cbn [flat_map]. rewrite app_nil_r. apply unit_bytes_ok; exact H.
  - unfold utf16_enc, utf16_units. destruct (N.ltb_spec c 0x10000); [|lia]. cbn [flat_map]. rewrite app_nil_r. apply unit_bytes_ok; exact H.
Qed.
Lemma bom_utf8 cs : Forall (fun c => c <> 0xFEFF /\ c <= 0xFFFF) cs -> bom (utf8 cs) = (Utf8Enc, 0).
Proof.
  intros F. rewrite bom_spec.
  destruct (starts_with [0xFF; 0xFE] (utf8 cs)) eqn:E1.
  { exfalso. apply starts_with_spec in E1 as [k E1]. destruct F as [|c r [N L] F]; [discriminate|].
    cbn [utf8 flat_map app] in E1. unfold utf8_enc in E1.
    destruct (N.ltb_spec c 0x80); [|destruct (N.ltb_spec c 0x800); [|destruct (N.ltb_spec c 0x10000)]]; cbn [app] in E1; injection E1; intros; lia. }
  destruct (starts_with [0xFE; 0xFF] (utf8 cs)) eqn:E2.
  { exfalso. apply starts_with_spec in E2 as [k E2]. destruct F as [|c r [N L] F]; [discriminate|].
    cbn [utf8 flat_map app] in E2. unfold utf8_enc in E2.
    destruct (N.ltb_spec c 0x80); [|destruct (N.ltb_spec c 0x800); [|destruct (N.ltb_spec c 0x10000)]]; cbn [app] in E2; injection E2; intros; lia. }
  destruct (starts_with [0xEF; 0xBB; 0xBF] (utf8 cs)) eqn:E3; [|reflexivity].
  exfalso. apply starts_with_spec in E3 as [k E3]. destruct F as [|c r [N L] F]; [discriminate|].
  cbn [utf8 flat_map app] in E3. unfold utf8_enc in E3.
  destruct (N.ltb_spec c 0x80); [|destruct (N.ltb_spec c 0x800); [|destruct (N.ltb_spec c 0x10000)]]; cbn [app] in E3.
  - injection E3; intros; lia.
  - injection E3; intros; lia.
  - injection E3 as H3 H4 H5 _. lia.
  - lia.
Qed.

Theorem read_back plan g es m w plan2 reqs : Forall text_event es -> well_formed es -> emit_io plan g es = IOk m w ->
  nlen (accepted w) < MAX_FILE_SIZE -> plan_ok plan2 -> Forall req_ok reqs ->
  exists body, chars_of (p_ops (m_pen m)) = (if encoding_eqb (g_encoding (m_cfg m)) Utf8Enc then [] else [0xFEFF]) ++ body /\
    read_all AnyEnc (accepted w) plan2 reqs = Text (map utf8_enc body) (g_encoding (m_cfg m)).
Proof.
  intros F W H L P R. destruct (complete_output _ _ _ _ _ F W H) as (N & A & body & B & Q). exists body. split; [exact B|].
  assert (I : input_ok (accepted w)).
  { split; [|exact L]. rewrite A. apply encode_bytes. rewrite B. apply Forall_app. split; [destruct (encoding_eqb _ _); repeat constructor; discriminate|].
    eapply Forall_impl; [|exact Q]. cbn. tauto. }
  apply (read_all_text AnyEnc _ _ _ I P R). unfold eff_enc, eff_skip.
  assert (Y : Forall yaml_char body) by (eapply Forall_impl; [|exact Q]; cbn; tauto).
  rewrite A, B. destruct (g_encoding (m_cfg m)); cbn [encoding_eqb encode app]; [congruence| | |].
  - rewrite bom_utf8; [|eapply Forall_impl; [|exact Q]; cbn; tauto]. cbn [fst snd N.to_nat skipn]. split; [reflexivity|]. exists body. split; [reflexivity|]. split; [reflexivity|exact Y].
  - split; [reflexivity|]. exists body. split; [reflexivity|]. split; [reflexivity|exact Y].
  - split; [reflexivity|]. exists body. split; [reflexivity|]. split; [reflexivity|exact Y].
Qed.
