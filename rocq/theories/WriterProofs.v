(* Proofs about the writer. *)
From Verif Require Import Base Utf8Spec ReaderModel ReaderSpec ReaderProofs Utf8Lemmas Utf16Lemmas WriterModel WriterSpec.

Lemma wr_trail_ok c rest b l : c < 0x200000 -> utf8_enc c ++ rest = b :: l ->
  wr_trail (N.to_nat (utf8_width b - 1)) (utf8_lead_value b) l = Some c.
Proof.
  intros Hc E. pose proof (utf8_enc_bytes c Hc) as HB.
  unfold utf8_enc, byte_ok in *.
  destruct (N.ltb_spec c 0x80); [|destruct (N.ltb_spec c 0x800); [|destruct (N.ltb_spec c 0x10000)]];
  repeat match goal with H : Forall _ (_ :: _) |- _ => inversion H; clear H; subst end;
  cbn [app] in E; injection E as <- <-;
  rewrite utf8_width_spec, utf8_lead_value_spec by assumption;
  repeat match goal with |- context [?a <? ?b] => destruct (N.ltb_spec a b); try lia end;
  change (N.to_nat (1-1)) with 0%nat; change (N.to_nat (2-1)) with 1%nat;
  change (N.to_nat (3-1)) with 2%nat; change (N.to_nat (4-1)) with 3%nat;
  cbn [wr_trail]; rewrite ?land_3f, ?shl6; apply f_equal; lia.
Qed.

Lemma wr_utf16_ok be c : c < 0x10400 -> wr_utf16 be c = utf16_enc be c.
Proof.
  intros H. unfold wr_utf16, utf16_enc, utf16_units, wr_unit, unit_bytes.
  rewrite !land_ff, !shr8, !shr10, !shr18.
  destruct (N.ltb_spec c 0x10000).
  - destruct be; cbn [flat_map app]; repeat (apply f_equal2; [lia|]); reflexivity.
  - destruct be; cbn [flat_map app]; repeat (apply f_equal2; [lia|]); reflexivity.
Qed.

Lemma wr_utf16_len be c : nlen (wr_utf16 be c) = if c <? 0x10000 then 2 else 4.
Proof.
  unfold wr_utf16, wr_unit. destruct (c <? 0x10000), be; reflexivity.
Qed.

Lemma recode_ok be : forall cs fuel raw, Forall (fun c => c < 0x10400) cs ->
  nlen raw + 2 * nlen (utf8 cs) <= OUTPUT_RAW_BUFFER_SIZE -> (length (utf8 cs) <= fuel)%nat ->
  recode fuel be (utf8 cs) raw = Some (raw ++ utf16 be cs).
Proof.
  induction cs as [|c cs IH]; intros fuel raw HF Hl Hf.
  - destruct fuel; cbn; rewrite app_nil_r; reflexivity.
  - inversion HF as [|? ? Hc HF']; subst.
    change (utf8 (c :: cs)) with (utf8_enc c ++ utf8 cs) in *.
    rewrite nlen_app in Hl. rewrite app_length in Hf.
    destruct (utf8_enc_head_width c (utf8 cs) ltac:(lia)) as (b & l & E & Hw).
    pose proof (wr_trail_ok c (utf8 cs) b l ltac:(lia) E) as Ht.
    pose proof (utf8_enc_len c) as Hlen.
    destruct fuel as [|fuel]; [unfold nlen in *; lia|].
    rewrite E. cbn [recode]. rewrite Hw in *. rewrite Ht.
    replace (nlen (utf8_enc c) =? 0) with false by lia.
    rewrite <- E, skipn_nlen_app, nlen_app, wr_utf16_len.
    assert (H2 : (if c <? 0x10000 then 2 else 4) <= 2 * nlen (utf8_enc c)).
    { destruct (N.ltb_spec c 0x10000); [lia|]. unfold utf8_enc.
      repeat match goal with |- context [c <? ?b] => destruct (N.ltb_spec c b); try lia end.
      rewrite !nlen_cons, nlen_nil. lia. }
    replace (OUTPUT_RAW_BUFFER_SIZE <? nlen raw + (if c <? 0x10000 then 2 else 4)) with false by lia.
    rewrite IH; [| assumption | rewrite nlen_app, wr_utf16_len; lia | unfold nlen in *; lia].
    rewrite wr_utf16_ok, <- app_assoc by assumption. reflexivity.
Qed.

(* invariant between operations as long as nothing failed *)
Record winv (e : encoding) (limit : N) (acc : list N) (w : writer) : Prop := mkWinv {
  wi_enc : w_enc w = e;
  wi_raw : w_raw w = [];
  wi_all : all_accepted w;
  wi_cap : nlen (w_buf w) <= OUTPUT_BUFFER_SIZE;
  wi_data : exists sent pend, acc = sent ++ pend /\ w_buf w = utf8 pend /\ accepted w = encode e sent /\ Forall (fun c => c < limit) pend
}.

Definition limit_ok (e : encoding) (limit : N) : Prop :=
  match e with Utf8Enc => limit <= 0x200000 | AnyEnc => False | _ => limit <= 0x10400 end.

Definition last_refused (w : writer) : Prop := exists l bs, w_calls w = l ++ [mkWcall bs false].

Lemma accepted_app cs1 c enc buf raw plan :
  accepted (mkWriter enc buf raw plan (cs1 ++ [c])) =
  flat_map (fun c => if w_answer c then w_bytes c else []) cs1 ++ (if w_answer c then w_bytes c else []).
Proof. unfold accepted. cbn [w_calls]. rewrite flat_map_app. cbn [flat_map]. rewrite app_nil_r. reflexivity. Qed.

Lemma encode_app e a b : encode e (a ++ b) = encode e a ++ encode e b.
Proof. destruct e; cbn; [reflexivity|apply flat_map_app..]. Qed.

Lemma flush_ok e limit acc w : limit_ok e limit -> winv e limit acc w ->
  (exists w', flush w = WOk w' /\ winv e limit acc w' /\ w_buf w' = []) \/
  (exists w', flush w = WFail w' /\ last_refused w').
Proof.
  intros Hlim [We Wr Wa Wc (sent & pend & Ea & Eb & Es & Hp)].
  unfold flush. rewrite Eb.
  destruct (utf8 pend) as [|b0 bl] eqn:Eu.
  { left. exists w. split; [reflexivity|]. split; [|rewrite Eb; reflexivity]. split; auto.
    exists sent, pend. rewrite Eb, Eu. auto. }
  rewrite <- Eu. rewrite We.
  destruct e; [destruct Hlim| | |].
  - (* utf8 *)
    unfold handler_write. cbn [w_enc w_buf w_raw w_plan w_calls].
    destruct (hd true (w_plan w)) eqn:Eh.
    + left. eexists. split; [reflexivity|]. split; [|reflexivity]. split; cbn [w_enc w_buf w_raw w_plan w_calls]; auto.
      * unfold all_accepted in *. cbn [w_calls]. apply Forall_app. split; [assumption|]. repeat constructor.
      * cbn; lia.
      * exists (sent ++ pend), []. rewrite app_nil_r. split; [assumption|]. split; [reflexivity|].
        split; [|constructor]. rewrite accepted_app. cbn [w_answer w_bytes]. rewrite encode_app. unfold accepted in Es. rewrite Es. reflexivity.
    + right. eexists. split; [reflexivity|]. eexists _, _. reflexivity.
  - assert (Hr : recode (length (utf8 pend)) (encoding_eqb Utf16LE Utf16BE) (utf8 pend) (w_raw w) = Some ([] ++ utf16 false pend)).
    { rewrite Wr. apply recode_ok; auto. 2:{ change (nlen []) with 0. rewrite Eb in Wc. rewrite <- Eu in Wc. unfold OUTPUT_RAW_BUFFER_SIZE. lia. }
      eapply Forall_impl; [|exact Hp]. cbn in Hlim. cbn. lia. }
    rewrite Hr. unfold handler_write. cbn [w_enc w_buf w_raw w_plan w_calls].
    destruct (hd true (w_plan w)) eqn:Eh.
    + left. eexists. split; [reflexivity|]. split; [|reflexivity]. split; cbn [w_enc w_buf w_raw w_plan w_calls]; auto.
      * unfold all_accepted in *. cbn [w_calls]. apply Forall_app. split; [assumption|]. repeat constructor.
      * cbn; lia.
      * exists (sent ++ pend), []. rewrite app_nil_r. split; [assumption|]. split; [reflexivity|].
        split; [|constructor]. rewrite accepted_app. cbn [w_answer w_bytes]. rewrite encode_app. unfold accepted in Es. rewrite Es. reflexivity.
    + right. eexists. split; [reflexivity|]. eexists _, _. reflexivity.
  - assert (Hr : recode (length (utf8 pend)) (encoding_eqb Utf16BE Utf16BE) (utf8 pend) (w_raw w) = Some ([] ++ utf16 true pend)).
    { rewrite Wr. apply recode_ok; auto. 2:{ change (nlen []) with 0. rewrite Eb in Wc. rewrite <- Eu in Wc. unfold OUTPUT_RAW_BUFFER_SIZE. lia. }
      eapply Forall_impl; [|exact Hp]. cbn in Hlim. cbn. lia. }
    rewrite Hr. unfold handler_write. cbn [w_enc w_buf w_raw w_plan w_calls].
    destruct (hd true (w_plan w)) eqn:Eh.
    + left. eexists. split; [reflexivity|]. split; [|reflexivity]. split; cbn [w_enc w_buf w_raw w_plan w_calls]; auto.
      * unfold all_accepted in *. cbn [w_calls]. apply Forall_app. split; [assumption|]. repeat constructor.
      * cbn; lia.
      * exists (sent ++ pend), []. rewrite app_nil_r. split; [assumption|]. split; [reflexivity|].
        split; [|constructor]. rewrite accepted_app. cbn [w_answer w_bytes]. rewrite encode_app. unfold accepted in Es. rewrite Es. reflexivity.
    + right. eexists. split; [reflexivity|]. eexists _, _. reflexivity.
Qed.

Lemma flush_if_needed_ok e limit acc w : limit_ok e limit -> winv e limit acc w ->
  (exists w', flush_if_needed w = WOk w' /\ winv e limit acc w' /\ nlen (w_buf w') + 5 < OUTPUT_BUFFER_SIZE) \/
  (exists w', flush_if_needed w = WFail w' /\ last_refused w').
Proof.
  intros Hlim W. unfold flush_if_needed. destruct (N.ltb_spec (nlen (w_buf w) + 5) OUTPUT_BUFFER_SIZE).
  - left. eauto.
  - destruct (flush_ok _ _ _ _ Hlim W) as [(w' & E & W' & Eb)|(w' & E & L)]; [left|right; eauto].
    exists w'. split; [assumption|]. split; [assumption|]. rewrite Eb. reflexivity.
Qed.

Lemma store_ok e limit acc w cs : winv e limit acc w -> nlen (w_buf w) + 5 < OUTPUT_BUFFER_SIZE ->
  nlen (utf8 cs) <= 4 -> Forall (fun c => c < limit) cs ->
  exists w', store w (utf8 cs) = WOk w' /\ winv e limit (acc ++ cs) w'.
Proof.
  intros [We Wr Wa Wc (sent & pend & Ea & Eb & Es & Hp)] Hcap Hl Hc. unfold store.
  destruct (N.ltb_spec OUTPUT_BUFFER_SIZE (nlen (w_buf w) + nlen (utf8 cs))); [lia|].
  eexists. split; [reflexivity|]. split; cbn [w_enc w_buf w_raw w_plan w_calls]; auto.
  - rewrite nlen_app. lia.
  - exists sent, (pend ++ cs). rewrite Ea, app_assoc. split; [reflexivity|].
    split; [rewrite Eb, utf8_app; reflexivity|]. split; [exact Es|]. apply Forall_app. auto.
Qed.

Lemma op_ok_chars limit op : 0x20 <= limit -> op_ok limit op -> op <> CFlush ->
  nlen (utf8 (op_chars op)) <= 4 /\ Forall (fun c => c < limit) (op_chars op).
Proof.
  intros Hl H Hn.
  assert (X : forall cs, match cs with [c] => c < limit | [0xD; 0xA] => True | _ => False end ->
     nlen (utf8 cs) <= 4 /\ Forall (fun c => c < limit) cs).
  { intros cs Hc. destruct cs as [|c [|d [|? ?]]].
    - contradiction.
    - rewrite utf8_one. pose proof (utf8_enc_len c). split; [lia|]. constructor; [|constructor].
      destruct c as [|p]; [exact Hc|]. repeat (destruct p as [p|p|]; try exact Hc).
    - assert (c = 0xD /\ d = 0xA) as [-> ->].
      { destruct c as [|p]; [contradiction|]. repeat (destruct p as [p|p|]; try contradiction).
        destruct d as [|q]; [contradiction|]. repeat (destruct q as [q|q|]; try contradiction). auto. }
      split; [vm_compute; discriminate|]. repeat constructor; lia.
    - exfalso. destruct c as [|p]; [contradiction|]. repeat (destruct p as [p|p|]; try contradiction).
      destruct d as [|q]; [contradiction|]. repeat (destruct q as [q|q|]; try contradiction). }
  destruct op as [cs|cs|]; [apply X; exact H|apply X; exact H|congruence].
Qed.

Lemma wstep_ok e limit acc w op : limit_ok e limit -> 0x20 <= limit -> winv e limit acc w -> op_ok limit op ->
  (exists w', wstep w (op_bytes op) = WOk w' /\ winv e limit (acc ++ op_chars op) w') \/
  (exists w', wstep w (op_bytes op) = WFail w' /\ last_refused w').
Proof.
  intros Hlim Hl W Ho. destruct op as [cs|cs|]; cbn [op_bytes op_chars wstep].
  - destruct (op_ok_chars _ _ Hl Ho ltac:(discriminate)) as [H1 H2]. cbn [op_chars] in *.
    unfold put. destruct (flush_if_needed_ok _ _ _ _ Hlim W) as [(w' & E & W' & Hc)|(w' & E & L)]; rewrite E; cbn [wbind]; [left|right; eauto].
    apply store_ok; auto.
  - destruct (op_ok_chars _ _ Hl Ho ltac:(discriminate)) as [H1 H2]. cbn [op_chars] in *.
    unfold write_break. destruct (flush_if_needed_ok _ _ _ _ Hlim W) as [(w' & E & W' & Hc)|(w' & E & L)]; rewrite E; cbn [wbind]; [left|right; eauto].
    unfold put, flush_if_needed. destruct (N.ltb_spec (nlen (w_buf w') + 5) OUTPUT_BUFFER_SIZE); [|lia].
    cbn [wbind]. destruct (store_ok _ _ _ _ _ W' Hc H1 H2) as (w2 & E2 & W2). rewrite E2. eauto.
  - rewrite app_nil_r. destruct (flush_ok _ _ _ _ Hlim W) as [(w' & E & W' & Hc)|(w' & E & L)]; [left|right]; eauto.
Qed.

Lemma wrun_ok e limit : limit_ok e limit -> 0x20 <= limit -> forall ops acc w, winv e limit acc w -> Forall (op_ok limit) ops ->
  (exists w', wrun w (map op_bytes ops) = WOk w' /\ winv e limit (acc ++ chars_of ops) w') \/
  (exists w', wrun w (map op_bytes ops) = WFail w' /\ last_refused w').
Proof.
  intros Hlim Hl. induction ops as [|op ops IH]; intros acc w W HF; cbn [map wrun].
  - left. exists w. cbn. rewrite app_nil_r. auto.
  - inversion HF; subst. destruct (wstep_ok _ _ _ _ op Hlim Hl W) as [(w' & E & W')|(w' & E & L)]; [assumption|..]; rewrite E; cbn [wbind]; [|right; eauto].
    destruct (IH _ _ W') as [(w2 & E2 & W2)|(w2 & E2 & L2)]; [assumption|left|right; eauto].
    exists w2. split; [assumption|]. unfold chars_of in *. cbn [flat_map]. rewrite app_assoc. assumption.
Qed.

Lemma winv_init e limit plan : winv e limit [] (init_writer e plan).
Proof.
  split; cbn; auto; [constructor|lia|]. exists [], []. repeat split; auto. destruct e; reflexivity.
Qed.

(* everything, ending with a flush *)
Lemma wrun_flush e limit plan ops : limit_ok e limit -> 0x20 <= limit -> Forall (op_ok limit) ops ->
  (exists w', wrun (init_writer e plan) (map op_bytes (ops ++ [CFlush])) = WOk w' /\
     all_accepted w' /\ accepted w' = encode e (chars_of ops)) \/
  (exists w', wrun (init_writer e plan) (map op_bytes (ops ++ [CFlush])) = WFail w' /\ last_refused w').
Proof.
  intros Hlim Hl HF.
  assert (X : forall ops2 w, wrun w (map op_bytes (ops ++ ops2)) = wbind (wrun w (map op_bytes ops)) (fun w => wrun w (map op_bytes ops2))).
  { clear. induction ops as [|op ops IH]; intros ops2 w; cbn [map wrun app]; [reflexivity|].
    destruct (wstep w (op_bytes op)); cbn [wbind]; auto. }
  rewrite X. destruct (wrun_ok e limit Hlim Hl ops [] _ (winv_init e limit plan) HF) as [(w' & E & W')|(w' & E & L)]; rewrite E; cbn [wbind]; [|right; eauto].
  cbn [map op_bytes wrun wstep].
  destruct (flush_ok _ _ _ _ Hlim W') as [(w2 & E2 & W2 & Hb)|(w2 & E2 & L)]; rewrite E2; cbn [wbind]; [left|right; eauto].
  exists w2. split; [reflexivity|]. destruct W2 as [_ _ Wa _ (sent & pend & Ea & Eb & Es & _)].
  split; [assumption|]. rewrite Hb in Eb. destruct pend as [|c pend].
  - rewrite app_nil_r in Ea. cbn in Ea. rewrite Ea. assumption.
  - exfalso. cbn in Eb. symmetry in Eb. apply app_eq_nil in Eb. destruct Eb as [Eb _]. exact (utf8_enc_nonempty _ Eb).
Qed.

Lemma last_refused_not_all w : last_refused w -> ~ all_accepted w.
Proof.
  intros (l & bs & E) H. unfold all_accepted in H. rewrite E in H. apply Forall_app in H. destruct H as [_ H].
  inversion H; subst. discriminate.
Qed.

Lemma wrun_flush_accepted e limit plan ops w : limit_ok e limit -> 0x20 <= limit -> Forall (op_ok limit) ops ->
  wrun (init_writer e plan) (map op_bytes (ops ++ [CFlush])) = WOk w ->
  accepted w = encode e (chars_of ops) /\ all_accepted w.
Proof.
  intros H1 H2 H3 E. destruct (wrun_flush e limit plan ops H1 H2 H3) as [(w' & E' & A & B)|(w' & E' & A)]; rewrite E in E'; [|discriminate].
  injection E' as <-. auto.
Qed.
Lemma wrun_flush_result e limit plan ops : limit_ok e limit -> 0x20 <= limit -> Forall (op_ok limit) ops ->
  (exists w, wrun (init_writer e plan) (map op_bytes (ops ++ [CFlush])) = WOk w) \/
  (exists w, wrun (init_writer e plan) (map op_bytes (ops ++ [CFlush])) = WFail w /\ ~ all_accepted w).
Proof.
  intros H1 H2 H3. destruct (wrun_flush e limit plan ops H1 H2 H3) as [(w' & E' & A & B)|(w' & E' & A)]; [left|right]; exists w'; [assumption|].
  split; [assumption|]. apply last_refused_not_all. assumption.
Qed.
Lemma wrun_reports e limit plan ops : limit_ok e limit -> 0x20 <= limit -> Forall (op_ok limit) ops ->
  (exists w, wrun (init_writer e plan) (map op_bytes ops) = WOk w /\ all_accepted w) \/
  (exists w, wrun (init_writer e plan) (map op_bytes ops) = WFail w /\ ~ all_accepted w).
Proof.
  intros H1 H2 H3. destruct (wrun_ok e limit H1 H2 ops [] _ (winv_init e limit plan) H3) as [(w' & E' & W)|(w' & E' & A)]; [left|right]; exists w'.
  - split; [assumption|]. destruct W; assumption.
  - split; [assumption|]. apply last_refused_not_all. assumption.
Qed.
Lemma utf16_low_surrogate_wrong : exists (c : N) w, scalar_value c /\
  wrun (init_writer Utf16BE []) (map op_bytes [CPut [c]; CFlush]) = WOk w /\
  accepted w <> utf16 true [c].
Proof.
  exists 0x10400. eexists. split; [right; lia|]. split; [vm_compute; reflexivity|]. vm_compute. discriminate.
Qed.
