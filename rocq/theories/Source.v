(* The cursor of the scanner shows what the reader has in its buffer (C73). *)
From Verif Require Import Base Utf8Spec CharSpec ReaderModel ReaderSpec ReaderProofs Types CursorModel ScannerModel CutSpec CutReader SourceSpec.

Lemma skip_in_live st cs r c pend : live st cs r (c :: pend) ->
  exists st', skip_in st = Some st' /\ live st' cs r pend /\ rd_eof st' = rd_eof st /\ rd_plan st' = rd_plan st.
Proof.
  intros L. destruct (skip_char_live _ _ _ _ _ L) as (st' & E & L' & _ & He & Hp). exists st'. unfold skip_in.
  pose proof (lv_pend _ _ _ _ L) as F. inversion F; subst. rewrite E, is_nul_enc by assumption. auto.
Qed.
Lemma skip_in_live_none st cs r : live st cs r [] -> skip_in st = None.
Proof. intros L. unfold skip_in, skip_char. rewrite (lv_buf _ _ _ _ L). reflexivity. Qed.
Lemma skip_in_done st c pend : done st (c :: pend) -> exists st', skip_in st = Some st' /\ done st' pend.
Proof.
  intros D. destruct (skip_char_done _ _ _ D) as (st' & E & D' & _). exists st'. unfold skip_in.
  pose proof (dn_pend _ _ D) as F. inversion F; subst. rewrite E, is_nul_enc by assumption. auto.
Qed.
Lemma skip_in_done_none st : done st [] -> skip_in st = None.
Proof. intros D. unfold skip_in. destruct (skip_char_nul _ D) as [st' E]. rewrite E. reflexivity. Qed.

Lemma skips_in_live k : forall st cs r pend, live st cs r pend ->
  if (k <=? length pend)%nat then exists st', skips_in k st = Some st' /\ live st' cs r (skipn k pend) /\ rd_eof st' = rd_eof st /\ rd_plan st' = rd_plan st
  else skips_in k st = None.
Proof.
  induction k as [|k IH]; intros st cs r pend L; [exists st; auto|]. cbn [skips_in].
  destruct pend as [|c pend]; cbn [length Nat.leb]; [rewrite (skip_in_live_none _ _ _ L); reflexivity|].
  destruct (skip_in_live _ _ _ _ _ L) as (st' & E & L' & He & Hp). rewrite E. specialize (IH _ _ _ _ L').
  destruct (k <=? length pend)%nat; [|exact IH]. destruct IH as (st2 & E2 & L2 & He2 & Hp2). exists st2. split; [exact E2|]. split; [exact L2|]. split; congruence.
Qed.
Lemma skips_in_done k : forall st pend, done st pend ->
  if (k <=? length pend)%nat then exists st', skips_in k st = Some st' /\ done st' (skipn k pend) else skips_in k st = None.
Proof.
  induction k as [|k IH]; intros st pend D; [exists st; auto|]. cbn [skips_in].
  destruct pend as [|c pend]; cbn [length Nat.leb]; [rewrite (skip_in_done_none _ D); reflexivity|].
  destruct (skip_in_done _ _ _ D) as (st' & E & D'). rewrite E. exact (IH _ _ D').
Qed.

(* what the cursor shows of a live and of a finished reader *)
Lemma in_buffer_live pend a plan bad m : in_buffer (mkCur (pend ++ a) (length pend) plan bad m) = utf8 pend.
Proof. unfold in_buffer. cbn [c_text c_unread]. rewrite <- app_assoc, firstn_app, Nat.sub_diag, firstn_all, firstn_O, app_nil_r. reflexivity. Qed.
Lemma in_buffer_done pend plan bad m : in_buffer (mkCur pend (S (length pend)) plan bad m) = utf8 pend ++ [0].
Proof.
  unfold in_buffer. cbn [c_text c_unread]. rewrite firstn_all2 by (rewrite app_length; cbn; lia). rewrite flat_map_app. reflexivity.
Qed.
Lemma seen_live st cs r pend a plan bad m : live st cs r pend ->
  InBuffer (N.to_nat (rd_unread st)) (rd_buf st) = InBuffer (length pend) (in_buffer (mkCur (pend ++ a) (length pend) plan bad m)).
Proof. intros L. rewrite in_buffer_live, (lv_buf _ _ _ _ L), (lv_unread _ _ _ _ L). unfold nlen. rewrite Nat2N.id. reflexivity. Qed.
Lemma seen_done st pend plan bad m : done st pend ->
  InBuffer (N.to_nat (rd_unread st)) (rd_buf st) = InBuffer (S (length pend)) (in_buffer (mkCur pend (S (length pend)) plan bad m)).
Proof. intros D. rewrite in_buffer_done, (dn_buf _ _ D), (dn_unread _ _ D). unfold nlen. f_equal. lia. Qed.

Lemma trace_done ops : forall st pend plan m, done st pend ->
  reader_trace ops st = cursor_trace ops (mkCur pend (S (length pend)) plan false m).
Proof.
  induction ops as [|o ops IH]; intros st pend plan m D; [reflexivity|]. destruct o as [n| |k]; cbn [reader_trace cursor_trace step_of].
  - rewrite (update_buffer_done _ _ _ D). unfold cache. cbn [c_unread c_text c_bad c_plan c_mark andb].
    destruct (Nat.leb_spec (N.to_nat n) (S (length pend))); cbv zeta.
    + cbn [c_unread]. rewrite (seen_done _ _ plan false m D), (IH _ _ plan m D). reflexivity.
    + rewrite Nat.min_r by lia. cbn [c_unread]. rewrite (seen_done _ _ (tl plan) false m D), (IH _ _ (tl plan) m D). reflexivity.
  - unfold skip. cbn [c_unread c_text]. destruct pend as [|c pend]; [rewrite (skip_in_done_none _ D); reflexivity|].
    destruct (skip_in_done _ _ _ D) as (st' & E & D'). rewrite E. cbn [c_unread c_plan c_bad c_mark length].
    erewrite (seen_done _ _ _ _ _ D'), (IH _ _ _ _ D'). reflexivity.
  - unfold drop_line. cbn [c_unread c_text]. pose proof (skips_in_done k _ _ D) as K.
    destruct (Nat.leb_spec k (length pend)); [|rewrite K, Bool.andb_false_r; reflexivity].
    destruct K as (st' & E & D'). rewrite E. replace (k <=? S (length pend))%nat with true by (symmetry; apply Nat.leb_le; lia). cbn [andb c_unread c_plan c_bad c_mark].
    replace (S (length pend) - k)%nat with (S (length (skipn k pend))) by (rewrite skipn_length; lia).
    erewrite (seen_done _ _ _ _ _ D'), (IH _ _ _ _ D'). reflexivity.
Qed.

Definition source (plan : list (option N)) (cs : list N) (r : option rerr) (a : list N) (bad : bool) : Prop :=
  (exists b, cs = a ++ b) /\ (bad = false -> r = None /\ a = cs) /\ (bad = true -> In None plan \/ exists err, r = Some err).
Lemma source_all plan cs r : source plan cs r cs (match r with Some _ => true | None => false end).
Proof. split; [exists []; symmetry; apply app_nil_r|]. destruct r; split; intros; try discriminate; eauto. Qed.
Lemma source_more plan plan' cs1 cs2 r a bad : incl plan' plan -> source plan' cs2 r a bad -> source plan (cs1 ++ cs2) r (cs1 ++ a) bad.
Proof.
  intros I ((b & ->) & H1 & H2). split; [exists b; rewrite app_assoc; reflexivity|]. split.
  - intros E. destruct (H1 E) as [-> <-]. auto.
  - intros E. destruct (H2 E) as [H|H]; auto.
Qed.

Lemma cache_some n text u plan bad m w : (u < n <= w)%nat -> (w <= length text)%nat ->
  cache n (mkCur text u ((w - n)%nat :: plan) bad m) = COk tt (mkCur text w plan bad m).
Proof.
  intros H1 H2. unfold cache. cbn [c_unread c_text c_plan c_bad c_mark hd tl]. cbv zeta.
  replace (n <=? u)%nat with false by (symmetry; apply Nat.leb_gt; lia). replace (n + (w - n))%nat with w by lia.
  replace (length text <? w)%nat with false by (symmetry; apply Nat.ltb_ge; lia). rewrite Bool.andb_false_r, Nat.min_l by lia. reflexivity.
Qed.
Lemma cache_all n text u plan m : (u < n)%nat ->
  cache n (mkCur text u (S (length text) :: plan) false m) = COk tt (mkCur text (S (length text)) plan false m).
Proof.
  intros H1. unfold cache. cbn [c_unread c_text c_plan c_bad c_mark hd tl andb]. cbv zeta.
  replace (n <=? u)%nat with false by (symmetry; apply Nat.leb_gt; lia). rewrite Nat.min_r by lia. reflexivity.
Qed.
Lemma cache_fails n text u plan m : (u < n)%nat ->
  cache n (mkCur text u (S (length text) :: plan) true m) = CErr (mkSerr SReader None m).
Proof.
  intros H1. unfold cache. cbn [c_unread c_text c_plan c_bad c_mark hd tl andb]. cbv zeta.
  replace (n <=? u)%nat with false by (symmetry; apply Nat.leb_gt; lia). replace (length text <? n + S (length text))%nat with true by (symmetry; apply Nat.ltb_lt; lia). reflexivity.
Qed.

(* a refill, given that the simulation holds afterwards *)
Lemma trace_refill ops n st cs r pend plan0 e :
  (forall st cs r pend, live st cs r pend -> rd_eof st = false -> forall m, exists a bad plan,
    source (rd_plan st) cs r a bad /\ reader_trace ops st = cursor_trace ops (mkCur (pend ++ a) (length pend) plan bad m)) ->
  (N.of_nat (length pend) < n) -> fill_result n plan0 cs r pend e (update_buffer n st) -> forall m,
  exists a bad plan, source plan0 cs r a bad /\
    reader_trace (Fetch n :: ops) st = cursor_trace (Fetch n :: ops) (mkCur (pend ++ a) (length pend) plan bad m).
Proof.
  intros IH Hn F m. cbn [reader_trace cursor_trace step_of].
  destruct F as [(st' & cs1 & cs2 & E & -> & L' & He' & Hu & _ & Hi)|[(st' & E & D & -> & _)|(st' & err & E & K)]]; rewrite E.
  - destruct (IH _ _ _ _ L' He' m) as (a & bad & plan & S1 & T). pose proof (lv_unread _ _ _ _ L') as U. unfold nlen in U.
    exists (cs1 ++ a), bad, ((length (pend ++ cs1) - N.to_nat n)%nat :: plan). split; [exact (source_more _ _ _ _ _ _ _ Hi S1)|].
    rewrite cache_some; [|lia|rewrite !app_length; lia]. rewrite app_assoc. cbn [c_unread].
    rewrite (seen_live _ _ _ _ a plan bad m L'), T. reflexivity.
  - exists cs, false, [S (length (pend ++ cs))]. split; [exact (source_all plan0 cs None)|]. rewrite cache_all by lia. cbn [c_unread].
    rewrite (seen_done _ _ [] false m D), (trace_done ops _ _ [] m D). reflexivity.
  - destruct K as [->|[K _]].
    + exists cs, true, [S (length (pend ++ cs))]. split; [exact (source_all plan0 cs (Some err))|]. rewrite cache_fails by lia. reflexivity.
    + exists [], true, [S (length (pend ++ []))]. split; [|rewrite cache_fails by lia; reflexivity].
      split; [exists cs; reflexivity|]. split; [discriminate|auto].
Qed.

Lemma trace_live ops : Forall op_ok ops -> forall st cs r pend, live st cs r pend -> rd_eof st = false -> forall m, exists a bad plan,
  source (rd_plan st) cs r a bad /\ reader_trace ops st = cursor_trace ops (mkCur (pend ++ a) (length pend) plan bad m).
Proof.
  induction 1 as [|o ops Ho _ IH]; intros st cs r pend L He m; [exists cs, (match r with Some _ => true | None => false end), []; split; [apply source_all|reflexivity]|].
  destruct o as [n| |k].
  - destruct (N.ltb_spec (N.of_nat (length pend)) n) as [Hn|Hn].
    + exact (trace_refill ops n st cs r pend _ _ IH Hn (update_buffer_live _ _ _ _ _ Ho L He) m).
    + destruct (IH _ _ _ _ L He m) as (a & bad & plan & S1 & T). exists a, bad, plan. split; [exact S1|]. cbn [reader_trace cursor_trace step_of].
      assert (E : update_buffer n st = ROk st).
      { unfold update_buffer. rewrite He. cbn [andb]. rewrite (lv_unread _ _ _ _ L). unfold nlen. replace (n <=? N.of_nat (length pend)) with true by (symmetry; apply N.leb_le; exact Hn). reflexivity. }
      rewrite E. unfold cache. cbn [c_unread]. replace (N.to_nat n <=? length pend)%nat with true by (symmetry; apply Nat.leb_le; lia).
      cbn [c_unread]. rewrite (seen_live _ _ _ _ a plan bad m L), T. reflexivity.
  - cbn [reader_trace cursor_trace step_of]. unfold skip. destruct pend as [|c pend].
    { exists cs, (match r with Some _ => true | None => false end), []. split; [apply source_all|]. rewrite (skip_in_live_none _ _ _ L).
      cbn [c_text c_unread app length]. destruct cs; reflexivity. }
    destruct (skip_in_live _ _ _ _ _ L) as (st' & E & L' & He' & Hp). destruct (IH _ _ _ _ L' ltac:(congruence) (next_column 1 m)) as (a & bad & plan & S1 & T).
    exists a, bad, plan. rewrite Hp in S1. split; [exact S1|]. rewrite E. cbn [c_text c_unread c_plan c_bad c_mark app length].
    rewrite (seen_live _ _ _ _ a plan bad (next_column 1 m) L'), T. reflexivity.
  - cbn [reader_trace cursor_trace step_of]. unfold drop_line. cbn [c_text c_unread c_plan c_bad c_mark]. pose proof (skips_in_live k _ _ _ _ L) as K.
    destruct (Nat.leb_spec k (length pend)) as [Hk|Hk].
    + destruct K as (st' & E & L' & He' & Hp). destruct (IH _ _ _ _ L' ltac:(congruence) (next_line (N.of_nat k) m)) as (a & bad & plan & S1 & T).
      exists a, bad, plan. rewrite Hp in S1. split; [exact S1|]. rewrite E.
      replace (k <=? length (pend ++ a))%nat with true by (symmetry; apply Nat.leb_le; rewrite app_length; lia). cbn [andb].
      assert (Et : skipn k (pend ++ a) = skipn k pend ++ a) by (rewrite skipn_app; replace (k - length pend)%nat with O by lia; reflexivity).
      rewrite Et. replace (length pend - k)%nat with (length (skipn k pend)) by (rewrite skipn_length; lia). cbn [c_unread].
      rewrite (seen_live _ _ _ _ a plan bad (next_line (N.of_nat k) m) L'), T. reflexivity.
    + exists cs, (match r with Some _ => true | None => false end), []. split; [apply source_all|]. rewrite K. reflexivity.
Qed.

Lemma trace_init e input plan cs r ops : input_ok input -> Forall op_ok ops ->
  dec (eff_enc e input) (eff_skip e input) (skipn (N.to_nat (eff_skip e input)) input) cs r ->
  exists a bad cplan, source plan cs r a bad /\ reader_trace ops (init_reader e input plan) = cursor_trace ops (init_cur a bad cplan).
Proof.
  intros Hin Ho Hd. destruct e.
  2-4: (cbn [eff_skip] in Hd; change (skipn (N.to_nat 0) input) with input in Hd;
    match goal with |- context [init_reader ?e0 _ _] =>
    exact (trace_live ops Ho _ cs r [] (init_live e0 input plan cs r ltac:(discriminate) Hin Hd) eq_refl mark0) end).
  cbn [eff_skip eff_enc] in *. destruct Ho as [|o ops Ho Hos].
  { exists cs, (match r with Some _ => true | None => false end), []. split; [apply source_all|reflexivity]. }
  destruct o as [n| |k].
  - exact (trace_refill ops n _ cs r [] plan _ (trace_live ops Hos) ltac:(unfold op_ok, req_ok in Ho; cbn; lia)
      (update_buffer_start _ (init_reader AnyEnc input plan) input cs r Ho (init_start _ _) eq_refl eq_refl Hin Hd) mark0).
  - exists cs, (match r with Some _ => true | None => false end), []. split; [apply source_all|]. cbn. destruct cs; reflexivity.
  - destruct k as [|k].
    + destruct (Ho eq_refl).
    + exists cs, (match r with Some _ => true | None => false end), []. split; [apply source_all|reflexivity].
Qed.

Theorem same_source e input plan ops : input_ok input -> Forall op_ok ops ->
  exists text bad cplan rest,
    reader_trace ops (init_reader e input plan) = cursor_trace ops (init_cur text bad cplan) /\
    Forall yaml_char text /\ after_mark e input = encode (used_encoding e input) text ++ rest /\
    (bad = false -> rest = []) /\
    (bad = true -> In None plan \/ exists err, read_all e input [] [] = ReadError err).
Proof.
  intros Hin Ho. destruct (eff_dec_total e input Hin) as (cs & r & Hd).
  destruct (trace_init e input plan cs r ops Hin Ho Hd) as (a & bad & cplan & ((b & Eb) & S1 & S2) & T).
  pose proof (eff_enc_real e input) as Re. pose proof (read_all_dec e input [] [] cs r Hin (Forall_nil _) (Forall_nil _) Hd) as X.
  destruct (dec_begin _ _ _ _ _ Hd) as (rest & E & F).
  assert (R0 : r = None -> rest = []).
  { intros ->. revert E. clear - Hd. remember None as r0 eqn:Er. intros E.
    assert (K : skipn (N.to_nat (eff_skip e input)) input = flat_map (enc_of (eff_enc e input)) cs).
    { clear E. revert Er. induction Hd as [off|off v bs cs r Hv _ IH|off bs p d v _ _]; intros Er; [reflexivity| |discriminate]. cbn [flat_map]. rewrite IH by assumption. reflexivity. }
    rewrite K in E. rewrite <- (app_nil_r (flat_map _ cs)) in E at 1. apply app_inv_head in E. congruence. }
  exists a, bad, cplan, (encode (used_encoding e input) b ++ rest). split; [exact T|]. subst cs. apply Forall_app in F as [F _]. split; [exact F|]. split.
  { rewrite flat_map_app, !enc_of_flat, <- app_assoc in E by assumption. destruct e; exact E. }
  split.
  - intros B. destruct (S1 B) as [-> Ea]. rewrite (R0 eq_refl). replace b with (@nil N); [destruct (used_encoding e input); reflexivity|].
    rewrite <- (app_nil_r a) in Ea at 1. apply app_inv_head in Ea. congruence.
  - intros B. destruct (S2 B) as [K|[err ->]]; [left; exact K|right]. exists err. exact X.
Qed.

(* CHECK_AT looks at a byte, the model at a character *)
Lemma peek_bytes k c x c' : (c_unread c <= S (length (c_text c)))%nat -> peek k c = COk x c' ->
  x = nth k (c_text c ++ [0]) 0 /\ exists rest, skipn k (in_buffer c) = utf8_enc x ++ rest.
Proof.
  unfold peek. intros Hu. destruct (Nat.ltb_spec k (c_unread c)) as [Hk|]; [|discriminate]. destruct (forallb is_ascii (firstn k (c_text c))) eqn:A; [|discriminate].
  cbn [andb]. intros E. injection E as <- <-. unfold in_buffer. revert A Hu. generalize (c_text c). revert Hk. generalize (c_unread c). intros u.
  revert u. induction k as [|k IH]; intros u Hk t A Hu.
  - destruct u as [|u]; [lia|]. destruct t as [|y t]; cbn [app firstn flat_map nth skipn]; eauto.
  - destruct u as [|u]; [lia|]. destruct t as [|y t]; cbn [length] in Hu; [lia|].
    cbn [firstn forallb] in A. apply andb_prop in A as [A1 A2]. cbn [app firstn flat_map nth].
    replace (utf8_enc y) with [y]; [cbn [app skipn]; apply IH; [lia|exact A2|lia]|].
    unfold is_ascii in A1. unfold utf8_enc. replace (y <? 0x80) with true; [reflexivity|]. symmetry. apply N.ltb_lt. apply N.leb_le in A1. lia.
Qed.
