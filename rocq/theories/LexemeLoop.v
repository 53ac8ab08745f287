(* ... over successive calls *)
From Verif Require Import Base ReaderModel Utf8Spec CharSpec Types CursorModel ScanModel ScannerModel CursorProofs ScanProofs ScanQuoted ScannerSpec ScannerInv ScannerFetch ScannerBranch ScannerBlock ScannerLoop ScannerFinal RoundSpec LexSpec GapExact LexUnique QuotedExact PlainExact BlockExact TagLex LexemeSpec Lexemes LexemeRun.

Definition quiet {A} (m : cm A) : Prop := forall c e, m c <> CErr e.
Lemma quiet_ret {A} (a : A) : quiet (ret a). Proof. intros c e; discriminate. Qed.
Lemma quiet_peek k : quiet (peek k). Proof. intros c e. unfold peek. destruct (_ && _); discriminate. Qed.
Lemma quiet_bind {A B} (m : cm A) (f : A -> cm B) : quiet m -> (forall a, quiet (f a)) -> quiet (bind m f).
Proof. intros H1 H2 c e. unfold bind. destruct (m c) eqn:Em; try discriminate; [apply H2|]. intros [= ->]. exact (H1 _ _ Em). Qed.
Lemma choose_quiet flow : quiet (choose flow).
Proof.
  unfold choose, andc, orc, check, triple, plain_start, andc, orc, check.
  repeat first [apply quiet_ret|apply quiet_peek|apply quiet_bind|match goal with |- forall _, quiet _ => intros ? | |- quiet (if ?b then _ else _) => destruct b end].
  all: try (intros c e; discriminate).
Qed.
Lemma cache_reader n c : match cache n c with CErr e => se_problem e = SReader | _ => True end.
Proof. unfold cache. destruct (_ <=? _)%nat; [exact I|]. destruct (_ && _); [reflexivity|exact I]. Qed.
Lemma cache_same n c : match cache n c with COk _ c' => c_text c' = c_text c /\ c_mark c' = c_mark c | _ => True end.
Proof. unfold cache. destruct (_ <=? _)%nat; [auto|]. destruct (_ && _); cbn; auto. Qed.
Lemma wp_refine {A} (m : cm A) c (Q Q' : A -> cur -> Prop) E (E' : serr -> Prop) : wp m c Q E -> (forall a c', Q a c' -> Q' a c') -> (forall e, m c = CErr e -> E' e) -> wp m c Q' E'.
Proof. unfold wp. destruct (m c); auto. Qed.
Lemma wp_pair {A} (m : cm A) c (Q Q' : A -> cur -> Prop) E E' : wp m c Q E -> match m c with COk a c' => Q' a c' | CErr e => E' e | _ => True end -> wp m c (fun a c' => Q a c' /\ Q' a c') E'.
Proof. unfold wp. destruct (m c); auto. Qed.
Lemma swp_both {A} (m : sm A) s (Q Q' : A -> sc -> Prop) E E' : swp m s Q E -> sw m s Q' E' -> swp m s (fun a s' => Q a s' /\ Q' a s') E'.
Proof. unfold swp, sw. destruct (m s); auto. Qed.

Lemma branch_eq_end (b : branch) : b = BStreamEnd \/ b <> BStreamEnd.
Proof. destruct b; (left; reflexivity) || (right; discriminate). Qed.
Lemma position_lines T i j : (i <= j)%nat -> m_line (position T i) <= m_line (position T j).
Proof.
  induction 1 as [|j _ IH]; [lia|]. cbn [position]. destruct (ends_line T j); cbn; lia.
Qed.
Lemma cands_later m m' ks cs : cands m ks cs -> m_line m <= m_line m' -> m_index m <= m_index m' -> cands m' ks cs.
Proof.
  intros H L I. induction H as [|k c ks cs H _ IH]; constructor; [|exact IH]. unfold cand in *. destruct (k_possible k); [exact H|]. destruct c; [|exact H]. lia.
Qed.
Lemma adv_later t m t' m' : adv t m t' m' -> m_line m <= m_line m' /\ m_index m <= m_index m'.
Proof. intros A. split; [eapply adv_line_le; exact A|]. pose proof (adv_len _ _ _ _ A). pose proof (ScannerInv.adv_index _ _ _ _ A). unfold nlen in *. lia. Qed.
Lemma stale_cands m : forall ks cs ks', cands m ks cs -> stale m ks = inl ks' -> cands m ks' cs.
Proof.
  intros ks cs ks' H. revert ks'. induction H as [|k c ks cs H _ IH]; intros ks'; cbn [stale]; [intros [= <-]; constructor|].
  destruct (stale m ks) as [r|]; [|discriminate]. specialize (IH r eq_refl). unfold cand in H.
  destruct (k_possible k) eqn:P; cbn [andb]; [|intros [= <-]; constructor; [unfold cand; rewrite P; exact H|exact IH]].
  destruct (_ || _) eqn:O.
  - destruct (k_required k); [discriminate|]. intros [= <-]. constructor; [|exact IH]. subst c. unfold cand. cbn [k_possible]. lia.
  - intros [= <-]. constructor; [unfold cand; rewrite P; exact H|exact IH].
Qed.

Section S.
Variable T : list N.
Notation eok := (eok T).
Notation eend := (eend T).
Notation core := (core T).
Notation at_branch := (at_branch T).
Notation fetched := (fetched T).
Notation finished := (finished T).

Lemma adv_place t m : adv T mark0 t m -> m = place T t.
Proof.
  intros A. destruct (adv_position T _ _ _ _ A 0) as (j & Hj & -> & ->); auto; [lia|]. unfold place. rewrite skipn_length. f_equal. lia.
Qed.
Lemma core_place es all s : core 0 es all s -> smark s = place T (ctext s).
Proof. intros C. apply adv_place. exact (c_pos _ _ _ _ _ C). Qed.

Lemma later t m t' m' : adv T mark0 t m -> adv T mark0 t' m' -> (length t' < length t)%nat -> m_line m <= m_line m' /\ m_index m <= m_index m'.
Proof.
  intros A A' L. split.
  - rewrite (adv_place _ _ A), (adv_place _ _ A'). apply position_lines. lia.
  - apply ScannerInv.adv_index in A, A'. unfold nlen in *. lia.
Qed.

Definition reading (es : list token) (s : sc) : Prop :=
  exists cs, reads T (s_flow s) (blocks s) (s_allowed s) cs (ctext s) (words (es ++ s_tokens s)) /\ cands (smark s) (s_keys s) cs.
Definition bad_text (es : list token) (e : serr) : Prop := structural (se_problem e) \/ exists more, reads_until T (words es ++ more).
Definition next_lex (es : list token) (s s' : sc) : Prop :=
  fetched es s s' /\ reading es s' \/ finished es s' /\ reads_all T (words (es ++ s_tokens s')).

Lemma fetch_branch_ok1 es all s b : at_branch es all s -> choose_ok (in_flow s) (ctext s) (smark s) b -> b <> BStreamEnd ->
  swp (fetch_branch b) s (fun _ s' => fetched es s s') eend.
Proof.
  intros B H Nb.
  assert (K : forall (m : sm unit), swp m s (fun _ s' => fetched es s s') eok -> swp m s (fun _ s' => fetched es s s') eend).
  { intros m W. eapply swp_mono; [exact W|auto|apply eok_eend]. }
  destruct b; cbn [fetch_branch choose_ok] in *.
  - contradiction Nb; reflexivity.
  - apply K. eapply fetch_directive_ok; [exact B|tauto].
  - apply K. eapply fetch_document_indicator_ok; [exact B|apply H|auto|auto].
  - apply K. eapply fetch_document_indicator_ok; [exact B|apply H|auto|auto].
  - apply K. eapply fetch_flow_start_ok; eauto.
  - apply K. eapply fetch_flow_start_ok; eauto.
  - apply K. eapply fetch_flow_end_ok; eauto.
  - apply K. eapply fetch_flow_end_ok; eauto.
  - apply K. eapply fetch_flow_entry_ok; eauto.
  - apply K. eapply fetch_block_entry_ok; eauto.
  - apply K. eapply fetch_key_ok; eauto.
  - apply K. eapply fetch_value_ok; eauto.
  - apply K. eapply fetch_anchor_ok; [exact B|rewrite H; discriminate|rewrite H; reflexivity].
  - apply K. eapply fetch_anchor_ok; [exact B|rewrite H; discriminate|rewrite H; reflexivity].
  - apply K. eapply fetch_tag_ok; eauto.
  - apply K. destruct H as [H _]. eapply fetch_block_scalar_ok; [exact B|rewrite H; discriminate|rewrite H; reflexivity].
  - apply K. destruct H as [H _]. eapply fetch_block_scalar_ok; [exact B|rewrite H; discriminate|rewrite H; reflexivity].
  - apply K. eapply fetch_flow_scalar_ok; [exact B|rewrite H; discriminate|rewrite H; reflexivity].
  - apply K. eapply fetch_flow_scalar_ok; [exact B|rewrite H; discriminate|rewrite H; reflexivity].
  - apply K. destruct H as (H1 & H2 & H3). eapply fetch_plain_scalar_ok; eauto.
  - apply eok_eend. split; cbn; exact (branch_fpos _ _ _ _ B).
Qed.

(* at the place where the next token is chosen: [t0], [key0] and [bs] are from before the white space *)
Definition chosen (es : list token) (s : sc) (cs : list (option mark)) (t0 : list N) (key0 : bool) (bs : list Z) : Prop :=
  reads T (s_flow s) bs key0 cs t0 (words (es ++ s_tokens s)) /\ passed T (s_flow s) key0 t0 (ctext s) (s_allowed s) /\
  cands (smark s) (s_keys s) cs /\ blocks s = inside T (s_flow s) bs (ctext s).

Lemma branch_next es all s b cs t0 key0 bs : at_branch es all s -> choose_ok (in_flow s) (ctext s) (smark s) b -> b = kind (in_flow s) (m_column (smark s) =? 0) (ctext s) ->
  chosen es s cs t0 key0 bs -> swp (fetch_branch b) s (fun _ s' => next_lex es s s') (bad_text es).
Proof.
  intros B Hb Eb (R & P & Hc & Hbl). assert (Pl := core_place _ _ _ (b_core _ _ _ _ B)).
  assert (Hl : forall k lb r, lexeme_at T (s_flow s) bs (ctext s) k lb r <-> lex_of b (in_flow s) (s_indent s) (ctext s) k lb r).
  { intros k lb r. unfold lexeme_at. rewrite lexeme_kind. rewrite <- Hbl. unfold col. rewrite <- Pl. rewrite Eb. unfold in_flow, innermost, blocks. reflexivity. }
  destruct (branch_eq_end b) as [->|Nb].
  - cbn [fetch_branch]. eapply swp_mono; [eapply swp_both; [eapply fetch_stream_end_ok; exact B|]| |].
    + instantiate (1 := bad_text es). instantiate (1 := fun _ s' => words (s_tokens s') = words (s_tokens s)).
      unfold fetch_stream_end. v1. unfold sw at 1, lift, force_line. v1. apply sw_reset; [intros e He; left; exact He|]. intros s1 A1 A2 A3 A4 A5 A6. vv.
      cbn [s_tokens set_tokens]. rewrite words_app, A4. apply app_nil_r.
    + intros _ s' [F W]. right. split; [exact F|]. rewrite words_app in R |- *. rewrite W. exists (s_flow s), bs, key0, cs, t0, (ctext s), (s_allowed s).
      split; [exact R|]. split; [exact P|]. pose proof (kind_facts (in_flow s) (m_column (smark s) =? 0) (ctext s)) as K. rewrite <- Eb in K. exact K.
    + auto.
  - eapply swp_mono; [eapply swp_both; [eapply fetch_branch_ok1; eauto|eapply (branch_lex T); eauto]| |].
    + intros _ s' [F (k & lb & L & S1 & S2 & S3 & S4 & S5 & S6)]. left. split; [exact F|].
      exists (keys_next (in_flow s) (s_allowed s) (smark s) cs k). split.
      * rewrite words_app, S6, app_assoc, <- words_app, S1, S2, S3. rewrite Pl in S4 |- *. rewrite Hbl.
        exact (reads_token T _ _ _ _ _ _ _ _ _ _ _ R P (proj2 (Hl k lb (ctext s')) L) S4).
      * destruct F as [(all' & C' & _) Ln]. eapply cands_later; [exact S5| |].
        -- pose proof (c_pos _ _ _ _ _ C') as A'. pose proof (c_pos _ _ _ _ _ (b_core _ _ _ _ B)) as A. exact (proj1 (later _ _ _ _ A A' Ln)).
        -- pose proof (c_pos _ _ _ _ _ C') as A'. pose proof (c_pos _ _ _ _ _ (b_core _ _ _ _ B)) as A. exact (proj2 (later _ _ _ _ A A' Ln)).
    + intros e [He|He]; [left; exact He|]. right. exists (words (s_tokens s)). rewrite <- words_app.
      exists (s_flow s), bs, key0, cs, t0, (ctext s), (s_allowed s). split; [exact R|]. split; [exact P|]. split.
      * intros Z. apply Nb. rewrite Eb. unfold kind. replace (is_z (nth 0 (ctext s) 0)) with true; [reflexivity|]. rewrite Z. reflexivity.
      * intros k lb r [L Pm]. apply (He k lb r). split; [apply Hl; exact L|]. rewrite Pl. exact Pm.
Qed.

Lemma fetch_next_lex es all s : core 0 es all s -> reading es s ->
  swp fetch_next_token s (fun _ s' => next_lex es s s') (bad_text es).
Proof.
  intros C0 (cs & R0 & Hc0). unfold fetch_next_token. apply swp_bind, swp_lift.
  assert (Rd : forall e, se_problem e = SReader -> bad_text es e) by (intros e He; left; rewrite He; unfold structural; cbn; tauto).
  eapply wp_refine; [apply (cache_core T _ _ _ 1 C0)| |]. 2:{ intros e He. pose proof (cache_reader 1 (s_cur s)) as K. rewrite He in K. apply Rd, K. }
  intros _ c1 (C1 & H1). cbv beta.
  assert (X1 : ctext (set_cur s c1) = ctext s) by (destruct H1 as (E & _); exact E).
  assert (M1 : smark (set_cur s c1) = smark s) by (destruct H1 as (_ & E & _); exact E).
  apply hold_self in H1. w1. w1. rewrite (c_started _ _ _ _ _ C1). cbn [negb].
  apply swp_bind, swp_lift.
  set (key0 := s_allowed s). set (bs := blocks s). set (t0 := ctext s).
  eapply wp_mono; [eapply wp_pair; [eapply (p_scan_to_next_token (ctext (set_cur s c1)) (smark (set_cur s c1)) None); [apply pos_start; exact H1|]|]| |].
  { intros a t' m' c' P. intros. exact (ex_intro _ t' (ex_intro _ m' P)). }
  { instantiate (1 := bad_text es). instantiate (1 := fun a c' => passed T (s_flow s) key0 t0 (c_text c') a).
    pose proof (gap_exactly (in_flow (set_cur s c1)) (s_allowed (set_cur s c1)) (s_cur (set_cur s c1))) as G.
    destruct (scan_to_next_token _ _ _) as [a c'|e| |]; auto. unfold passed, col. unfold t0. rewrite <- (core_place _ _ _ C0).
    pose proof (proj2 (G (c_text c') a) (conj eq_refl eq_refl)) as G'.
    change (c_text (s_cur (set_cur s c1))) with (ctext (set_cur s c1)) in G'. change (c_mark (s_cur (set_cur s c1))) with (smark (set_cur s c1)) in G'. rewrite X1, M1 in G'. exact G'. }
  2: auto.
  cbv beta. intros a c2 [(t' & m' & P2) G2]. w1. w1.
  destruct (pos_core _ _ _ _ _ _ _ _ _ C1 P2) as (_ & _ & A2).
  assert (C2 : core 0 es all (set_allowed (set_cur (set_cur s c1) c2) a)).
  { apply core_allowed, core_cur; [exact C1|exact A2]. }
  assert (X2 : (length (ctext (set_allowed (set_cur (set_cur s c1) c2) a)) <= length (ctext s))%nat).
  { rewrite <- X1. apply adv_len in A2. exact A2. }
  assert (Hc2 : cands (smark (set_allowed (set_cur (set_cur s c1) c2) a)) (s_keys s) cs).
  { apply adv_later in A2 as [L1 L2]. rewrite M1 in L1, L2. eapply cands_later; [exact Hc0|exact L1|exact L2]. }
  assert (W2 : let s2 := set_allowed (set_cur (set_cur s c1) c2) a in s_keys s2 = s_keys s /\ s_flow s2 = s_flow s /\ blocks s2 = bs /\ s_tokens s2 = s_tokens s /\ passed T (s_flow s) key0 t0 (ctext s2) (s_allowed s2)) by (repeat split; exact G2).
  set (s2 := set_allowed (set_cur (set_cur s c1) c2) a) in *. clearbody s2. cbv zeta in W2. destruct W2 as (W1 & W2 & W3 & W4 & W5). rewrite <- W1 in Hc2. clear H1 X1 M1 P2 A2 C1 G2.
  apply swp_bind. unfold swp at 1, stale_simple_keys. destruct (stale (smark s2) (s_keys s2)) as [ks|m] eqn:St.
  2:{ left. cbn. unfold structural. cbn. tauto. }
  destruct (core_stale _ _ _ _ _ _ C2 St) as [C3 Fr3]. apply (stale_cands _ _ _ _ Hc2) in St.
  w1. w1. apply swp_bind.
  assert (Fin : forall all4 s4, core 0 es all4 s4 -> fresh s4 -> (s_flow s4 = 0 -> (s_indent s4 <= Z.of_N (m_column (smark s4)))%Z) ->
     in_flow s4 = in_flow (set_keys s2 ks) -> (length (ctext s4) <= length (ctext s))%nat -> chosen es s4 cs t0 key0 bs ->
     swp (lift (cache 4) ~;; b <~ lift (choose (in_flow (set_keys s2 ks)));; fetch_branch b) s4 (fun _ s' => next_lex es s s') (bad_text es)).
  { intros all4 s4 C4 Fr4 I4 F4 X4 Ch. apply swp_bind, swp_lift.
    eapply wp_refine; [apply (cache_core T _ _ _ 4 C4)| |]. 2:{ intros e He. pose proof (cache_reader 4 (s_cur s4)) as K. rewrite He in K. apply Rd, K. }
    intros _ c5 (C5 & H5). cbv beta.
    assert (X5 : ctext (set_cur s4 c5) = ctext s4) by (destruct H5 as (E & _); exact E).
    assert (M5 : smark (set_cur s4 c5) = smark s4) by (destruct H5 as (_ & E & _); exact E).
    apply hold_self in H5. apply swp_bind, swp_lift. rewrite <- F4.
    eapply wp_refine; [eapply wp_pair; [eapply (p_choose (c_text c5) (c_mark c5) None (in_flow s4)); [apply pos_start; exact H5|]|]| |].
    - intros b Hb. refine (_ : (fun b c => choose_ok (in_flow s4) (c_text c5) (c_mark c5) b /\ c = c5) b c5). auto.
    - instantiate (1 := fun _ => True). instantiate (1 := fun b _ => b = kind (in_flow s4) (m_column (c_mark c5) =? 0) (c_text c5)).
      assert (K : wp (choose (in_flow s4)) c5 (fun b _ => b = kind (in_flow s4) (m_column (c_mark c5) =? 0) (c_text c5)) (epos (c_text c5) (c_mark c5) None)).
      { eapply kind_choose; [apply pos_start; exact H5|reflexivity]. }
      unfold wp in K. change (s_cur (set_cur s4 c5)) with c5. destruct (choose (in_flow s4) c5); auto.
    - cbv beta. intros b c [[Hb ->] Kb]. change (set_cur (set_cur s4 c5) c5) with (set_cur s4 c5).
      eapply swp_mono; [eapply (branch_next es all4)| |auto].
      + constructor; [exact C5| | |exact H5].
        * unfold fresh in *. rewrite M5. exact Fr4.
        * rewrite M5. exact I4.
      + exact Hb.
      + exact Kb.
      + destruct Ch as (Ch1 & Ch2 & Ch3 & Ch4). unfold chosen. rewrite X5, M5. split; [exact Ch1|]. split; [exact Ch2|]. split; [exact Ch3|exact Ch4].
      + intros _ s' [[H R']|H]; [left|right; exact H]. split; [|exact R']. destruct H as [H L]. split; [exact H|]. rewrite X5 in L. lia.
    - intros e He. destruct (choose_quiet _ _ _ He). }
  unfold swp at 1, unroll_indent. destruct (in_flow (set_keys s2 ks)) eqn:F3.
  - eapply Fin; [exact C3|exact Fr3| |exact F3|exact X2|].
    + intros F0. unfold in_flow in F3. rewrite F0 in F3. discriminate.
    + unfold chosen. cbn [s_flow set_keys s_tokens s_allowed s_keys]. change (ctext (set_keys s2 ks)) with (ctext s2). change (smark (set_keys s2 ks)) with (smark s2). change (blocks (set_keys s2 ks)) with (blocks s2).
      rewrite W2, W4. split; [exact R0|]. split; [exact W5|]. split; [exact St|]. rewrite W3. unfold inside. change (negb (s_flow s2 =? 0) = true) in F3. rewrite W2 in F3. destruct (s_flow s =? 0); [discriminate|reflexivity].
  - destruct (core_unroll T 0 es all (set_keys s2 ks) (Z.of_N (m_column (smark (set_keys s2 ks)))) C3) as (i & is & q & ends & U & CU & Li & _).
    + lia.
    + exact F3.
    + intros k Ik Pk. eapply fresh_column; eauto.
    + rewrite U. apply unroll_leave in U as [U1 U2]. eapply Fin; [exact CU|exact Fr3| |exact F3|exact X2|]; [intros _; exact Li|].
      unfold chosen. cbn [s_flow set_keys s_tokens s_allowed s_keys set_tokens set_indents] in *.
      change (ctext (set_tokens (set_indents (set_keys s2 ks) i is) q)) with (ctext s2). change (smark (set_tokens (set_indents (set_keys s2 ks) i is) q)) with (smark s2).
      rewrite W2, words_app, U2, W4, <- words_app. split; [exact R0|]. split; [exact W5|]. split; [exact St|].
      change (blocks (set_tokens (set_indents (set_keys s2 ks) i is) q)) with (i :: is). rewrite U1. change (leave (Z.of_N (m_column (smark s2))) (blocks s2) = inside T (s_flow s) bs (ctext s2)).
      rewrite W3, (core_place _ _ _ C2). unfold inside. change (negb (s_flow s2 =? 0) = false) in F3. rewrite W2 in F3. destruct (s_flow s =? 0); [reflexivity|discriminate].
Qed.

Definition ready_lex (es : list token) (s : sc) : Prop :=
  s_tokens s <> [] /\ ((exists all, core 0 es all s /\ head_may_be_key s = false /\ reading es s) \/ finished es s /\ reads_all T (words (es ++ s_tokens s))).
Lemma no_colon es m c : bad_text es (mkSerr SNoColon m c).
Proof. left. unfold structural. cbn. tauto. Qed.
Lemma finished_lex es s (Q : unit -> sc -> Prop) n :
  finished es s -> reads_all T (words (es ++ s_tokens s)) -> (forall s', ready_lex es s' -> Q tt s') -> swp (fetch_more_n (S n)) s Q (bad_text es).
Proof.
  intros F R HQ. apply fetch_more_step. destruct (s_tokens s) as [|t q] eqn:Et; [destruct (fi_tokens _ _ _ F); exact Et|].
  apply swp_bind. apply swp_bind. unfold swp at 1, stale_simple_keys. destruct (stale (smark s) (s_keys s)) as [ks|m] eqn:S; [|apply no_colon].
  assert (K := stale_all _ _ _ S (fun k I P => proj2 (fi_keys _ _ _ F k I P))).
  assert (H : head_may_be_key (set_keys s ks) = false).
  { unfold head_may_be_key. cbn. apply not_true_is_false. intros H. apply existsb_exists in H as (k & I & P).
    rewrite (K k I) in P. discriminate. }
  ww. rewrite H. unfold swp, modify. apply HQ. split; [cbn; congruence|]. right. split.
  - apply finished_avail. destruct F. constructor; auto. cbn. intros k I P. rewrite (K k I) in P. discriminate.
  - cbn. rewrite Et. exact R.
Qed.
Lemma fetch_more_lex n : forall es all s (Q : unit -> sc -> Prop), core 0 es all s -> reading es s -> (length (ctext s) + 2 <= n)%nat ->
  (forall s', ready_lex es s' -> Q tt s') -> swp (fetch_more_n n) s Q (bad_text es).
Proof.
  induction n as [|n IH]; intros es all s Q C R Hn HQ; [lia|].
  assert (Step : forall s1, core 0 es all s1 -> reading es s1 -> (length (ctext s1) <= length (ctext s))%nat ->
     swp (fetch_next_token ~;; fetch_more_n n) s1 Q (bad_text es)).
  { intros s1 C1 R1 L1. apply swp_bind. eapply swp_mono; [eapply fetch_next_lex; [exact C1|exact R1]| |auto]. intros _ s2 [[[(all' & C2 & _ & _) L2] R2]|[F2 R2]].
    - eapply IH; [exact C2|exact R2|lia|exact HQ].
    - destruct n as [|n']; [lia|]. eapply finished_lex; eauto. }
  apply fetch_more_step. destruct (s_tokens s) as [|t q] eqn:Et.
  - w1. w1. apply Step; auto.
  - apply swp_bind. apply swp_bind. unfold swp at 1, stale_simple_keys. destruct (stale (smark s) (s_keys s)) as [ks|m] eqn:S; [|apply no_colon].
    destruct (core_stale _ _ _ _ _ _ C S) as [C1 _]. assert (R1 : reading es (set_keys s ks)).
    { destruct R as (cs & R & Hc). exists cs. split; [exact R|]. exact (stale_cands _ _ _ _ Hc S). }
    ww. destruct (head_may_be_key (set_keys s ks)) eqn:H.
    + apply Step; auto.
    + unfold swp, modify. apply HQ. split; [cbn; congruence|]. left. exists all. split; [apply core_avail; exact C1|]. split; [exact H|exact R1].
Qed.

Inductive live_lex (e : encoding) (es : list token) (s : sc) : Prop :=
| ll_init nest bad plan : es = [] -> s = init_scanner e nest T bad plan -> live_lex e es s
| ll_run all : core 0 es all s -> reading es s -> starts e es -> s_avail s = false -> live_lex e es s
| ll_end : finished es s -> reads_all T (words (es ++ s_tokens s)) -> starts e es -> s_avail s = false -> live_lex e es s
| ll_done : reads_all T (words es) -> s_ended s = true -> s_tokens s = [] -> live_lex e es s.

Lemma first_reading e nest bad plan : swp fetch_more_tokens (init_scanner e nest T bad plan) (fun _ s' => reading [] s') (bad_text []).
Proof.
  unfold fetch_more_tokens, swp. change (length (c_text (s_cur (init_scanner e nest T bad plan))) + 3)%nat with (length T + 3)%nat.
  replace (length T + 3)%nat with (S (S (length T + 1)))%nat by lia.
  match goal with |- match ?m ?s with SOk a s' => @?Q a s' | SErr e => ?E e | SBad => False | SFuel => False end =>
    change (swp m s Q E) end.
  apply fetch_more_step. cbn [s_tokens init_scanner]. w1. w1. apply swp_bind. unfold fetch_next_token. apply swp_bind, swp_lift.
  eapply wp_refine; [eapply (wp_cache 1 0 T mark0 _ (fun _ c => c_text c = T) (fun _ => True)); [repeat split; cbn; lia| |exact I]| |].
  { intros c (H1 & _). exact H1. }
  2:{ intros er He. pose proof (cache_reader 1 (s_cur (init_scanner e nest T bad plan))) as K. rewrite He in K. left. rewrite K. unfold structural. cbn. tauto. }
  intros u0 c H1. cbv beta in *. w1. w1. cbn [s_started set_cur init_scanner negb]. unfold fetch_stream_start. ww.
  apply fetch_more_step. cbn [s_tokens set_tokens set_started set_allowed set_keys set_indents set_cur app].
  apply swp_bind. apply swp_bind. unfold swp at 1, stale_simple_keys. cbn [s_keys set_tokens set_started set_allowed set_keys set_indents set_cur init_scanner stale key0 k_possible andb]. ww. match goal with |- context[head_may_be_key ?x] => change (head_may_be_key x) with false end. cbv iota. unfold swp, modify.
  exists [None]. split; [|constructor; [exact I|constructor]]. change (reads T 0 [(-1)%Z] true [None] (c_text c) []). rewrite H1. apply reads_nothing.
Qed.
Lemma swp_sw {A} (m : sm A) s (Q : A -> sc -> Prop) E : swp m s Q E -> sw m s Q E.
Proof. unfold swp, sw. destruct (m s); auto. Qed.
Lemma first_lex e nest bad plan :
  swp fetch_more_tokens (init_scanner e nest T bad plan)
    (fun _ s' => core 0 [] [start_tok e] s' /\ head_may_be_key s' = false /\ s_tokens s' = [start_tok e] /\ reading [] s') (bad_text []).
Proof.
  eapply swp_mono; [eapply swp_both; [apply first_fetch|]| |].
  - instantiate (1 := bad_text []). instantiate (1 := fun _ s' => reading [] s'). apply swp_sw. apply first_reading.
  - cbv beta. tauto.
  - auto.
Qed.

Lemma dequeue_reading es s t q b : s_tokens s = t :: q -> reading es s -> reading (es ++ [t]) (dequeue s q b).
Proof. intros E (cs & R & Hc). exists cs. split; [|exact Hc]. cbn [s_tokens dequeue]. rewrite <- app_assoc. cbn [app]. rewrite <- E. exact R. Qed.
Lemma scan_step_lex e es s : live_lex e es s ->
  match scan s with
  | ScanToken t s' => live_lex e (es ++ [undeep t]) s'
  | ScanNothing s' => reads_all T (words es)
  | ScanFail s' => exists er, s' = set_error s er /\ bad_text es er
  | ScanBad | ScanFuel => True
  end.
Proof.
  assert (Rdy : forall es s, starts e es -> s_ended s = false -> s_error s = None -> s_avail s = false -> swp fetch_more_tokens s (fun _ s' => ready_lex es s') (bad_text es) ->
    match scan s with
    | ScanToken t s' => live_lex e (es ++ [undeep t]) s'
    | ScanNothing s' => reads_all T (words es)
    | ScanFail s' => exists er, s' = set_error s er /\ bad_text es er
    | ScanBad | ScanFuel => True
    end).
  { clear es s. intros es s St En Er Av H. unfold scan. rewrite En, Er, Av. cbn [orb]. unfold swp in H. destruct (fetch_more_tokens s) as [u s'|er| |]; try contradiction; [|eauto].
    destruct H as (Nt & [(all' & C' & Hk & R)|[F R]]).
    + destruct (s_tokens s') as [|t q] eqn:Et; [congruence|]. destruct (dequeue_core _ _ _ _ _ _ C' Hk Et) as (C2 & E2 & D2).
      rewrite (c_ended _ _ _ _ _ C'), E2. cbn [orb]. pose proof (dequeue_reading _ _ _ _ false Et R) as R2. apply ll_run with (all := all'); [| |apply starts_app; exact St|reflexivity].
      * unfold undeep. cbn. destruct t as [tt ts te td]. cbn in *. subst td. exact C2.
      * unfold undeep. cbn. destruct t as [tt ts te td]. cbn in *. subst td. exact R2.
    + destruct (s_tokens s') as [|t q] eqn:Et; [congruence|]. destruct (dequeue_finished T e _ _ _ _ F St Et) as (D2 & L2).
      assert (Eu : undeep (mkToken (t_tok t) (t_start t) (t_end t) (is_deep s')) = t) by (destruct t as [tt ts te td]; cbn in *; subst td; reflexivity).
      rewrite Eu. assert (R2 : reads_all T (words ((es ++ [t]) ++ q))) by (rewrite <- app_assoc; exact R).
      destruct L2 as [nest bad plan E1 _|all2 C2 S2 A2|F2 S2 A2|pre m E1 Cp En2 Et2 Er2].
      * destruct es; discriminate.
      * exfalso. pose proof (c_all _ _ _ _ _ C2) as CA. cbn [s_tokens dequeue] in CA. destruct (fi_all _ _ _ F) as (pre & Ep & _). rewrite Et in Ep.
        rewrite <- app_assoc in CA. cbn [app] in CA. rewrite Ep in CA.
        apply (not_stream_last _ _ _ (c_good _ _ _ _ _ C2) (end_tok (smark s'))); [rewrite CA; apply in_mid|reflexivity].
      * apply ll_end; [exact F2|exact R2|exact S2|exact A2].
      * apply ll_done; [|exact En2|exact Et2]. cbn [s_tokens dequeue] in Et2. subst q. rewrite app_nil_r in R2. exact R2. }
  intros L. destruct L as [nest bad plan -> ->|all C R St Av|F R St Av|R En Et].
  - unfold scan. cbn [s_ended s_error init_scanner s_avail orb]. pose proof (first_lex e nest bad plan) as H. unfold swp in H.
    destruct (fetch_more_tokens (init_scanner e nest T bad plan)) as [u s'|er| |]; try contradiction; [|eauto].
    destruct H as (C & Hk & Et & R). rewrite Et. destruct (dequeue_core _ _ _ _ _ _ C Hk Et) as (C' & _ & _). cbn [app] in *.
    rewrite (c_ended _ _ _ _ _ C). cbn. apply ll_run with (all := [start_tok e]); [exact C'| |exists []; reflexivity|reflexivity].
    exact (dequeue_reading _ _ _ _ false Et R).
  - apply Rdy; auto; [exact (c_ended _ _ _ _ _ C)|exact (c_error _ _ _ _ _ C)|].
    unfold swp, fetch_more_tokens. pose proof (fetch_more_lex (length (ctext s) + 3) es all s (fun _ s' => ready_lex es s') C R) as H. apply H; [lia|auto].
  - apply Rdy; auto; [exact (fi_ended _ _ _ F)|exact (fi_error _ _ _ F)|].
    unfold swp, fetch_more_tokens. replace (length (c_text (s_cur s)) + 3)%nat with (S (length (c_text (s_cur s)) + 2)) by lia.
    exact (finished_lex es s (fun _ s' => ready_lex es s') _ F R (fun s' H => H)).
  - unfold scan. rewrite En. cbn [orb]. exact R.
Qed.
Lemma words_undeep l : words (map undeep l) = words l.
Proof.
  unfold words. induction l as [|t l IH]; [reflexivity|]. cbn [map filter]. change (written (undeep t)) with (written t). destruct (written t); cbn [map]; rewrite IH; reflexivity.
Qed.
Lemma scans_lex e nest bad plan l s : scans (init_scanner e nest T bad plan) l s -> live_lex e (map undeep l) s.
Proof.
  intros H. assert (G : forall s0 es, live_lex e es s0 -> forall l s, scans s0 l s -> live_lex e (es ++ map undeep l) s).
  { clear. intros s0 es L l s H. revert es L. induction H as [s|s t s1 l s2 H1 H2 IH]; intros es L; [cbn; rewrite app_nil_r; exact L|].
    pose proof (scan_step_lex _ _ _ L) as K. rewrite H1 in K. specialize (IH _ K). rewrite <- app_assoc in IH. exact IH. }
  apply (G _ [] ltac:(eapply ll_init; reflexivity) _ _ H).
Qed.
Lemma live_reads e es s : live_lex e es s -> exists more flow blocks key keys t, reads T flow blocks key keys t (words es ++ more).
Proof.
  intros [nest bad plan -> ->|all C (cs & R & _) St Av|F R St Av|R En Et].
  - exists [], 0, [(-1)%Z], true, [None], T. apply reads_nothing.
  - rewrite words_app in R. eauto 8.
  - destruct R as (f & b & k & ks & t & t' & k1 & R & _). rewrite words_app in R. eauto 8.
  - destruct R as (f & b & k & ks & t & t' & k1 & R & _). exists []. rewrite app_nil_r. eauto 8.
Qed.
End S.
