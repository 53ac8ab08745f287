(* A node where a key is required is a key: over successive calls of yaml_parser_scan. *)
From Verif Require Import Base ReaderModel Utf8Spec CharSpec Types CursorModel ScanModel ScannerModel CursorProofs ScanProofs ScanQuoted
  ScannerSpec ScannerInv ScannerFetch ScannerBranch ScannerBlock ScannerLoop ScannerFinal RequiredSpec RequiredLine RequiredKey.

Section S.
Variable T : list N.
Notation core := (core T).
Notation at_branch := (at_branch T).
Notation ink := (ink T).
Notation ats := (ats T).
Notation here := (here T).
Notation post := (post T).
Notation allow_ok := (allow_ok T).
Ltac pw1 := match goal with
  | |- pw (sbind _ _) _ _ => apply pw_bind
  | |- pw (sret _) _ _ => unfold pw, sret
  | |- pw get ?s ?Q => change (Q s s); cbv beta iota
  | |- pw (modify _) _ _ => unfold pw at 1, modify; cbv beta iota
  | |- pw (allow _) _ _ => unfold pw at 1, allow, modify; cbv beta iota
  | |- pw (enqueue _) _ _ => unfold pw at 1, enqueue, modify; cbv beta iota
  end.
Ltac pww := repeat pw1.

Lemma value_post es all s : at_branch es all s -> here es s -> nth 0 (ctext s) 0 = 0x3A -> pw fetch_value s (fun _ s' => post es s').
Proof.
  intros B H Z. pose proof (b_core _ _ _ _ B) as C. pose proof (core_ats _ _ _ _ _ C) as X. pose proof (core_behind _ _ _ _ _ C) as Bh.
  assert (Z3 : nth 0 (ctext s) 0 <> 0x20) by congruence.
  unfold fetch_value. pww. destruct (core_top _ _ _ _ _ C) as (k & ks & Ek & _). rewrite Ek. destruct (k_possible k) eqn:Pk.
  - pose proof (c_keys _ _ _ _ _ C) as CK. rewrite Ek in CK. destruct (keys_top _ _ _ _ _ CK Pk) as [Nk KO]. clear CK.
    pose proof (ko_parsed _ _ _ _ _ _ _ _ KO) as KP. clear KO.
    pose proof (c_all _ _ _ _ _ C) as CA. pose proof (c_parsed _ _ _ _ _ C) as CP.
    set (i := N.to_nat (k_number k - s_parsed s)).
    assert (Hi : (i <= length (s_tokens s))%nat) by (rewrite CA, nlen_app in Nk; unfold nlen in *; lia).
    assert (Hp : (length es <= N.to_nat (k_number k))%nat) by (unfold nlen in *; lia).
    assert (Hpi : (N.to_nat (k_number k) - length es = i)%nat) by (unfold nlen in *; lia).
    destruct (split_at es (s_tokens s) _ Hp) as [F1 F2]. rewrite Hpi, <- CA in F1, F2.
    set (a := firstn (N.to_nat (k_number k)) all) in *. set (b := skipn (N.to_nat (k_number k)) all) in *.
    assert (Ea : all = a ++ b) by (symmetry; apply firstn_skipn).
    assert (La : nlen a = k_number k) by (unfold a, nlen in *; rewrite firstn_length_le; lia).
    unfold here in H. unfold RequiredKey.here in H. rewrite <- CA in H.
    assert (Fin : forall s1 ins i' is', inserted s (k_mark k) ins i' is' -> s_tokens s1 = firstn i (s_tokens s) ++ ins ++ skipn i (s_tokens s) ->
       s_indent s1 = i' -> s_indents s1 = is' -> s_cur s1 = s_cur s ->
       pw (modify (fun s => set_keys s (mkKey false (k_required k) (k_number k) (k_mark k) :: ks)) ~;; allow false) s1
         (fun _ s2 => pw (fetch_chars 1 TValue) s2 (fun _ s' => post es s'))).
    { intros s1 ins i' is' Hins E1 E2 E3 E4. pww. apply (pw_chars T); [cbn; rewrite E4; exact X|unfold ctext in *; cbn; rewrite E4; exact Z3|].
      intros c' I'. split; [|intros _ _; left; exact I'].
      set (s2 := set_allowed (set_keys s1 (mkKey false (k_required k) (k_number k) (k_mark k) :: ks)) false).
      assert (H2 : here es s2).
      { unfold RequiredKey.here. cbn. rewrite E1, E2, E3. rewrite app_assoc, <- F1, <- F2.
        exact (base_insert T es all s k ks a b ins i' is' B H Ek Pk Ea La Hins). }
      eapply (post_plain T es s2); [exact H2| |reflexivity|reflexivity|reflexivity|auto|auto| |reflexivity|left; reflexivity].
      - intros k' Ik Pk'. unfold s2 in *. cbn in Ik. unfold smark. cbn. rewrite E4. destruct Ik as [<-|Ik]; [discriminate|]. apply Bh; [rewrite Ek; right; exact Ik|exact Pk'].
      - reflexivity. }
    apply pw_bind. unfold pw at 1, queue_insert. fold i. destruct (_ && _); [|exact I].
    apply pw_bind. unfold roll_indent. pww. fold (key_tok (k_mark k)). 
    change (in_flow (set_tokens s (firstn i (s_tokens s) ++ key_tok (k_mark k) :: skipn i (s_tokens s)))) with (in_flow s).
    assert (Fin1 : pw (modify (fun s => set_keys s (mkKey false (k_required k) (k_number k) (k_mark k) :: ks)) ~;; allow false)
         (set_tokens s (firstn i (s_tokens s) ++ key_tok (k_mark k) :: skipn i (s_tokens s)))
         (fun _ s2 => pw (fetch_chars 1 TValue) s2 (fun _ s' => post es s'))).
    { apply (Fin _ [key_tok (k_mark k)] (s_indent s) (s_indents s)); try reflexivity. left. auto. }
    destruct (in_flow s) eqn:Fl; [exact Fin1|]. cbn [s_indent set_tokens].
    destruct (s_indent s <? Z.of_N (m_column (k_mark k)))%Z eqn:E; [|exact Fin1].
    destruct (INT_MAX <? _); [exact I|]. apply pw_bind. unfold pw at 1, modify. unfold pw at 1, queue_insert. cbn [s_parsed set_indents set_tokens s_tokens]. fold i.
    assert (Lf : length (firstn i (s_tokens s)) = i) by (apply firstn_length_le; exact Hi).
    destruct (_ && _); [|exact I].
    assert (K1 : forall r, firstn i (firstn i (s_tokens s) ++ r) = firstn i (s_tokens s)) by (intros r; rewrite <- Lf at 1; apply firstn_all_app).
    assert (K2 : forall r, skipn i (firstn i (s_tokens s) ++ r) = r) by (intros r; rewrite <- Lf at 1; apply skipn_all_app).
    rewrite K1, K2.
    apply (Fin _ [map_tok (k_mark k); key_tok (k_mark k)] (Z.of_N (m_column (k_mark k))) (s_indent s :: s_indents s)); try reflexivity.
    right. split; [reflexivity|]. split; [unfold in_flow in Fl; destruct (N.eqb_spec (s_flow s) 0); [assumption|discriminate]|].
    split; [apply Z.ltb_lt; exact E|]. auto.
  - apply pw_bind. eapply pw_block_start; [exact B|exact H|right; reflexivity|]. intros s1 H1 E1 E2 E3 E4. pww.
    apply (pw_chars T); [cbn; rewrite E1; exact X|unfold ctext in *; cbn; rewrite E1; exact Z3|]. intros c' I'. split; [|intros _ _; left; exact I'].
    eapply (post_plain T es s1); try reflexivity; auto.
    intros k' Ik Pk'. unfold smark. rewrite E1. rewrite E2 in Ik. auto.
Qed.

(* directives, document indicators and the end of the stream *)
Lemma pw_reset es s (Q : unit -> sc -> Prop) : here es s -> behind s ->
  (forall s1, here es s1 -> behind s1 -> s_cur s1 = s_cur s -> s_flow s1 = s_flow s -> (s_flow s = 0 -> (s_indent s1 < 0)%Z) -> Q tt s1) -> pw reset_block s Q.
Proof.
  intros H Bh HQ. unfold reset_block. apply pw_bind. eapply pw_unroll; [exact H|exact Bh|]. intros s1 H1 E1 E2 E3 E4 L1 _.
  assert (B1 : behind s1) by (intros k Ik Pk; unfold smark; rewrite E1; rewrite E2 in Ik; apply Bh; auto).
  apply pw_bind, pw_remove. intros P. pww. apply HQ.
  - unfold RequiredKey.here. cbn. eapply base_keys; [exact H1|exact P|]. intros k Ik Pk. eapply clear_in; eauto.
  - intros k Ik Pk. cbn in Ik. apply B1; [eapply clear_in; eauto|exact Pk].
  - exact E1.
  - exact E3.
  - cbn. intros F. specialize (L1 F). lia.
Qed.
Lemma directive_post es all s : at_branch es all s -> here es s -> nth 0 (ctext s) 0 = 0x25 -> pw fetch_directive s (fun _ s' => post es s').
Proof.
  intros B H Z. pose proof (b_core _ _ _ _ B) as C. unfold fetch_directive. apply pw_bind.
  eapply pw_reset; [exact H|eapply core_behind; exact C|]. intros s1 H1 B1 E1 E2 L1. apply pw_bind, pw_lift. intros tk c' E. pww.
  rewrite E1 in E.
  assert (K : t_start tk = smark s /\ is_block_token tk = false /\ is_node_token tk = false).
  { refine (wp_ok _ _ (fun tk c' => t_start tk = smark s /\ is_block_token tk = false /\ is_node_token tk = false) _ _ _ _ E).
    eapply p_scan_directive; [exact (branch_hold1 _ _ _ _ B)|exact Z|]. intros tk' t' m' c'' P L TA K.
    split; [apply TA|]. unfold is_block_token, is_node_token. unfold is_directive in K. destruct (t_tok tk'); tauto. }
  destruct K as (K1 & K2 & K3). split.
  - eapply (post_plain T es s1); try reflexivity; auto. rewrite K1. unfold smark. rewrite E1. reflexivity.
  - intros F I0. exfalso. cbn in F, I0. rewrite E2 in F. specialize (L1 F). lia.
Qed.
Lemma indicator_post es all s t k : at_branch es all s -> here es s -> is_indicator k (ctext s) = true -> k <> 0x20 ->
  t = TDocStart \/ t = TDocEnd -> pw (fetch_document_indicator t) s (fun _ s' => post es s').
Proof.
  intros B H Z Nk Ht. pose proof (b_core _ _ _ _ B) as C. unfold fetch_document_indicator. apply pw_bind.
  eapply pw_reset; [exact H|eapply core_behind; exact C|]. intros s1 H1 B1 E1 E2 L1.
  apply (pw_chars T); [rewrite E1; exact (core_ats _ _ _ _ _ C)| |].
  - unfold ctext in *. rewrite E1. unfold is_indicator, is_triple in Z. destruct (c_text (s_cur s)) as [|x [|y [|z r]]]; try discriminate. cbn [nth]. assert (x = k) by lia. congruence.
  - intros c' I'. split; [|intros _ _; left; exact I']. eapply (post_plain T es s1); try reflexivity; auto; [|left]; destruct Ht as [-> | ->]; reflexivity.
Qed.
Lemma end_post es all s : at_branch es all s -> here es s -> pw fetch_stream_end s (fun _ s' => post es s').
Proof.
  intros B H. pose proof (b_core _ _ _ _ B) as C. unfold fetch_stream_end. apply pw_bind, pw_lift. intros u c' E. injection E as _ <-.
  set (c0 := if m_column (c_mark (s_cur s)) =? 0 then _ else _).
  assert (Ei : m_index (c_mark c0) = m_index (smark s)) by (unfold c0; destruct (_ =? _); reflexivity).
  assert (B0 : behind (set_cur s c0)).
  { intros k Ik Pk. unfold smark. cbn. rewrite Ei. eapply core_behind; eauto. }
  apply pw_bind. eapply pw_reset; [|exact B0|].
  - exact H.
  - intros s1 H1 B1 E1 E2 L1. pww. split.
    + eapply (post_plain T es s1); try reflexivity; auto.
    + intros F I0. exfalso. cbn in F, I0. rewrite E2 in F. specialize (L1 F). lia.
Qed.

Lemma branch_post es all s b : at_branch es all s -> here es s -> allow_ok s -> choose_ok (in_flow s) (ctext s) (smark s) b ->
  pw (fetch_branch b) s (fun _ s' => post es s').
Proof.
  intros B H A K. destruct b; cbn [fetch_branch choose_ok] in *.
  - eapply end_post; eauto.
  - eapply directive_post; [eauto|eauto|tauto].
  - eapply indicator_post; [eauto|eauto|apply K|discriminate|auto].
  - eapply indicator_post; [eauto|eauto|apply K|discriminate|auto].
  - eapply flow_start_post; eauto.
  - eapply flow_start_post; eauto.
  - eapply flow_end_post; eauto.
  - eapply flow_end_post; eauto.
  - eapply flow_entry_post; eauto.
  - eapply entry_post; eauto.
  - eapply key_post; eauto.
  - eapply value_post; eauto.
  - eapply anchor_post; eauto.
  - eapply anchor_post; eauto.
  - eapply tag_post; eauto.
  - eapply block_scalar_post; [eauto|eauto|left; apply K].
  - eapply block_scalar_post; [eauto|eauto|right; apply K].
  - eapply quoted_post; eauto.
  - eapply quoted_post; eauto.
  - destruct K as (K1 & K2 & K3). eapply plain_post; eauto.
  - exact I.
Qed.

(* keys that have become too old *)
Lemma stale_pending m ks ks' : stale m ks = inl ks' -> (forall n, pending n ks -> pending n ks') /\ (forall k, In k ks' -> k_possible k = true -> In k ks).
Proof.
  revert ks'. induction ks as [|k ks IH]; intros ks' S; cbn [stale] in S.
  - injection S as <-. auto.
  - destruct (stale m ks) as [r|]; [|discriminate]. destruct (IH r eq_refl) as [IH1 IH2].
    destruct (k_possible k && _) eqn:E.
    + destruct (k_required k) eqn:R; [discriminate|]. injection S as <-. split.
      * intros n (k' & [<-|I] & P1 & P2 & P3); [congruence|]. destruct (IH1 n) as (k2 & I2 & P); [exists k'; auto|]. exists k2. split; [right; exact I2|exact P].
      * intros k' [<-|I] P; [discriminate|right; auto].
    + injection S as <-. split.
      * intros n (k' & [<-|I] & P); [exists k; split; [left; reflexivity|exact P]|]. destruct (IH1 n) as (k2 & I2 & P'); [exists k'; auto|]. exists k2. split; [right; exact I2|exact P'].
      * intros k' [<-|I] P; [left; reflexivity|right; auto].
Qed.
Lemma pw_stale es s (Q : unit -> sc -> Prop) : here es s ->
  (forall ks, stale (smark s) (s_keys s) = inl ks -> here es (set_keys s ks) -> Q tt (set_keys s ks)) -> pw stale_simple_keys s Q.
Proof.
  intros H HQ. unfold pw, stale_simple_keys. destruct (stale (smark s) (s_keys s)) as [ks|] eqn:S; [|exact I]. apply HQ; [reflexivity|].
  destruct (stale_pending _ _ _ S) as [P K]. unfold RequiredKey.here. cbn. eapply base_keys; eauto.
Qed.

Lemma cache_core2 es all s n c u : core 0 es all s -> cache n (s_cur s) = COk u c ->
  core 0 es all (set_cur s c) /\ c_text c = ctext s /\ c_mark c = smark s /\ hold n (c_text c) (c_mark c) c.
Proof.
  intros C E. destruct (wp_ok _ _ _ _ _ _ (cache_core T es all s n C) E) as [C1 Hd]. split; [exact C1|]. destruct Hd as (E1 & E2 & E3).
  split; [exact E1|]. split; [exact E2|]. split; [reflexivity|]. split; [reflexivity|]. rewrite E1. exact E3.
Qed.

Lemma next_post es all s : core 0 es all s -> post es s -> pw fetch_next_token s (fun _ s' => post es s').
Proof.
  intros C0 [H0 A0]. unfold fetch_next_token. apply pw_bind, pw_lift. intros u1 c1 E1.
  destruct (cache_core2 _ _ _ _ _ _ C0 E1) as (C1 & X1 & M1 & Hd1). pw1. pw1. rewrite (c_started _ _ _ _ _ C1). cbn [negb].
  apply pw_bind, pw_lift. intros a c2 E2. pw1. pw1. cbn [s_cur set_cur] in E2. change (in_flow (set_cur s c1)) with (in_flow s) in E2. change (s_allowed (set_cur s c1)) with (s_allowed s) in E2.
  assert (A2 : adv (c_text c1) (c_mark c1) (c_text c2) (c_mark c2)).
  { refine (wp_ok _ _ (fun _ c => adv (c_text c1) (c_mark c1) (c_text c) (c_mark c)) _ _ _ _ E2).
    eapply (p_scan_to_next_token (c_text c1) (c_mark c1) None); [apply pos_start; exact Hd1|]. intros a' t' m' c' P. intros. destruct P as [(-> & -> & _) A]. exact A. }
  assert (C2 : core 0 es all (set_allowed (set_cur (set_cur s c1) c2) a)) by (apply core_allowed, core_cur; [exact C1|exact A2]).
  assert (H2 : here es (set_allowed (set_cur (set_cur s c1) c2) a)) by exact H0.
  assert (Al2 : allow_ok (set_allowed (set_cur (set_cur s c1) c2) a)).
  { intros F I0. cbn in F, I0. unfold in_flow in E2. rewrite F in E2. cbn [N.eqb negb] in E2.
    pose proof (core_ats _ _ _ _ _ C1) as X. cbn in X. destruct (to_next_ink T _ _ _ _ X E2) as [_ K]; [|exact K].
    rewrite M1. exact (A0 F I0). }
  set (s2 := set_allowed (set_cur (set_cur s c1) c2) a) in *. clearbody s2. clear s C0 H0 A0 c1 E1 C1 X1 M1 Hd1 E2 A2.
  apply pw_bind. eapply pw_stale; [exact H2|]. intros ks S H3. destruct (core_stale _ _ _ _ _ _ C2 S) as [C3 Fr3].
  assert (Al3 : allow_ok (set_keys s2 ks)) by exact Al2. set (s3 := set_keys s2 ks) in *. clearbody s3. clear s2 C2 H2 Al2 S. pw1. pw1.
  assert (Fin : forall all4 s4, core 0 es all4 s4 -> fresh s4 -> (s_flow s4 = 0 -> (s_indent s4 <= Z.of_N (m_column (smark s4)))%Z) ->
       in_flow s4 = in_flow s3 -> here es s4 -> allow_ok s4 ->
       pw (lift (cache 4) ~;; b <~ lift (choose (in_flow s3));; fetch_branch b) s4 (fun _ s' => post es s')).
  { intros all4 s4 C4 Fr4 I4 F4 H4 Al4. apply pw_bind, pw_lift. intros u5 c5 E5. destruct (cache_core2 _ _ _ _ _ _ C4 E5) as (C5 & X5 & M5 & Hd5).
    apply pw_bind, pw_lift. intros b c6 E6. cbn [s_cur set_cur] in E6.
    assert (K : choose_ok (in_flow s3) (c_text c5) (c_mark c5) b /\ c6 = c5).
    { refine (wp_ok _ _ (fun b c => choose_ok (in_flow s3) (c_text c5) (c_mark c5) b /\ c = c5) _ _ _ _ E6).
      eapply (p_choose (c_text c5) (c_mark c5) None); [apply pos_start; exact Hd5|]. auto. }
    destruct K as [K ->]. change (set_cur (set_cur s4 c5) c5) with (set_cur s4 c5).
    eapply (branch_post es all4).
    - constructor; [exact C5| | |exact Hd5].
      + unfold fresh in *. unfold smark. cbn. rewrite M5. exact Fr4.
      + unfold smark. cbn. rewrite M5. exact I4.
    - exact H4.
    - unfold RequiredKey.allow_ok, smark in *. cbn. rewrite M5. exact Al4.
    - change (in_flow (set_cur s4 c5)) with (in_flow s4). rewrite F4. exact K. }
  apply pw_bind. unfold pw at 1, unroll_indent. destruct (in_flow s3) eqn:F3.
  - eapply Fin; eauto. intros F0. unfold in_flow in F3. rewrite F0 in F3. discriminate.
  - destruct (core_unroll T 0 es all s3 (Z.of_N (m_column (smark s3))) C3) as (i & is & q & ends & U & CU & Li & _).
    + lia.
    + exact F3.
    + intros k Ik Pk. eapply fresh_column; eauto.
    + rewrite U.
      assert (Bh : behind s3) by (eapply core_behind; exact C3).
      destruct (base_unroll T es (s_keys s3) (smark s3) _ Bh _ _ _ _ _ _ U H3) as [H4 _].
      eapply Fin; [exact CU|exact Fr3|intros _; exact Li|exact F3|exact H4|].
      intros F I0. cbn in F, I0. apply (Al3 F).
      pose proof (x_cols _ _ _ _ _ H3) as X3. clear -X3 I0 U.
      destruct (Z.le_gt_cases 0 (s_indent s3)) as [|Lt]; [assumption|]. exfalso.
      destruct (s_indents s3) as [|j r] eqn:Ei; cbn [unroll] in U.
      * destruct (Z.ltb_spec (Z.of_N (m_column (smark s3))) (s_indent s3)); [discriminate|]. injection U as <- _ _. lia.
      * destruct (Z.ltb_spec (Z.of_N (m_column (smark s3))) (s_indent s3)); [lia|]. injection U as <- _ _. lia.
Qed.

(* --- fetching until the head of the queue is certain --- *)
Lemma here_avail es s b : here es s -> here es (set_avail s b). Proof. exact (fun H => H). Qed.
Lemma none_pending ks n : (forall k, In k ks -> k_possible k = false) -> ~ pending n ks.
Proof. intros H (k & I & P & _). rewrite (H k I) in P. discriminate. Qed.

Lemma more_step n s (Q : unit -> sc -> Prop) :
  pw (need <~ (match s_tokens s with
                | [] => sret true
                | _ => stale_simple_keys ~;; s <~ get ;; sret (head_may_be_key s)
                end) ;;
       if need then fetch_next_token ~;; fetch_more_n n
       else modify (fun s => set_avail s true)) s Q -> pw (fetch_more_n (S n)) s Q.
Proof. exact (fun H => H). Qed.
(* the keys after the end of the stream *)
Definition settled (s : sc) : Prop := forall k, In k (s_keys s) -> k_possible k = false.
Definition ready2 (es : list token) (s : sc) : Prop :=
  (exists all, core 0 es all s /\ head_may_be_key s = false /\ post es s) \/ (finished T es s /\ here es s /\ settled s).
Lemma finished_more es s n : finished T es s -> here es s -> pw (fetch_more_n (S n)) s (fun _ s' => ready2 es s').
Proof.
  intros F H. apply more_step. destruct (s_tokens s) as [|t q] eqn:Et; [destruct (fi_tokens _ _ _ F); exact Et|].
  apply pw_bind, pw_bind. eapply pw_stale; [exact H|]. intros ks S H1. pww.
  assert (K := stale_all _ _ _ S (fun k I P => proj2 (fi_keys _ _ _ F k I P))).
  assert (Hk : head_may_be_key (set_keys s ks) = false).
  { unfold head_may_be_key. cbn. apply not_true_is_false. intros E. apply existsb_exists in E as (k & Ik & P). rewrite (K k Ik) in P. discriminate. }
  rewrite Hk. unfold pw, modify. right. split; [|split; [exact H1|exact K]]. apply finished_avail.
  destruct F. constructor; auto. cbn. intros k Ik P. rewrite (K k Ik) in P. discriminate.
Qed.
Lemma more_post n : forall es all s, core 0 es all s -> post es s -> (length (ctext s) + 2 <= n)%nat ->
  pw (fetch_more_n n) s (fun _ s' => ready2 es s').
Proof.
  induction n as [|n IH]; intros es all s C P Hn; [lia|].
  assert (Step : forall s1, core 0 es all s1 -> post es s1 -> (length (ctext s1) <= length (ctext s))%nat ->
     pw (fetch_next_token ~;; fetch_more_n n) s1 (fun _ s' => ready2 es s')).
  { intros s1 C1 P1 L1. apply pw_bind. pose proof (next_post es all s1 C1 P1) as W. pose proof (fetch_next_ok T es all s1 C1) as W2.
    unfold pw at 1. unfold pw in W. unfold swp in W2. destruct (fetch_next_token s1) as [u s2| | |]; auto.
    destruct W2 as [[(all' & C2 & _ & _) L2]|F2].
    - eapply IH; [exact C2|exact W|lia].
    - destruct n as [|n']; [lia|]. exact (finished_more es s2 n' F2 (proj1 W)). }
  apply more_step. destruct (s_tokens s) as [|t q] eqn:Et.
  - apply pw_bind. unfold pw at 1, sret. apply Step; auto.
  - apply pw_bind, pw_bind. eapply pw_stale; [exact (proj1 P)|]. intros ks S H1. destruct (core_stale _ _ _ _ _ _ C S) as [C1 Fr]. pww.
    assert (P1 : post es (set_keys s ks)) by (split; [exact H1|exact (proj2 P)]).
    destruct (head_may_be_key (set_keys s ks)) eqn:H.
    + apply Step; auto.
    + unfold pw, modify. left. exists all. split; [apply core_avail; exact C1|]. split; [exact H|exact P1].
Qed.

(* --- successive calls --- *)
Definition req (es : list token) : Prop := forall a x b, es = a ++ x :: b -> at_key_place T a x -> after_key a x.
Inductive live2 (es : list token) (s : sc) : Prop :=
| l2_init e nest bad plan : es = [] -> s = init_scanner e nest T bad plan -> live2 es s
| l2_run all : core 0 es all s -> post es s -> s_avail s = false -> live2 es s
| l2_end : finished T es s -> here es s -> settled s -> s_avail s = false -> live2 es s
| l2_done : req es -> s_ended s = true -> live2 es s.

Lemma first_post e nest bad plan : pw fetch_more_tokens (init_scanner e nest T bad plan) (fun _ s' => post [] s').
Proof.
  unfold fetch_more_tokens, pw. change (length (c_text (s_cur (init_scanner e nest T bad plan))) + 3)%nat with (length T + 3)%nat.
  replace (length T + 3)%nat with (S (S (length T + 1)))%nat by lia.
  match goal with |- match ?m ?s with SOk a s' => @?Q a s' | SErr _ => True | SBad => True | SFuel => True end => change (pw m s Q) end.
  apply more_step. cbn [s_tokens init_scanner]. pww. apply pw_bind. unfold fetch_next_token. apply pw_bind, pw_lift. intros u c E. pww.
  cbn [s_started set_cur init_scanner negb]. unfold fetch_stream_start. pww.
  apply more_step. cbn [s_tokens set_tokens set_started set_allowed set_keys set_indents set_cur app].
  apply pw_bind. apply pw_bind. unfold pw at 1, stale_simple_keys. cbn [s_keys set_tokens set_started set_allowed set_keys set_indents set_cur init_scanner stale key0 k_possible andb]. pww.
  match goal with |- context[head_may_be_key ?x] => change (head_may_be_key x) with false end. cbv iota. unfold pw, modify.
  split.
  - constructor; cbn.
    + reflexivity.
    + intros a x b Ea (N1 & _). destruct a as [|y a]; [|destruct a; discriminate]. injection Ea as <- _. discriminate.
    + intros k [<-|[]]; discriminate.
  - intros F I0. right. reflexivity.
Qed.

Lemma dequeue_here es s t q e : here es s -> s_tokens s = t :: q -> here (es ++ [t]) (dequeue s q e).
Proof. unfold RequiredKey.here. intros H E. cbn. rewrite E in H. rewrite <- app_assoc. exact H. Qed.
Lemma dequeue_ready es s t q : ready2 es s -> s_tokens s = t :: q ->
  t_deep t = false /\ live2 (es ++ [t]) (dequeue s q (s_ended s || is_stream_end (t_tok t))).
Proof.
  intros [(all & C & Hk & H & A)|(F & H & K)] Et.
  - destruct (dequeue_core _ _ _ _ _ _ C Hk Et) as (C2 & E2 & D2). split; [exact D2|]. rewrite (c_ended _ _ _ _ _ C), E2. cbn [orb].
    apply l2_run with (all := all); [exact C2| |reflexivity]. split; [eapply dequeue_here; eauto|exact A].
  - pose proof (dequeue_here es s t q (s_ended s || is_stream_end (t_tok t)) H Et) as H2.
    destruct F as [(pre & Ea & Cp) FP FS FE FR FT FK]. rewrite Et in Ea. rewrite FE in *. cbn [orb] in *.
    destruct q as [|t' q] using rev_ind; [|clear IHq].
    + apply app_inj_tail in Ea as [-> ->]. split; [reflexivity|]. apply l2_done; [|reflexivity].
      intros a x b E P. unfold RequiredKey.here in H2. cbn [s_tokens dequeue] in H2. rewrite app_nil_r in H2.
      destruct (x_req _ _ _ _ _ H2 a x b E P) as [G|G]; [exact G|]. exfalso. eapply none_pending; [|exact G]. exact K.
    + rewrite app_comm_cons, app_assoc in Ea. apply app_inj_tail in Ea as [Ea ->].
      assert (It : In t pre) by (rewrite <- Ea; apply in_app_iff; right; left; reflexivity).
      destruct (good_tok _ _ _ _ (cp_good _ _ _ _ Cp) It) as [E1 E2]. split; [exact E2|]. rewrite E1 in *.
      apply l2_end; [|exact H2|exact K|reflexivity]. constructor; auto.
      * exists pre. split; [|exact Cp]. cbn. rewrite <- Ea, <- !app_assoc. reflexivity.
      * cbn. rewrite FP, nlen_app. reflexivity.
      * cbn. apply app_cons_not_nil.
Qed.

Lemma scan_step2 es s t s' : live2 es s -> scan s = ScanToken t s' -> live2 (es ++ [undeep t]) s'.
Proof.
  intros L. 
  assert (G : forall s1 u, s_ended s = false -> s_error s = None -> s_avail s = false -> fetch_more_tokens s = SOk u s1 -> ready2 es s1 ->
     scan s = ScanToken t s' -> live2 (es ++ [undeep t]) s').
  { intros s1 u E1 E2 E3 E4 R. unfold scan. rewrite E1, E2, E3, E4. cbn [orb]. destruct (s_tokens s1) as [|t1 q] eqn:Et; [discriminate|].
    intros E. injection E as <- <-. destruct (dequeue_ready _ _ _ _ R Et) as [D L2]. unfold undeep. cbn. destruct t1 as [tt ts te td]. cbn in *. subst td. exact L2. }
  destruct L as [e nest bad plan -> ->|all C P Av|F H K Av|R E].
  - intros E. pose proof (first_fetch T e nest bad plan) as W. pose proof (first_post e nest bad plan) as W2. unfold swp in W. unfold pw in W2.
    destruct (fetch_more_tokens (init_scanner e nest T bad plan)) as [u s1| | |] eqn:Ef; try contradiction.
    + eapply (G s1 u); auto. left. exists [start_tok e]. destruct W as (W3 & W4 & _). auto.
    + unfold scan in E. rewrite Ef in E. discriminate.
  - intros E. pose proof (more_post (length (ctext s) + 3) es all s C P ltac:(lia)) as W. unfold pw in W. 
    destruct (fetch_more_n (length (ctext s) + 3) s) as [u s1| | |] eqn:Ef; try (unfold scan in E; rewrite (c_ended _ _ _ _ _ C), (c_error _ _ _ _ _ C), Av in E; unfold fetch_more_tokens in E; unfold ctext in Ef; rewrite Ef in E; discriminate).
    eapply (G s1 u); [exact (c_ended _ _ _ _ _ C)|exact (c_error _ _ _ _ _ C)|exact Av|exact Ef|exact W|exact E].
  - intros E. pose proof (finished_more es s (length (ctext s) + 2) F H) as W. unfold pw in W. replace (S (length (ctext s) + 2)) with (length (ctext s) + 3)%nat in W by lia.
    destruct (fetch_more_n (length (ctext s) + 3) s) as [u s1| | |] eqn:Ef; try (unfold scan in E; rewrite (fi_ended _ _ _ F), (fi_error _ _ _ F), Av in E; unfold fetch_more_tokens in E; unfold ctext in Ef; rewrite Ef in E; discriminate).
    eapply (G s1 u); [exact (fi_ended _ _ _ F)|exact (fi_error _ _ _ F)|exact Av|exact Ef|exact W|exact E].
  - unfold scan. rewrite E. discriminate.
Qed.
Lemma live2_req es s : live2 es s -> req es.
Proof.
  intros L a x b E P. destruct L as [e nest bad plan -> _|all C [H _] _|F H K _|R _].
  - destruct a; discriminate.
  - assert (E2 : es ++ s_tokens s = a ++ x :: (b ++ s_tokens s)) by (rewrite E, <- app_assoc; reflexivity).
    destruct (x_req _ _ _ _ _ H a x _ E2 P) as [G|(k & Ik & Pk & Rk & Nk)]; [exact G|]. exfalso.
    destruct (keys_in _ _ _ _ _ (c_keys _ _ _ _ _ C) Ik Pk) as (L & _ & KO & _). pose proof (ko_parsed _ _ _ _ _ _ _ _ KO) as KP.
    rewrite (c_parsed _ _ _ _ _ C), E, nlen_app in KP. unfold nlen in *. cbn [length] in KP. lia.
  - assert (E2 : es ++ s_tokens s = a ++ x :: (b ++ s_tokens s)) by (rewrite E, <- app_assoc; reflexivity).
    destruct (x_req _ _ _ _ _ H a x _ E2 P) as [G|G]; [exact G|]. exfalso. eapply none_pending; [|exact G]. exact K.
  - eapply R; eauto.
Qed.
Lemma live2_scans es s l s' : live2 es s -> scans s l s' -> live2 (es ++ map undeep l) s'.
Proof.
  intros L H. revert es L. induction H as [s|s t s1 l s2 H1 H2 IH]; intros es L; cbn [map].
  - rewrite app_nil_r. exact L.
  - specialize (IH _ (scan_step2 _ _ _ _ L H1)). rewrite <- app_assoc in IH. exact IH.
Qed.
End S.

Lemma open_undeep l : open_columns (map undeep l) = open_columns l.
Proof. unfold open_columns. generalize (@nil N). induction l as [|x l IH]; intros st; [reflexivity|]. cbn [map fold_left]. apply (IH (open_after st x)). Qed.

Lemma scan_required e nest T bad plan l s a x b : scans (init_scanner e nest T bad plan) l s -> l = a ++ x :: b ->
  at_key_place T a x -> after_key a x.
Proof.
  intros H E (P1 & P2 & P3 & P4 & P5). assert (L : live2 T (map undeep l) s) by (apply (live2_scans T [] (init_scanner e nest T bad plan) l s); [eapply l2_init; reflexivity|exact H]).
  destruct (live2_req _ _ _ L (map undeep a) (undeep x) (map undeep b) (undeep_split _ _ _ _ E)) as (a' & k & Ea & K & S).
  - split; [exact P1|]. split; [exact P2|]. split; [unfold flow_depth in *; rewrite flow_undeep; exact P3|]. split; [rewrite open_undeep; exact P4|exact P5].
  - destruct a as [|y a] using rev_ind; [destruct a'; discriminate|]. clear IHa. rewrite map_app in Ea. cbn [map] in Ea. apply app_inj_tail in Ea as [_ <-].
    exists a, y. auto.
Qed.

Lemma scan_required_value e nest T bad plan l s a x b : scans (init_scanner e nest T bad plan) l s -> l = a ++ x :: b -> at_key_place T a x ->
  exists n v c, x :: b ++ s_tokens s = n ++ v :: c /\ n <> [] /\ node_tokens 0 n /\ t_tok v = TValue
    /\ m_line (t_start v) = m_line (t_start x) /\ m_index (t_start v) <= m_index (t_start x) + 1024.
Proof.
  intros H E P. destruct (scan_required _ _ _ _ _ _ _ _ _ _ H E P) as (a' & k & Ea & K & Es).
  destruct (scan_implicit e nest T bad plan l s a' k (x :: b ++ s_tokens s) H) as (n & v & c & E1 & E2 & E3 & E4 & E5 & E6 & _).
  - rewrite E, Ea, <- !app_assoc. reflexivity.
  - exact K.
  - assert (F : flow_depth a' = 0).
    { destruct P as (_ & _ & F & _). rewrite Ea in F. unfold flow_depth, flow_from in *. rewrite fold_left_app in F. cbn [fold_left] in F.
      destruct K as [K _]. unfold flow_after in F at 1. rewrite K in F. exact F. }
    rewrite F in E3. exists n, v, c. rewrite <- Es. auto 10.
Qed.
