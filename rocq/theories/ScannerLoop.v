(* yaml_parser_fetch_next_token, yaml_parser_fetch_more_tokens and
   yaml_parser_scan: the invariant over successive calls. *)
From Verif Require Import Base ReaderModel Utf8Spec CharSpec Types CursorModel ScanModel ScannerModel CursorProofs ScanProofs ScanQuoted ScannerSpec ScannerInv ScannerFetch ScannerBranch ScannerBlock.

Section S.
Variable T : list N.
Notation eok := (eok T).
Notation eend := (eend T).
Notation core := (core T).
Notation at_branch := (at_branch T).
Notation fetched := (fetched T).
Notation finished := (finished T).

Lemma swp_err {A} (m : sm A) s Q (E E' : serr -> Prop) : swp m s Q E -> (forall e, E e -> E' e) -> swp m s Q E'.
Proof. intros H HE. eapply swp_mono; [exact H|auto|exact HE]. Qed.

Definition next_state (es : list token) (s s' : sc) : Prop := fetched es s s' \/ finished es s'.
Lemma fetch_branch_ok es all s b : at_branch es all s -> choose_ok (in_flow s) (ctext s) (smark s) b ->
  swp (fetch_branch b) s (fun _ s' => next_state es s s') eend.
Proof.
  intros B H.
  assert (K : forall (m : sm unit), swp m s (fun _ s' => fetched es s s') eok -> swp m s (fun _ s' => next_state es s s') eend).
  { intros m W. eapply swp_mono; [exact W|left; assumption|apply eok_eend]. }
  destruct b; cbn [fetch_branch choose_ok] in *.
  - eapply swp_mono; [eapply fetch_stream_end_ok; exact B|right; assumption|auto].
  - apply K. eapply fetch_directive_ok; [exact B|tauto].
  - apply K. eapply fetch_document_indicator_ok; [exact B|apply H|auto|auto].
  - apply K. eapply fetch_document_indicator_ok; [exact B|apply H|auto|auto].
  - apply K. eapply fetch_flow_start_ok; eauto.
  - apply K. eapply fetch_flow_start_ok; eauto.
  - apply K. eapply fetch_flow_end_ok; eauto.
  - apply K. eapply fetch_flow_end_ok; eauto.
  - apply K. eapply fetch_flow_entry_ok; eauto.
  - apply K. eapply fetch_block_entry_ok; eauto.
  - apply K. eapply fetch_key_ok; eauto.
  - apply K. eapply fetch_value_ok; eauto.
  - apply K. eapply fetch_anchor_ok; [exact B|rewrite H; discriminate|rewrite H; reflexivity].
  - apply K. eapply fetch_anchor_ok; [exact B|rewrite H; discriminate|rewrite H; reflexivity].
  - apply K. eapply fetch_tag_ok; eauto.
  - apply K. destruct H as [H _]. eapply fetch_block_scalar_ok; [exact B|rewrite H; discriminate|rewrite H; reflexivity].
  - apply K. destruct H as [H _]. eapply fetch_block_scalar_ok; [exact B|rewrite H; discriminate|rewrite H; reflexivity].
  - apply K. eapply fetch_flow_scalar_ok; [exact B|rewrite H; discriminate|rewrite H; reflexivity].
  - apply K. eapply fetch_flow_scalar_ok; [exact B|rewrite H; discriminate|rewrite H; reflexivity].
  - apply K. destruct H as (H1 & H2 & H3). eapply fetch_plain_scalar_ok; eauto.
  - apply eok_eend. split; cbn; exact (branch_fpos _ _ _ _ B).
Qed.

Lemma hold0 c : hold 0 (c_text c) (c_mark c) c.
Proof. repeat split. cbn. lia. Qed.
Lemma flow_zero s : in_flow s = false -> s_flow s = 0.
Proof. unfold in_flow. destruct (N.eqb_spec (s_flow s) 0); [auto|discriminate]. Qed.

Lemma fresh_column es all s k : core 0 es all s -> fresh s -> In k (s_keys s) -> k_possible k = true -> in_flow s = false ->
  (s_indent s <= Z.of_N (m_column (smark s)))%Z.
Proof.
  intros C Fr Ik Pk Fl. apply flow_zero in Fl. destruct (Fr k Ik Pk) as [L _]. pose proof (c_keys _ _ _ _ _ C) as CK. rewrite Fl in CK.
  destruct (keys_0 _ _ _ CK) as (k' & E & H). rewrite E in Ik. destruct Ik as [->|[]]. destruct (H Pk) as [_ K].
  pose proof (ko_indent _ _ _ _ _ _ _ _ K eq_refl) as KI. destruct (ko_pos _ _ _ _ _ _ _ _ K) as (t1 & _ & A & Ln).
  pose proof (adv_same_line _ _ _ _ A (eq_sym L)). apply adv_lt_index in A; [lia|exact Ln].
Qed.

Lemma cache_core es all s n : core 0 es all s ->
  wp (cache n) (s_cur s) (fun _ c => core 0 es all (set_cur s c) /\ hold n (ctext s) (smark s) c) eok.
Proof.
  intros C. eapply wp_cache; [apply hold0| |].
  - intros c' H. split; [|exact H]. apply core_cur; [exact C|]. destruct H as (E1 & E2 & _). unfold smark. rewrite E1, E2. constructor.
  - split; cbn; [eapply here_fpos; exact C|exact I].
Qed.


Lemma hold_self n t m c : hold n t m c -> hold n (c_text c) (c_mark c) c.
Proof. intros (E1 & E2 & E3). subst. repeat split. exact E3. Qed.

Lemma fetch_next_ok es all s : core 0 es all s ->
  swp fetch_next_token s (fun _ s' => next_state es s s') eend.
Proof.
  intros C0. unfold fetch_next_token. apply swp_bind, swp_lift.
  eapply wp_mono; [apply (cache_core _ _ _ 1 C0)| |apply eok_eend]. intros _ c1 (C1 & H1). cbv beta.
  assert (X1 : ctext (set_cur s c1) = ctext s) by (destruct H1 as (E & _); exact E).
  apply hold_self in H1. w1. w1. rewrite (c_started _ _ _ _ _ C1). cbn [negb].
  apply swp_bind, swp_lift. eapply wp_mono; [eapply (p_scan_to_next_token (ctext (set_cur s c1)) (smark (set_cur s c1)) None); [apply pos_start; exact H1|]| |].
  - intros a t' m' c' P. intros. exact (ex_intro _ t' (ex_intro _ m' P)).
  - cbv beta. intros a c2 (t' & m' & P2). w1. w1.
    destruct (pos_core _ _ _ _ _ _ _ _ _ C1 P2) as (_ & _ & A2).
    assert (C2 : core 0 es all (set_allowed (set_cur (set_cur s c1) c2) a)).
    { apply core_allowed, core_cur; [exact C1|exact A2]. }
    assert (X2 : (length (ctext (set_allowed (set_cur (set_cur s c1) c2) a)) <= length (ctext s))%nat).
    { rewrite <- X1. apply adv_len in A2. exact A2. }
    set (s2 := set_allowed (set_cur (set_cur s c1) c2) a) in *. clearbody s2. clear H1 X1 P2 A2 C1.
    apply swp_bind. eapply swp_err; [|apply eok_eend]. eapply swp_stale; [exact C2|]. intros ks C3 Fr3.
    assert (X3 : (length (ctext (set_keys s2 ks)) <= length (ctext s))%nat) by exact X2.
    set (s3 := set_keys s2 ks) in *. clearbody s3. clear s2 C2 X2. w1. w1. apply swp_bind.
    assert (Fin : forall all4 s4, core 0 es all4 s4 -> fresh s4 -> (s_flow s4 = 0 -> (s_indent s4 <= Z.of_N (m_column (smark s4)))%Z) ->
       in_flow s4 = in_flow s3 -> (length (ctext s4) <= length (ctext s))%nat ->
       swp (lift (cache 4) ~;; b <~ lift (choose (in_flow s3));; fetch_branch b) s4 (fun _ s' => next_state es s s') eend).
    { intros all4 s4 C4 Fr4 I4 F4 X4. apply swp_bind, swp_lift.
      eapply wp_mono; [apply (cache_core _ _ _ 4 C4)| |apply eok_eend]. intros _ c5 (C5 & H5). cbv beta.
      assert (X5 : ctext (set_cur s4 c5) = ctext s4) by (destruct H5 as (E & _); exact E).
      assert (M5 : smark (set_cur s4 c5) = smark s4) by (destruct H5 as (_ & E & _); exact E).
      apply hold_self in H5. apply swp_bind, swp_lift.
      eapply wp_mono; [eapply (p_choose (c_text c5) (c_mark c5) None (in_flow s3)); [apply pos_start; exact H5|]| |].
      - intros b Hb. refine (_ : (fun b c => choose_ok (in_flow s3) (c_text c5) (c_mark c5) b /\ c = c5) b c5). auto.
      - cbv beta. intros b c [Hb ->]. change (set_cur (set_cur s4 c5) c5) with (set_cur s4 c5).
        eapply swp_mono; [eapply (fetch_branch_ok es all4)| |auto].
        + constructor; [exact C5| | |exact H5].
          * unfold fresh in *. rewrite M5. exact Fr4.
          * rewrite M5. exact I4.
        + change (in_flow (set_cur s4 c5)) with (in_flow s4). rewrite F4. exact Hb.
        + intros _ s' [H|H]; [left|right; exact H]. destruct H as [H L]. split; [exact H|]. rewrite X5 in L. lia.
      - intros e He. apply eok_eend. eapply epos_eok; [apply (c_pos _ _ _ _ _ C5)|]. destruct He as [He Hc]. split; [exact He|].
        destruct Hc as [->| ->]; auto. }
    unfold swp at 1, unroll_indent. destruct (in_flow s3) eqn:F3.
    + eapply Fin; eauto. intros F0. unfold in_flow in F3. rewrite F0 in F3. discriminate.
    + destruct (core_unroll T 0 es all s3 (Z.of_N (m_column (smark s3))) C3) as (i & is & q & ends & U & CU & Li & _).
      * lia.
      * exact F3.
      * intros k Ik Pk. eapply fresh_column; eauto.
      * rewrite U. eapply Fin; [exact CU|exact Fr3| |exact F3|exact X3]. intros _. exact Li.
  - intros e He. apply eok_eend. eapply epos_eok; [apply (c_pos _ _ _ _ _ C1)|]. destruct He as [He Hc]. split; [exact He|].
    destruct Hc as [->| ->]; auto.
Qed.

(* --- fetching until the head of the queue is certain --- *)
(* what yaml_parser_scan may hand out *)
Definition ready (es : list token) (s : sc) : Prop :=
  s_tokens s <> [] /\ ((exists all, core 0 es all s /\ head_may_be_key s = false) \/ finished es s).

Lemma core_avail es all s b : core 0 es all s -> core 0 es all (set_avail s b).
Proof. intros []. constructor; auto. Qed.
Lemma finished_avail es s b : finished es s -> finished es (set_avail s b).
Proof. intros []. constructor; auto. Qed.

(* the state after the end of the stream has been fetched *)
Lemma stale_all m ks ks' : stale m ks = inl ks' -> (forall k, In k ks -> k_possible k = true -> m_line (k_mark k) < m_line m) ->
  forall k, In k ks' -> k_possible k = false.
Proof.
  revert ks'. induction ks as [|k ks IH]; intros ks'; cbn [stale].
  - intros [= <-] _ k [].
  - destruct (stale m ks) as [r|]; [|discriminate]. intros H Hk.
    assert (IHr : forall k0, In k0 r -> k_possible k0 = false) by (apply IH; [reflexivity|intros; apply Hk; [right|]; auto]).
    destruct (k_possible k) eqn:P; cbn [andb] in H.
    + assert (m_line (k_mark k) < m_line m) by (apply Hk; [left|]; auto).
      replace (m_line (k_mark k) <? m_line m) with true in H by (symmetry; apply N.ltb_lt; lia). cbn [orb] in H.
      destruct (k_required k); [discriminate|]. injection H as <-. intros k0 [<-|I]; [reflexivity|auto].
    + injection H as <-. intros k0 [<-|I]; [exact P|auto].
Qed.
Lemma fetch_more_step n s (Q : unit -> sc -> Prop) E :
  swp (need <~ (match s_tokens s with
                | [] => sret true
                | _ => stale_simple_keys ~;; s <~ get ;; sret (head_may_be_key s)
                end) ;;
       if need then fetch_next_token ~;; fetch_more_n n
       else modify (fun s => set_avail s true)) s Q E -> swp (fetch_more_n (S n)) s Q E.
Proof. exact (fun H => H). Qed.
Lemma finished_stop es s (Q : unit -> sc -> Prop) n :
  finished es s -> (forall s', ready es s' -> s_avail s' = true -> Q tt s') -> swp (fetch_more_n (S n)) s Q eend.
Proof.
  intros F HQ. apply fetch_more_step. destruct (s_tokens s) as [|t q] eqn:Et; [destruct (fi_tokens _ _ _ F); exact Et|].
  apply swp_bind. apply swp_bind. unfold swp at 1, stale_simple_keys. destruct (stale (smark s) (s_keys s)) as [ks|m] eqn:S.
  - assert (K := stale_all _ _ _ S (fun k I P => proj2 (fi_keys _ _ _ F k I P))).
    assert (H : head_may_be_key (set_keys s ks) = false).
    { unfold head_may_be_key. cbn. apply not_true_is_false. intros H. apply existsb_exists in H as (k & I & P).
      rewrite (K k I) in P. discriminate. }
    ww. rewrite H. unfold swp, modify. apply HQ; [|reflexivity]. split; [cbn; congruence|]. right. apply finished_avail.
    destruct F. constructor; auto. cbn. intros k I P. rewrite (K k I) in P. discriminate.
  - destruct (stale_inr _ _ _ S) as (k & I & P & <-). destruct (fi_keys _ _ _ F k I P) as [F1 _]. split; cbn; [|exact F1].
    destruct (fi_all _ _ _ F) as (pre & _ & Cp). apply (cp_end _ _ _ _ Cp).
Qed.

Lemma fetch_more_run n : forall es all s (Q : unit -> sc -> Prop), core 0 es all s -> (length (ctext s) + 2 <= n)%nat ->
  (forall s', ready es s' -> s_avail s' = true -> Q tt s') -> swp (fetch_more_n n) s Q eend.
Proof.
  induction n as [|n IH]; intros es all s Q C Hn HQ; [lia|].
  assert (Step : forall s1, core 0 es all s1 -> (length (ctext s1) <= length (ctext s))%nat ->
     swp (fetch_next_token ~;; fetch_more_n n) s1 Q eend).
  { intros s1 C1 L1. apply swp_bind. eapply swp_mono; [eapply fetch_next_ok; exact C1| |auto]. intros _ s2 [[(all' & C2 & _ & _) L2]|F2].
    - eapply IH; [exact C2|lia|exact HQ].
    - destruct n as [|n']; [lia|]. eapply finished_stop; eauto. }
  apply fetch_more_step. destruct (s_tokens s) as [|t q] eqn:Et.
  -     w1. w1. apply Step; auto.
  -     apply swp_bind. apply swp_bind. eapply swp_err; [|apply eok_eend]. eapply swp_stale; [exact C|]. intros ks C1 Fr. ww.
    destruct (head_may_be_key (set_keys s ks)) eqn:H.
    + eapply swp_err; [apply Step; auto|]. auto.
    + unfold swp, modify. apply HQ; [|reflexivity]. split; [cbn; congruence|]. left. exists all. split; [apply core_avail; exact C1|exact H].
Qed.

(* --- successive calls --- *)
Definition start_tok (e : encoding) : token := mkToken (TStreamStart e) mark0 mark0 false.
Definition starts (e : encoding) (es : list token) : Prop := exists r, es = start_tok e :: r.
Definition undeep (t : token) : token := mkToken (t_tok t) (t_start t) (t_end t) false.

Inductive live (e : encoding) (es : list token) (s : sc) : Prop :=
| lv_init nest bad plan : es = [] -> s = init_scanner e nest T bad plan -> live e es s
| lv_run all : core 0 es all s -> starts e es -> s_avail s = false -> live e es s
| lv_end : finished es s -> starts e es -> s_avail s = false -> live e es s
| lv_done pre m : es = pre ++ [end_tok m] -> complete T e pre m -> s_ended s = true -> s_tokens s = [] -> s_error s = None -> live e es s.

Definition dequeue (s : sc) (q : list token) (ended : bool) : sc :=
  mkSc (s_cur s) (s_enc s) (s_started s) ended (s_error s) (s_flow s) q
       (s_parsed s + 1) false (s_indents s) (s_indent s) (s_allowed s) (s_keys s) (s_nest s).

Lemma dequeue_core es all s t q :
  core 0 es all s -> head_may_be_key s = false -> s_tokens s = t :: q ->
  core 0 (es ++ [t]) all (dequeue s q false) /\ is_stream_end (t_tok t) = false /\ t_deep t = false.
Proof.
  intros C H Et. pose proof (c_all _ _ _ _ _ C) as CA. rewrite Et in CA.
  assert (It : In t all) by (rewrite CA; apply in_app_iff; right; left; reflexivity).
  split; [|split].
  - destruct C as [_ CP CS CE CR Cpos CF CK CI CB CG CM CO CN]. constructor; auto.
    + cbn. rewrite CA, <- app_assoc. reflexivity.
    + cbn. rewrite CP, nlen_app. reflexivity.
    + cbn. change (smark (dequeue s q false)) with (smark s).
      assert (HK : forall k, In k (s_keys s) -> k_possible k = true -> k_number k <> s_parsed s).
      { intros k Ik Pk E. unfold head_may_be_key in H. apply not_true_iff_false in H. apply H. apply existsb_exists. exists k.
        split; [exact Ik|]. rewrite Pk, E, N.eqb_refl. reflexivity. }
      clear -CK HK. revert HK. remember (s_parsed s) as p. clear Heqp.
      induction CK as [b k Hk|l b b' k ks Hb Hk HK' IH]; intros HK.
      * constructor. intros P. destruct (Hk P) as [H1 K]. split; auto. specialize (HK k (or_introl eq_refl) P). destruct K as [K1 K2 K3 K4 K5 K6]. constructor; auto; lia.
      * apply ko_cons with (b' := b'); [exact Hb| |apply IH; intros; apply HK; [right|]; auto].
        intros P. destruct (Hk P) as (H1 & H2 & K). split; auto. split; auto. specialize (HK k (or_introl eq_refl) P). destruct K as [K1 K2 K3 K4 K5 K6]. constructor; auto; lia.
  - destruct (g_first _ _ _ (c_good _ _ _ _ _ C)) as (r & Er & Fr). rewrite Er in It. destruct It as [<-|It]; [reflexivity|].
    rewrite Forall_forall in Fr. specialize (Fr t It). unfold not_stream in Fr. unfold is_stream_end. destruct (t_tok t); auto. destruct Fr.
  - pose proof (g_deep _ _ _ (c_good _ _ _ _ _ C)) as G. rewrite Forall_forall in G. auto.
Qed.

Lemma starts_good e es e' l r : starts e es -> es ++ l = r -> good T e' r -> e' = e.
Proof.
  intros [es' ->] <- G. destruct (g_first _ _ _ G) as (r & E & _). cbn in E. injection E. congruence.
Qed.
Lemma starts_app e es l : starts e es -> starts e (es ++ l).
Proof. intros [r ->]. exists (r ++ l). reflexivity. Qed.

Lemma good_tok e pre t : good T e pre -> In t pre -> is_stream_end (t_tok t) = false /\ t_deep t = false.
Proof.
  intros G It. split.
  - destruct (g_first _ _ _ G) as (r & Er & Fr). rewrite Er in It. destruct It as [<-|It]; [reflexivity|].
    rewrite Forall_forall in Fr. specialize (Fr t It). unfold not_stream in Fr. unfold is_stream_end. destruct (t_tok t); auto. destruct Fr.
  - pose proof (g_deep _ _ _ G) as D. rewrite Forall_forall in D. auto.
Qed.

Lemma dequeue_finished e es s t q :
  finished es s -> starts e es -> s_tokens s = t :: q ->
  t_deep t = false /\ live e (es ++ [t]) (dequeue s q (s_ended s || is_stream_end (t_tok t))).
Proof.
  intros F St Et. destruct F as [(pre & Ea & Cp) FP FS FE FR FT FK FX]. rewrite Et in Ea. rewrite FE. cbn [orb].
  destruct q as [|t' q] using rev_ind; [|clear IHq].
  - apply app_inj_tail in Ea as [-> ->]. split; [reflexivity|]. 
    assert (s_enc s = e).
    { destruct St as [r ->]. destruct (g_first _ _ _ (cp_good _ _ _ _ Cp)) as (r' & E & _). injection E. congruence. }
    subst e. eapply (lv_done _ _ _ pre (smark s)); auto.
  - rewrite app_comm_cons, app_assoc in Ea. apply app_inj_tail in Ea as [Ea ->].
    assert (It : In t pre) by (rewrite <- Ea; apply in_app_iff; right; left; reflexivity).
    destruct (good_tok _ _ _ (cp_good _ _ _ _ Cp) It) as [E1 E2]. split; [exact E2|]. rewrite E1.
    apply lv_end; [|apply starts_app; exact St|reflexivity]. constructor; auto.
    + exists pre. split; [|exact Cp]. cbn. rewrite <- Ea, <- !app_assoc. reflexivity.
    + cbn. rewrite FP, nlen_app. reflexivity.
    + cbn. apply app_cons_not_nil.
Qed.

(* the first call *)
Lemma first_fetch e nest bad plan :
  swp fetch_more_tokens (init_scanner e nest T bad plan)
    (fun _ s' => core 0 [] [start_tok e] s' /\ head_may_be_key s' = false /\ s_tokens s' = [start_tok e]) eend.
Proof.
  unfold fetch_more_tokens, swp. change (length (c_text (s_cur (init_scanner e nest T bad plan))) + 3)%nat with (length T + 3)%nat.
  replace (length T + 3)%nat with (S (S (length T + 1)))%nat by lia.
  match goal with |- match ?m ?s with SOk a s' => @?Q a s' | SErr e => ?E e | SBad => False | SFuel => False end =>
    change (swp m s Q E) end.
  apply fetch_more_step. cbn [s_tokens init_scanner]. w1. w1. apply swp_bind. unfold fetch_next_token. apply swp_bind, swp_lift.
  eapply (wp_cache 1 0 T mark0); [repeat split; cbn; lia| |].
  2:{ split; cbn; [left; exists T; constructor|exact I]. }
  intros c (H1 & H2 & H3). w1. w1. cbn [s_started set_cur init_scanner negb]. unfold fetch_stream_start. ww.
  apply fetch_more_step. cbn [s_tokens set_tokens set_started set_allowed set_keys set_indents set_cur app].
  apply swp_bind. apply swp_bind. unfold swp at 1, stale_simple_keys. cbn [s_keys set_tokens set_started set_allowed set_keys set_indents set_cur init_scanner stale key0 k_possible andb]. ww. match goal with |- context[head_may_be_key ?x] => change (head_may_be_key x) with false end. cbv iota. unfold swp, modify.
  split; [|split; [reflexivity|]].
  - constructor; try reflexivity; cbn.
    + unfold smark. cbn. rewrite H2. reflexivity.
    + unfold smark. cbn. rewrite H1, H2. constructor.
    + constructor. discriminate.
    + constructor.
      * cbn. split; [lia|]. split; [reflexivity|]. split; [discriminate|]. split; [lia|exact I].
      * cbn. split; [|exact I]. intros [K _]. discriminate.
      * constructor; [exact I|constructor].
      * constructor; [reflexivity|constructor].
      * exists []. split; [reflexivity|constructor].
    + constructor; [|constructor]. split; exists T; constructor.
    + unfold smark. cbn. rewrite H2. cbn. lia.
    + rewrite H1. lia.
  - cbn. unfold smark. cbn. rewrite H2. reflexivity.
Qed.

Lemma scan_step e es s : live e es s ->
  match scan s with
  | ScanToken t s' => live e (es ++ [undeep t]) s'
  | ScanNothing s' => s' = s /\ s_ended s = true /\ s_error s = None
  | ScanFail s' => exists er, s' = set_error s er /\ eend er
  | ScanBad | ScanFuel => False
  end.
Proof.
  intros L. unfold scan. destruct L as [nest bad plan -> ->|all C St Av|F St Av|pre m E Cp En Et Er].
  - cbn [s_ended s_error init_scanner s_avail orb]. pose proof (first_fetch e nest bad plan) as H. unfold swp in H.
    destruct (fetch_more_tokens (init_scanner e nest T bad plan)) as [u s'|er| |]; try contradiction; [|eauto].
    destruct H as (C & Hk & Et). rewrite Et. destruct (dequeue_core _ _ _ _ _ C Hk Et) as (C' & _ & _). cbn [app] in *.
    rewrite (c_ended _ _ _ _ _ C). cbn. apply lv_run with (all := [start_tok e]); [exact C'|exists []; reflexivity|reflexivity].
  - rewrite (c_ended _ _ _ _ _ C), (c_error _ _ _ _ _ C), Av. cbn [orb].
    assert (H : swp fetch_more_tokens s (fun _ s' => ready es s' /\ s_avail s' = true) eend).
    { unfold swp, fetch_more_tokens. pose proof (fetch_more_run (length (ctext s) + 3) es all s (fun _ s' => ready es s' /\ s_avail s' = true) C) as H.
      apply H; [lia|auto]. }
    unfold swp in H. destruct (fetch_more_tokens s) as [u s'|er| |]; try contradiction; [|eauto].
    destruct H as ((Nt & [(all' & C' & Hk)|F]) & _).
    + destruct (s_tokens s') as [|t q] eqn:Et; [congruence|]. destruct (dequeue_core _ _ _ _ _ C' Hk Et) as (C2 & E2 & D2).
      rewrite (c_ended _ _ _ _ _ C'), E2. cbn [orb]. apply lv_run with (all := all'); [|apply starts_app; exact St|reflexivity].
      unfold undeep. cbn. destruct t as [tt ts te td]. cbn in *. subst td. exact C2.
    + destruct (s_tokens s') as [|t q] eqn:Et; [congruence|]. destruct (dequeue_finished e _ _ _ _ F St Et) as (D2 & L2).
      unfold undeep. cbn. destruct t as [tt ts te td]. cbn in *. subst td. exact L2.
  - rewrite (fi_ended _ _ _ F), (fi_error _ _ _ F), Av. cbn [orb].
    assert (H : swp fetch_more_tokens s (fun _ s' => ready es s' /\ s_avail s' = true) eend).
    { unfold swp, fetch_more_tokens. replace (length (c_text (s_cur s)) + 3)%nat with (S (length (c_text (s_cur s)) + 2)) by lia.
      exact (finished_stop es s (fun _ s' => ready es s' /\ s_avail s' = true) _ F (fun s' R A => conj R A)). }
    unfold swp in H. destruct (fetch_more_tokens s) as [u s'|er| |]; try contradiction; [|eauto].
    destruct H as ((Nt & [(all' & C' & Hk)|F']) & _).
    + destruct (s_tokens s') as [|t q] eqn:Et; [congruence|]. destruct (dequeue_core _ _ _ _ _ C' Hk Et) as (C2 & E2 & D2).
      rewrite (c_ended _ _ _ _ _ C'), E2. cbn [orb]. apply lv_run with (all := all'); [|apply starts_app; exact St|reflexivity].
      unfold undeep. cbn. destruct t as [tt ts te td]. cbn in *. subst td. exact C2.
    + destruct (s_tokens s') as [|t q] eqn:Et; [congruence|]. destruct (dequeue_finished e _ _ _ _ F' St Et) as (D2 & L2).
      unfold undeep. cbn. destruct t as [tt ts te td]. cbn in *. subst td. exact L2.
  - rewrite En. cbn [orb]. auto.
Qed.

Lemma live_error e es s : live e es s -> s_error s = None.
Proof. intros [nest bad plan _ ->|all C _ _|F _ _|pre m _ _ _ _ H]; [reflexivity|apply (c_error _ _ _ _ _ C)|apply (fi_error _ _ _ F)|exact H]. Qed.
Lemma live_scans e es s l s' : live e es s -> scans s l s' -> live e (es ++ map undeep l) s'.
Proof.
  intros L H. revert es L. induction H as [s|s t s1 l s2 H1 H2 IH]; intros es L; cbn [map].
  - rewrite app_nil_r. exact L.
  - pose proof (scan_step _ _ _ L) as K. rewrite H1 in K. specialize (IH _ K). rewrite <- app_assoc in IH. exact IH.
Qed.
Lemma scans_live e nest bad plan l s : scans (init_scanner e nest T bad plan) l s -> live e (map undeep l) s.
Proof. intros H. apply (live_scans e [] _ l s) in H; [exact H|]. eapply lv_init; reflexivity. Qed.
End S.
