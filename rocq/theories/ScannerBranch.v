(* Each branch of yaml_parser_fetch_next_token. *)
From Verif Require Import Base ReaderModel Utf8Spec CharSpec Types CursorModel ScanModel ScannerModel CursorProofs ScanProofs ScanQuoted ScannerSpec ScannerInv ScannerFetch.

Section S.
Variable T : list N.
Notation eok := (eok T).

Definition ctext (s : sc) : list N := c_text (s_cur s).
(* the position of a branch: the invariant holds, the keys are fresh, the
   indentation is not beyond the column, four characters are in the buffer *)
Record at_branch (es all : list token) (s : sc) : Prop := {
  b_core : core T 0 es all s;
  b_fresh : fresh s;
  b_col : s_flow s = 0 -> (s_indent s <= Z.of_N (m_column (smark s)))%Z;
  b_hold : hold 4 (ctext s) (smark s) (s_cur s) }.
(* the result of a branch other than the end of the stream *)
Definition fetched (es : list token) (s s' : sc) : Prop :=
  (exists all', core T 0 es all' s' /\ (length all' > 0)%nat /\ s_tokens s' <> []) /\ (length (ctext s') < length (ctext s))%nat.

Lemma pos_core sl es all s n t' m' c' : core T sl es all s -> pos (ctext s) (smark s) n t' m' c' ->
  c_text c' = t' /\ c_mark c' = m' /\ adv (ctext s) (smark s) (c_text c') (c_mark c').
Proof. intros C [[H1 [H2 _]] A]. subst. auto. Qed.

Lemma app_cons_not_nil {A} (l : list A) x : l ++ [x] <> [].
Proof. destruct l; discriminate. Qed.
Lemma fetched_append sl es all s x s' c' :
  core T sl es all s ->
  s_tokens s' = s_tokens s ++ [x] -> s_parsed s' = s_parsed s -> s_enc s' = s_enc s -> s_started s' = true ->
  s_ended s' = false -> s_error s' = None -> s_indents s' = s_indents s -> s_indent s' = s_indent s -> s_cur s' = c' ->
  adv (c_text (s_cur s)) (smark s) (c_text c') (c_mark c') -> (length (c_text c') < length (c_text (s_cur s)))%nat ->
  token_at (c_text (s_cur s)) (smark s) x (c_text c') ->
  is_block_token x = false -> t_tok x <> TStreamEnd -> (forall e, t_tok x <> TStreamStart e) ->
  (t_tok x = TKey -> m_index (t_start x) < m_index (t_end x)) ->
  (is_outer x = true -> s_flow s = 0 -> s_indents s = []) ->
  version_ok T x ->
  s_flow s' = flow_after (s_flow s) x ->
  keys_ok (key_ok T (all ++ [x]) (s_parsed s) (s_indent s) (c_text c') (c_mark c')) (s_flow s') (nlen (all ++ [x])) (s_keys s') ->
  (sl <= 3)%nat ->
  fetched es s s'.
Proof.
  intros C ET EP EE ES EN ER EI EIn EC A Ln TA NB NE NS NK NO HV EF HK Hsl. split.
  - exists (all ++ [x]). split; [eapply core_append; eauto|]. rewrite app_length. cbn [length]. split; [lia|].
    rewrite ET. apply app_cons_not_nil.
  - unfold ctext. rewrite EC. exact Ln.
Qed.

(* saving a simple key *)
Definition saved (all : list token) (s : sc) (ks : list skey) : Prop :=
  forall x t' m', is_node_token x = true -> t_start x = smark s -> adv (ctext s) (smark s) t' m' -> (length t' < length (ctext s))%nat ->
    keys_ok (key_ok T (all ++ [x]) (s_parsed s) (s_indent s) t' m') (s_flow s) (nlen (all ++ [x])) ks.
Lemma set_keys_same s : set_keys s (s_keys s) = s.
Proof. destruct s; reflexivity. Qed.
Lemma firstn_all_app {A} (l r : list A) : firstn (length l) (l ++ r) = l.
Proof. rewrite firstn_app, firstn_all, Nat.sub_diag. cbn. apply app_nil_r. Qed.
Lemma skipn_all_app {A} (l r : list A) : skipn (length l) (l ++ r) = r.
Proof. rewrite skipn_app, skipn_all, Nat.sub_diag. reflexivity. Qed.

Lemma swp_save es all s (Q : unit -> sc -> Prop) :
  at_branch es all s -> (forall ks, saved all s ks -> Q tt (set_keys s ks)) -> swp save_simple_key s Q eok.
Proof.
  intros [C Fr Col _] HQ. unfold save_simple_key. w1. w1. destruct (s_allowed s).
  - apply swp_bind. apply swp_remove; [eapply core_top; eauto|eapply here_fpos; eauto|]. w1.
    destruct (core_top _ _ _ _ _ C) as (k & ks & Ek & _). unfold clear_top. rewrite Ek. cbn [s_keys set_keys tl].
    match goal with |- Q tt (set_keys (set_keys s _) (?k' :: ks)) => assert (Sv : saved all s (k' :: ks)) end.
    { intros x t' m' Hx Hs A Ln. pose proof (c_keys _ _ _ _ _ C) as CK. rewrite Ek in CK.
      assert (EN : s_parsed s + nlen (s_tokens s) = nlen all).
      { rewrite (c_parsed _ _ _ _ _ C), (c_all _ _ _ _ _ C), nlen_app. lia. }
      eapply keys_step_new; [exact CK|symmetry; apply (c_flow _ _ _ _ _ C)|exact A|exact EN|]. rewrite EN.
      assert (En : N.to_nat (nlen all) = length all) by (unfold nlen; lia).
      constructor; cbn [k_number k_mark]; rewrite ?En.
      - rewrite (c_parsed _ _ _ _ _ C), (c_all _ _ _ _ _ C), nlen_app. lia.
      - rewrite firstn_all_app. symmetry. apply (c_flow _ _ _ _ _ C).
      - exists x. split; auto. rewrite nth_error_app2, Nat.sub_diag by lia. reflexivity.
      - exists (ctext s). split; [apply (c_pos _ _ _ _ _ C)|]. split; auto.
      - rewrite skipn_all_app. cbn [quiet]. split; [lia|]. split; auto. split; [|exact I].
        unfold flow_after, is_node_token in *. destruct (t_tok x); try discriminate; lia.
      - intros F0. auto. }
    exact (HQ _ Sv).
  - unfold swp, sret. rewrite <- (set_keys_same s). apply HQ. intros x t' m' Hx Hs A Ln.
    eapply keys_step; [apply (c_keys _ _ _ _ _ C)|symmetry; apply (c_flow _ _ _ _ _ C)|exact A|left; exact Hx].
Qed.

Lemma branch_eok es all s e : at_branch es all s -> epos (ctext s) (smark s) (Some (smark s)) e -> eok e.
Proof. intros [C _ _ _] H. eapply epos_eok; [apply (c_pos _ _ _ _ _ C)|exact H]. Qed.
Lemma branch_hold1 es all s : at_branch es all s -> hold 1 (ctext s) (smark s) (s_cur s).
Proof. intros [_ _ _ H]. eapply hold_le; eauto. Qed.

Lemma branch_fpos es all s : at_branch es all s -> fpos T (smark s).
Proof. intros [C _ _ _]. eapply here_fpos; eauto. Qed.
Lemma branch_adv es all s : at_branch es all s -> adv T mark0 (ctext s) (smark s).
Proof. intros [C _ _ _]. apply (c_pos _ _ _ _ _ C). Qed.
Lemma wp_err {A} (m : cm A) c Q (E E' : serr -> Prop) : wp m c Q E -> (forall e, E e -> E' e) -> wp m c Q E'.
Proof. intros H HE. eapply wp_mono; [exact H|auto|exact HE]. Qed.
(* tokens that may start a simple key and are not brackets *)
Definition is_content (x : token) : bool :=
  match t_tok x with TAlias _ | TAnchor _ | TTag _ _ | TScalar _ _ => true | _ => false end.
Lemma content_facts x : is_content x = true ->
  is_block_token x = false /\ t_tok x <> TStreamEnd /\ (forall e, t_tok x <> TStreamStart e) /\ t_tok x <> TKey
  /\ is_outer x = false /\ version_ok T x /\ (forall d, flow_after d x = d) /\ is_node_token x = true.
Proof.
  unfold is_content, is_block_token, is_outer, version_ok, flow_after, is_node_token. destruct (t_tok x); try discriminate;
    intros _; repeat split; try discriminate; intros; discriminate.
Qed.

Lemma content_append es all s ks x t' m' c' s' :
  at_branch es all s -> saved all s ks -> pos (ctext s) (smark s) 0 t' m' c' -> (length t' < length (ctext s))%nat ->
  token_at (ctext s) (smark s) x t' -> is_content x = true ->
  s_tokens s' = s_tokens s ++ [x] -> s_parsed s' = s_parsed s -> s_enc s' = s_enc s -> s_started s' = s_started s ->
  s_ended s' = s_ended s -> s_error s' = s_error s -> s_indents s' = s_indents s -> s_indent s' = s_indent s -> s_cur s' = c' ->
  s_flow s' = s_flow s -> s_keys s' = ks ->
  fetched es s s'.
Proof.
  intros B Sv P L TA Hx. pose proof (b_core _ _ _ B) as C. destruct (content_facts x Hx) as (H1 & H2 & H3 & H4 & H5 & H6 & H7 & H8).
  destruct (pos_core _ _ _ _ _ _ _ _ C P) as (E1 & E2 & A). subst t' m'. intros.
  eapply (fetched_append 0); try eassumption; try lia.
  - rewrite H10. apply (c_started _ _ _ _ _ C).
  - rewrite H11. apply (c_ended _ _ _ _ _ C).
  - rewrite H12. apply (c_error _ _ _ _ _ C).
  - congruence.
  - congruence.
  - rewrite H7. assumption.
  - rewrite H16, H17. apply Sv; auto. apply TA.
Qed.

Lemma fetch_anchor_ok es all s a : at_branch es all s -> nth 0 (ctext s) 0 <> 0 -> is_break (nth 0 (ctext s) 0) = false ->
  swp (fetch_anchor a) s (fun _ s' => fetched es s s') eok.
Proof.
  intros B Z Bk. unfold fetch_anchor. apply swp_bind. eapply swp_save; [exact B|]. intros ks Sv. ww.
  apply swp_lift. eapply wp_err; [eapply p_scan_anchor; [exact (branch_hold1 _ _ _ B)|exact Z|exact Bk|]|intros e He; exact (branch_eok _ _ _ _ B He)].
  intros tk t' m' c' P L TA K. ww.
    eapply (content_append es all s ks tk t' m' c'); try eassumption; try reflexivity. unfold is_content. destruct (t_tok tk); tauto.
Qed.
Lemma fetch_tag_ok es all s : at_branch es all s -> nth 0 (ctext s) 0 = 0x21 ->
  swp fetch_tag s (fun _ s' => fetched es s s') eok.
Proof.
  intros B Z. unfold fetch_tag. apply swp_bind. eapply swp_save; [exact B|]. intros ks Sv. ww.
  apply swp_lift. eapply wp_err; [eapply p_scan_tag; [exact (branch_hold1 _ _ _ B)|exact Z|]|intros e He; exact (branch_eok _ _ _ _ B He)].
  intros tk t' m' c' P L TA K. ww.
    eapply (content_append es all s ks tk t' m' c'); try eassumption; try reflexivity. unfold is_content. destruct (t_tok tk); tauto.
Qed.
Lemma fetch_flow_scalar_ok es all s b : at_branch es all s -> nth 0 (ctext s) 0 <> 0 -> is_break (nth 0 (ctext s) 0) = false ->
  swp (fetch_flow_scalar b) s (fun _ s' => fetched es s s') eok.
Proof.
  intros B Z Bk. unfold fetch_flow_scalar. apply swp_bind. eapply swp_save; [exact B|]. intros ks Sv. ww.
  apply swp_lift. eapply wp_err; [eapply p_scan_flow_scalar; [exact (branch_hold1 _ _ _ B)|exact Z|exact Bk|]|intros e He; exact (branch_eok _ _ _ _ B He)].
  intros tk t' m' c' P L TA K. ww.
    eapply (content_append es all s ks tk t' m' c'); try eassumption; try reflexivity. unfold is_content. destruct (t_tok tk); tauto.
Qed.
Lemma fetch_plain_scalar_ok es all s : at_branch es all s ->
  plain_stop (in_flow s) (ctext s) = false -> nth 0 (ctext s) 0 <> 0x23 -> at_document_indicator (ctext s) (smark s) = false ->
  swp fetch_plain_scalar s (fun _ s' => fetched es s s') eok.
Proof.
  intros B Z1 Z2 Z3. unfold fetch_plain_scalar. apply swp_bind. eapply swp_save; [exact B|]. intros ks Sv. ww.
  apply swp_lift. eapply wp_err; [eapply p_scan_plain_scalar; [exact (branch_hold1 _ _ _ B)|exact Z1|exact Z2|exact Z3|]|intros e He; exact (branch_eok _ _ _ _ B He)].
  intros tk lb t' m' c' P L TA K. cbn [fst snd]. destruct lb; ww;
    (eapply (content_append es all s ks tk t' m' c'); try eassumption; try reflexivity; unfold is_content; destruct (t_tok tk); tauto).
Qed.

(* states whose key of the current level has been removed *)
Lemma removed_append sl es all s x t' m' c' s' :
  core T sl es all s -> (sl <= 3)%nat -> top_clear (s_keys s) -> pos (ctext s) (smark s) 0 t' m' c' -> (length t' < length (ctext s))%nat ->
  token_at (ctext s) (smark s) x t' ->
  is_block_token x = false -> t_tok x <> TStreamEnd -> (forall e, t_tok x <> TStreamStart e) ->
  (is_outer x = true -> s_flow s = 0 -> s_indents s = []) -> version_ok T x ->
  (t_tok x = TKey -> m_index (t_start x) < m_index (t_end x)) -> (forall d, flow_after d x = d) ->
  s_tokens s' = s_tokens s ++ [x] -> s_parsed s' = s_parsed s -> s_enc s' = s_enc s -> s_started s' = s_started s ->
  s_ended s' = s_ended s -> s_error s' = s_error s -> s_indents s' = s_indents s -> s_indent s' = s_indent s -> s_cur s' = c' ->
  s_flow s' = s_flow s -> s_keys s' = s_keys s ->
  fetched es s s'.
Proof.
  intros C Hsl Tc P L TA H1 H2 H3 H4 H5 H6 H7. destruct (pos_core _ _ _ _ _ _ _ _ C P) as (E1 & E2 & A). subst t' m'. intros.
  eapply (fetched_append sl); try eassumption.
  - pose proof (c_started _ _ _ _ _ C). congruence.
  - pose proof (c_ended _ _ _ _ _ C). congruence.
  - pose proof (c_error _ _ _ _ _ C). congruence.
  - rewrite H7. assumption.
  - match goal with E1 : s_flow s' = _, E2 : s_keys s' = _ |- _ => rewrite E1, E2 end. eapply keys_step; [apply (c_keys _ _ _ _ _ C)|symmetry; apply (c_flow _ _ _ _ _ C)|exact A|right; exact Tc].
Qed.

Lemma swp_chars n t s1 text m (Q : unit -> sc -> Prop) :
  hold 4 text m (s_cur s1) -> fpos T m -> adv T mark0 text m -> (1 <= n <= 4)%nat -> (n <= length text)%nat ->
  (forall x, In x (firstn n text) -> x <> 0 /\ is_break x = false) ->
  (forall c', pos text m 0 (skipn n text) (next_column (N.of_nat n) m) c' ->
     Q tt (set_tokens (set_cur s1 c') (s_tokens s1 ++ [mkToken t m (next_column (N.of_nat n) m) false]))) ->
  swp (fetch_chars n t) s1 Q eok.
Proof.
  intros H Fm A Hn Hl Hx HQ. unfold fetch_chars. ww. apply swp_lift.
  eapply wp_err; [eapply (p_skip_n text m None n 4 text m); [apply pos_start; exact H|lia|exact Hl|exact Hx|]|].
  - intros t' m' c' P _ -> ->. ww.
    assert (E1 : smark s1 = m) by apply H.
    assert (E2 : smark (set_cur s1 c') = next_column (N.of_nat n) m) by apply P. unfold swp, enqueue, modify.
    rewrite E1, E2. apply HQ. eapply pos_le; [exact P|lia].
  - intros e [[t' K] Cx]. split; [exists t'; eapply adv_trans; eauto|]. destruct Cx as [->| ->]; exact I.
Qed.
Lemma chars_token n t text m : (1 <= n)%nat -> (n <= length text)%nat -> (forall x, In x (firstn n text) -> x <> 0 /\ is_break x = false) ->
  adv text m (skipn n text) (next_column (N.of_nat n) m) ->
  token_at text m (mkToken t m (next_column (N.of_nat n) m) false) (skipn n text) /\ (length (skipn n text) < length text)%nat.
Proof.
  intros H1 H2 H3 A. split; [|rewrite skipn_length; lia]. repeat split. exists (skipn n text). split; auto.
Qed.

Lemma one_char text k : nth 0 text 0 = k -> k <> 0 -> is_break k = false ->
  (1 <= length text)%nat /\ (forall x, In x (firstn 1 text) -> x <> 0 /\ is_break x = false).
Proof.
  intros E Z B. destruct text as [|x r]; cbn [nth] in E; [congruence|]. subst x. cbn [length firstn]. split; [lia|].
  intros y [<-|[]]. auto.
Qed.
Lemma indicator_chars k text : is_indicator k text = true -> k <> 0 -> is_break k = false ->
  (3 <= length text)%nat /\ (forall x, In x (firstn 3 text) -> x <> 0 /\ is_break x = false).
Proof.
  unfold is_indicator, is_triple. intros H Z B. destruct text as [|x [|y [|z r]]]; try discriminate. cbn [length firstn]. split; [lia|].
  assert (x = k /\ y = k /\ z = k) as (-> & -> & ->) by lia. intros w [<-|[<-|[<-|[]]]]; auto.
Qed.

(* removing the key in a state where the invariant holds but for that key *)
Lemma swp_remove_core sl es all s (Q : unit -> sc -> Prop) :
  core T sl es all s -> (core T sl es all (clear_top s) -> Q tt (clear_top s)) -> swp remove_simple_key s Q eok.
Proof.
  intros C HQ. apply swp_remove; [eapply core_top; eauto|eapply here_fpos; eauto|]. apply HQ. apply core_clear. exact C.
Qed.

Lemma fetched_from es s s1 s' : ctext s1 = ctext s -> fetched es s1 s' -> fetched es s s'.
Proof. intros E [H L]. split; auto. rewrite <- E. exact L. Qed.

Lemma fetch_block_scalar_ok es all s lit : at_branch es all s -> nth 0 (ctext s) 0 <> 0 -> is_break (nth 0 (ctext s) 0) = false ->
  swp (fetch_block_scalar lit) s (fun _ s' => fetched es s s') eok.
Proof.
  intros B Z Bk. unfold fetch_block_scalar. apply swp_bind. eapply swp_remove_core; [apply (b_core _ _ _ B)|]. intros C. ww.
  apply swp_lift. eapply wp_err; [eapply p_scan_block_scalar; [exact (branch_hold1 _ _ _ B)|exact Z|exact Bk|]|intros e He; exact (branch_eok _ _ _ _ B He)].
  intros tk t' m' c' P L TA K. ww.
    assert (Hx : is_content tk = true) by (unfold is_content; destruct (t_tok tk); tauto).
    destruct (content_facts tk Hx) as (H1 & H2 & H3 & H4 & H5 & H6 & H7 & H8).
    apply (fetched_from _ _ (clear_top s)); [reflexivity|].
    eapply (removed_append 0 es all (clear_top s) tk t' m' c'); try eassumption; try reflexivity; try lia; try congruence.
    apply clear_top_clear.
Qed.

Lemma fetch_flow_entry_ok es all s : at_branch es all s -> nth 0 (ctext s) 0 = 0x2C ->
  swp fetch_flow_entry s (fun _ s' => fetched es s s') eok.
Proof.
  intros B Z. unfold fetch_flow_entry. apply swp_bind. eapply swp_remove_core; [apply (b_core _ _ _ B)|]. intros C. ww.
  destruct (one_char _ _ Z) as [L1 X1]; [lia|reflexivity|].
  eapply swp_chars; [apply (b_hold _ _ _ B)|exact (branch_fpos _ _ _ B)|exact (branch_adv _ _ _ B)|lia|exact L1|exact X1|].
  intros c' P. destruct (chars_token 1 TFlowEntry (ctext s) (smark s)) as [TA LT]; [lia|exact L1|exact X1|apply P|].
  apply (fetched_from _ _ (clear_top s)); [reflexivity|].
  eapply (removed_append 0 es all (clear_top s)); try eassumption; try reflexivity; try lia; try discriminate.
  - apply clear_top_clear.
Qed.

Lemma keys_pop K F b k ks : keys_ok K F b (k :: ks) -> F <> 0 -> keys_ok K (F - 1) b ks.
Proof.
  intros H. inversion H; subst; [congruence|]. intros _. replace (l + 1 - 1) with l by lia.
  eapply keys_mono; [|eassumption|eassumption]. auto.
Qed.
Lemma fetch_flow_end_ok es all s t : at_branch es all s -> (nth 0 (ctext s) 0 = 0x5D \/ nth 0 (ctext s) 0 = 0x7D) ->
  t = TFlowSeqEnd \/ t = TFlowMapEnd ->
  swp (fetch_flow_collection_end t) s (fun _ s' => fetched es s s') eok.
Proof.
  intros B Z Ht. unfold fetch_flow_collection_end. apply swp_bind. eapply swp_remove_core; [apply (b_core _ _ _ B)|]. intros C.
  assert (X : (1 <= length (ctext s))%nat /\ (forall x, In x (firstn 1 (ctext s)) -> x <> 0 /\ is_break x = false)).
  { destruct Z as [Z|Z]; apply (one_char _ _ Z); try lia; reflexivity. }
  destruct X as [L1 X1]. pose proof (c_keys _ _ _ _ _ C) as CK. pose proof (c_flow _ _ _ _ _ C) as CF.
  apply swp_bind. 
  assert (Fin : forall s1, s_cur s1 = s_cur s -> s_tokens s1 = s_tokens s -> s_parsed s1 = s_parsed s -> s_enc s1 = s_enc s -> s_started s1 = s_started s ->
      s_ended s1 = s_ended s -> s_error s1 = s_error s -> s_indents s1 = s_indents s -> s_indent s1 = s_indent s ->
      s_flow s1 = s_flow s - 1 ->
      (forall x t' m', t_tok x = t -> adv (ctext s) (smark s) t' m' -> keys_ok (key_ok T (all ++ [x]) (s_parsed s) (s_indent s) t' m') (s_flow s - 1) (nlen (all ++ [x])) (s_keys s1)) ->
      swp (allow false ~;; fetch_chars 1 t) s1 (fun _ s' => fetched es s s') eok).
  { intros s1 E1 E2 E3 E4 E5 E6 E7 E8 E9 E10 HK. ww.
    eapply swp_chars; [cbn; rewrite E1; apply (b_hold _ _ _ B)|exact (branch_fpos _ _ _ B)|exact (branch_adv _ _ _ B)|lia|exact L1|exact X1|].
    intros c' P. destruct (chars_token 1 t (ctext s) (smark s)) as [TA LT]; [lia|exact L1|exact X1|apply P|].
    destruct (pos_core _ _ _ _ _ _ _ _ C P) as (Et & Em & A). 
    apply (fetched_from _ _ (clear_top s)); [reflexivity|].
    eapply (fetched_append 0 es all (clear_top s)); try eassumption; try reflexivity; try lia; cbn.
    - rewrite E2. reflexivity.
    - rewrite E5. apply (c_started _ _ _ _ _ C).
    - rewrite E6. apply (c_ended _ _ _ _ _ C).
    - rewrite E7. apply (c_error _ _ _ _ _ C).
    - rewrite Et. exact LT.
    - rewrite Et. exact TA.
    - unfold is_block_token; cbn; destruct Ht as [-> | ->]; reflexivity.
    - destruct Ht as [-> | ->]; discriminate.
    - destruct Ht as [-> | ->]; discriminate.
    - destruct Ht as [-> | ->]; discriminate.
    - unfold is_outer; cbn; destruct Ht as [-> | ->]; discriminate.
    - unfold version_ok; cbn; destruct Ht as [-> | ->]; exact I.
    - unfold flow_after; cbn. rewrite E10. destruct Ht as [-> | ->]; reflexivity.
    - rewrite E10. apply HK; [reflexivity|exact A]. }
  unfold swp at 1, decrease_flow_level. change (s_flow (clear_top s)) with (s_flow s) in *.
  destruct (N.eqb_spec (s_flow s) 0) as [F0|F0].
  - apply Fin; try reflexivity; [cbn; lia|]. intros x t' m' Ex A.
    replace (s_flow s - 1) with (s_flow s) by lia.
    eapply keys_step; [exact CK|symmetry; exact CF|exact A|right; apply clear_top_clear].
  - destruct (core_top _ _ _ _ _ (b_core _ _ _ B)) as (k & ks & Ek & _). unfold clear_top in *. rewrite Ek in *. cbn [s_keys set_keys] in *.
    apply Fin; try reflexivity. intros x t' m' Ex A. cbn [s_keys set_flow set_keys].
    assert (CK' := keys_step _ _ x _ _ _ _ t' m' _ _ CK (eq_sym CF) A (or_intror eq_refl)).
    eapply keys_pop; [exact CK'|exact F0].
Qed.

Lemma fetch_flow_start_ok es all s t : at_branch es all s -> (nth 0 (ctext s) 0 = 0x5B \/ nth 0 (ctext s) 0 = 0x7B) ->
  t = TFlowSeqStart \/ t = TFlowMapStart ->
  swp (fetch_flow_collection_start t) s (fun _ s' => fetched es s s') eok.
Proof.
  intros B Z Ht. pose proof (b_core _ _ _ B) as C. unfold fetch_flow_collection_start. apply swp_bind.
  eapply swp_save; [exact B|]. intros ks Sv.
  assert (X : (1 <= length (ctext s))%nat /\ (forall x, In x (firstn 1 (ctext s)) -> x <> 0 /\ is_break x = false)).
  { destruct Z as [Z|Z]; apply (one_char _ _ Z); try lia; reflexivity. }
  destruct X as [L1 X1]. apply swp_bind. unfold increase_flow_level. w1. w1.
  destruct (_ =? INT_MAX); [split; cbn; [exact (branch_fpos _ _ _ B)|exact I]|]. ww. cbn.
  eapply swp_chars; [apply (b_hold _ _ _ B)|exact (branch_fpos _ _ _ B)|exact (branch_adv _ _ _ B)|lia|exact L1|exact X1|].
  intros c' P. destruct (chars_token 1 t (ctext s) (smark s)) as [TA LT]; [lia|exact L1|exact X1|apply P|].
  destruct (pos_core _ _ _ _ _ _ _ _ C P) as (Et & Em & A).
  eapply (fetched_append 0 es all s); try eassumption; try reflexivity; try lia; cbn.
  - apply (c_started _ _ _ _ _ C).
  - apply (c_ended _ _ _ _ _ C).
  - apply (c_error _ _ _ _ _ C).
  - rewrite Et. exact LT.
  - rewrite Et. exact TA.
  - unfold is_block_token; cbn; destruct Ht as [-> | ->]; reflexivity.
  - destruct Ht as [-> | ->]; discriminate.
  - destruct Ht as [-> | ->]; discriminate.
  - destruct Ht as [-> | ->]; discriminate.
  - unfold is_outer; cbn; destruct Ht as [-> | ->]; discriminate.
  - unfold version_ok; cbn; destruct Ht as [-> | ->]; exact I.
  - unfold flow_after; cbn. destruct Ht as [-> | ->]; reflexivity.
  - apply ko_cons with (b' := nlen (all ++ [mkToken t (smark s) (next_column 1 (smark s)) false])); [lia|discriminate|].
    apply Sv; auto.
    + unfold is_node_token; cbn; destruct Ht as [-> | ->]; reflexivity.
    + rewrite Et. exact LT.
Qed.
End S.
