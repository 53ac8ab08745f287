(* Every token fetcher preserves the invariant and makes progress. *)
From Verif Require Import Base ReaderModel Utf8Spec CharSpec Types CursorModel ScanModel ScannerModel CursorProofs ScanProofs ScanQuoted ScannerSpec ScannerInv.

Definition swp {A} (m : sm A) (s : sc) (Q : A -> sc -> Prop) (E : serr -> Prop) : Prop :=
  match m s with SOk a s' => Q a s' | SErr e => E e | SBad => False | SFuel => False end.
Lemma swp_bind {A B} (m : sm A) (k : A -> sm B) s Q E :
  swp m s (fun a s' => swp (k a) s' Q E) E -> swp (sbind m k) s Q E.
Proof. unfold swp, sbind. destruct (m s); auto. Qed.
Lemma swp_mono {A} (m : sm A) s (Q Q' : A -> sc -> Prop) (E E' : serr -> Prop) :
  swp m s Q E -> (forall a s', Q a s' -> Q' a s') -> (forall e, E e -> E' e) -> swp m s Q' E'.
Proof. unfold swp. destruct (m s); auto. Qed.
Lemma swp_lift {A} (m : cm A) s (Q : A -> sc -> Prop) (E : serr -> Prop) :
  wp m (s_cur s) (fun a c => Q a (set_cur s c)) E -> swp (lift m) s Q E.
Proof. unfold swp, lift, wp. destruct (m (s_cur s)); auto. Qed.
Ltac w1 := match goal with
  | |- swp (sbind _ _) _ _ _ => apply swp_bind
  | |- swp (sret _) _ _ _ => unfold swp, sret; cbv beta iota
  | |- swp get ?s ?Q _ => change (Q s s); cbv beta iota
  | |- swp (modify _) _ _ _ => unfold swp at 1, modify; cbv beta iota
  | |- swp (allow _) _ _ _ => unfold swp at 1, allow, modify; cbv beta iota
  | |- swp (enqueue _) _ _ _ => unfold swp at 1, enqueue, modify; cbv beta iota
  end.
Ltac ww := repeat w1.

Section S.
Variable T : list N.

(* an error of the scanner points into the text *)
Definition eok (e : serr) : Prop :=
  fpos T (se_mark e) /\ match se_context e with Some m => fpos T m | None => True end.
Lemma epos_eok t m e : adv T mark0 t m -> epos t m (Some m) e -> eok e.
Proof.
  intros A [[t' H] C]. split; [exists t'; eapply adv_trans; eauto|].
  destruct C as [->| ->]; [exact I|exists t; exact A].
Qed.

Definition top_clear (ks : list skey) : Prop := match ks with k :: _ => k_possible k = false | [] => True end.
Definition clear_key (k : skey) : skey := mkKey false (k_required k) (k_number k) (k_mark k).
Definition clear_top (s : sc) : sc := set_keys s (match s_keys s with k :: ks => clear_key k :: ks | [] => [] end).

Lemma key_ok_adv all p i t m t' m' L k : adv t m t' m' -> key_ok T all p i t m L k -> key_ok T all p i t' m' L k.
Proof.
  intros A [H1 H2 H3 (t1 & H4 & H5 & H6) H7 H8]. constructor; auto.
  exists t1. split; auto. split; [eapply adv_trans; eauto|]. apply adv_len in A. lia.
Qed.
Lemma keys_adv all p i t m t' m' F b ks : adv t m t' m' ->
  keys_ok (key_ok T all p i t m) F b ks -> keys_ok (key_ok T all p i t' m') F b ks.
Proof. intros A. apply keys_mono; [|lia]. intros. eapply key_ok_adv; eauto. Qed.
Lemma keys_clear K F b ks : keys_ok K F b ks -> keys_ok K F b (match ks with k :: r => clear_key k :: r | [] => [] end).
Proof. intros H. destruct H; [constructor|econstructor; eauto]; cbn; discriminate. Qed.
Lemma keys_clear0 K K' b b' ks : keys_ok K 0 b ks -> top_clear ks -> keys_ok K' 0 b' ks.
Proof.
  intros H C. remember 0 as z. destruct H; [|lia]. constructor. cbn in C. congruence.
Qed.
Lemma keys_nonempty K F b ks : keys_ok K F b ks -> exists k r, ks = k :: r.
Proof. destruct 1; eauto. Qed.
Lemma keys_0 K b ks : keys_ok K 0 b ks -> exists k, ks = [k] /\ (k_possible k = true -> k_number k < b /\ K 0 k).
Proof. intros H. remember 0 as z. destruct H; [|lia]. eauto. Qed.
Lemma keys_top K F b k ks : keys_ok K F b (k :: ks) -> k_possible k = true -> k_number k < b /\ K F k.
Proof. intros H P. inversion H; subst; [tauto|]. destruct (H5 P) as (? & ? & ?). auto. Qed.
Lemma keys_in K F b ks k : keys_ok K F b ks -> In k ks -> k_possible k = true -> exists L, L <= F /\ K L k /\ k_number k < b.
Proof.
  induction 1 as [b k0 Hk|l b b' k0 ks Hb Hk HK IH]; intros I P.
  - destruct I as [<-|[]]. exists 0. destruct (Hk P). repeat split; auto; lia.
  - destruct I as [<-|I].
    + exists (l + 1). destruct (Hk P) as (? & ? & ?). repeat split; auto; lia.
    + destruct (IH I P) as (L & ? & ? & ?). exists L. repeat split; auto; lia.
Qed.

Lemma key_step all x p i t m t' m' F L k :
  flow_depth all = F -> adv t m t' m' -> k_number k < nlen all -> L <= F -> (L = F -> is_node_token x = true) ->
  key_ok T all p i t m L k -> key_ok T (all ++ [x]) p i t' m' L k.
Proof.
  intros HF A Nk LF Hx K. apply (key_ok_adv _ _ _ _ _ _ _ _ _ A) in K. destruct K as [H1 H2 (tk & H3 & H3') H4 H5 H6].
  assert (Ln : (N.to_nat (k_number k) < length all)%nat) by (unfold nlen in Nk; lia).
  constructor; auto.
  - rewrite firstn_app. replace (N.to_nat (k_number k) - length all)%nat with 0%nat by lia. cbn [firstn]. rewrite app_nil_r. exact H2.
  - exists tk. split; auto. rewrite nth_error_app1; auto.
  - rewrite skipn_app. replace (N.to_nat (k_number k) - length all)%nat with 0%nat by lia. cbn [skipn].
    apply quiet_app. split; auto.
    assert (Ff : flow_from L (skipn (N.to_nat (k_number k)) all) = F).
    { rewrite <- HF. unfold flow_depth at 1. rewrite <- (firstn_skipn (N.to_nat (k_number k)) all) at 2. rewrite flow_from_app.
      unfold flow_depth in H2. rewrite H2. reflexivity. }
    rewrite Ff. cbn [quiet]. split; [lia|]. split; [intros E; symmetry in E; auto|]. split; [|exact I].
    destruct (N.eq_dec L F) as [E|E].
    + specialize (Hx E). unfold flow_after, is_node_token in *. destruct (t_tok x); try discriminate; lia.
    + unfold flow_after. destruct (t_tok x); lia.
Qed.
(* the key of the current level is not possible, or the new token continues it *)
Lemma keys_step all x p i t m t' m' F ks :
  keys_ok (key_ok T all p i t m) F (nlen all) ks -> flow_depth all = F -> adv t m t' m' ->
  is_node_token x = true \/ top_clear ks ->
  keys_ok (key_ok T (all ++ [x]) p i t' m') F (nlen (all ++ [x])) ks.
Proof.
  intros HK HF A HX. destruct HX as [HX|HX].
  - refine (keys_mono _ _ _ _ _ _ _ _ HK); [intros; eapply key_step; eauto|rewrite nlen_app; lia].
  - remember (nlen all) as B eqn:EB in HK. destruct HK as [b k Hk|l b b' k ks Hb Hk HK]; cbn in HX.
    + constructor. congruence.
    + rewrite nlen_app, nlen_cons, nlen_nil. apply ko_cons with (b' := b'); [lia|congruence|].
      refine (keys_mono _ _ _ _ _ _ _ _ HK); [|lia]. intros L k' P Nk LF K. eapply key_step; eauto; lia.
Qed.
(* the key of the current level is replaced by one that starts with the new token *)
Lemma keys_step_new all x p i t m t' m' F k0 ks k :
  keys_ok (key_ok T all p i t m) F (nlen all) (k0 :: ks) -> flow_depth all = F -> adv t m t' m' ->
  k_number k = nlen all -> key_ok T (all ++ [x]) p i t' m' F k ->
  keys_ok (key_ok T (all ++ [x]) p i t' m') F (nlen (all ++ [x])) (k :: ks).
Proof.
  intros HK HF A HN HX. remember (nlen all) as B eqn:EB in HK. remember (k0 :: ks) as K0 eqn:EK.
  destruct HK as [b k1 Hk|l b b' k1 ks1 Hb Hk HK]; injection EK as E1 E2; subst k1; try subst ks1; try subst ks.
  - constructor. intros _. rewrite nlen_app, nlen_cons, nlen_nil. split; [lia|exact HX].
  - rewrite nlen_app, nlen_cons, nlen_nil. apply ko_cons with (b' := b'); [lia|intros _; split; [lia|split; [lia|exact HX]]|].
    refine (keys_mono _ _ _ _ _ _ _ _ HK); [|lia]. intros L k' P Nk LF K. eapply key_step; eauto; lia.
Qed.

Lemma core_cur sl es all s c' :
  core T sl es all s -> adv (c_text (s_cur s)) (smark s) (c_text c') (c_mark c') -> core T sl es all (set_cur s c').
Proof.
  intros C A. destruct C. constructor; auto.
  - cbn. unfold smark. cbn. eapply adv_trans; eauto.
  - cbn. eapply keys_adv; eauto.
  - cbn. eapply sorted_le; eauto. apply adv_index in A as AI. apply adv_len in A. unfold nlen in AI. unfold smark at 2. cbn. lia.
  - cbn. apply adv_len in A. lia.
Qed.
Lemma core_allowed sl es all s b : core T sl es all s -> core T sl es all (set_allowed s b).
Proof. intros []. constructor; auto. Qed.
Lemma core_clear sl es all s : core T sl es all s -> core T sl es all (clear_top s).
Proof. intros []. constructor; auto. cbn. apply keys_clear. auto. Qed.

(* stale keys *)
Definition fresh (s : sc) : Prop := forall k, In k (s_keys s) -> k_possible k = true ->
  m_line (k_mark k) = m_line (smark s) /\ m_index (smark s) <= m_index (k_mark k) + 1024.
Lemma stale_inl K m F b ks ks' : keys_ok K F b ks -> stale m ks = inl ks' ->
  keys_ok K F b ks' /\ forall k, In k ks' -> k_possible k = true -> In k ks /\ m_line m <= m_line (k_mark k) /\ m_index m <= m_index (k_mark k) + 1024.
Proof.
  intros H. revert ks'. induction H as [b k Hk|l b b' k ks Hb Hk HK IH]; intros ks'; cbn [stale].
  - destruct (k_possible k && _) eqn:E.
    + destruct (k_required k); [discriminate|]. intros [= <-]. split; [constructor; discriminate|].
      intros k' [<-|[]]. discriminate.
    + intros [= <-]. split; [constructor; auto|]. intros k' [<-|[]] P. rewrite P in E. cbn [andb] in E.
      split; [left; reflexivity|lia].
  - destruct (stale m ks) as [r|]; [|discriminate]. destruct (IH r eq_refl) as [IH1 IH2].
    assert (IH2' : forall k0, In k0 r -> k_possible k0 = true -> In k0 (k :: ks) /\ m_line m <= m_line (k_mark k0) /\ m_index m <= m_index (k_mark k0) + 1024).
    { intros k' I P. destruct (IH2 k' I P) as (? & ? & ?). split; [right|]; auto. }
    destruct (k_possible k && _) eqn:E.
    + destruct (k_required k); [discriminate|]. intros [= <-]. split; [econstructor; eauto; discriminate|].
      intros k' [<-|I]; [discriminate|auto].
    + intros [= <-]. split; [econstructor; eauto|]. intros k' [<-|I] P; [|auto]. rewrite P in E. cbn [andb] in E.
      split; [left; reflexivity|lia].
Qed.
Lemma stale_inr m ks e : stale m ks = inr e -> exists k, In k ks /\ k_possible k = true /\ k_mark k = e.
Proof.
  induction ks as [|k ks IH]; cbn [stale]; [discriminate|]. destruct (stale m ks) as [r|e'].
  - destruct (k_possible k && _) eqn:E; [|discriminate]. destruct (k_required k); [|discriminate]. intros [= <-].
    exists k. split; [left; reflexivity|]. split; auto. destruct (k_possible k); auto.
  - intros [= <-]. destruct (IH eq_refl) as (k' & I & P & M). exists k'. split; [right|]; auto.
Qed.
Lemma key_fpos sl es all s k : core T sl es all s -> In k (s_keys s) -> k_possible k = true -> fpos T (k_mark k).
Proof.
  intros C I P. destruct (keys_in _ _ _ _ _ (c_keys _ _ _ _ _ C) I P) as (L & _ & K & _). destruct (ko_pos _ _ _ _ _ _ _ _ K) as (t1 & A & _). exists t1. exact A.
Qed.
Lemma here_fpos sl es all s : core T sl es all s -> fpos T (smark s).
Proof. intros C. eexists. apply (c_pos _ _ _ _ _ C). Qed.

Lemma core_stale sl es all s ks : core T sl es all s -> stale (smark s) (s_keys s) = inl ks ->
  core T sl es all (set_keys s ks) /\ fresh (set_keys s ks).
Proof.
  intros C S. destruct (stale_inl _ _ _ _ _ _ (c_keys _ _ _ _ _ C) S) as [K Fr]. split.
  - destruct C. constructor; auto.
  - intros k I P. cbn in I. destruct (Fr k I P) as (I' & L1 & L2). unfold smark in *. cbn. split; [|lia].
    destruct (keys_in _ _ _ _ _ (c_keys _ _ _ _ _ C) I' P) as (L & _ & K' & _). destruct (ko_pos _ _ _ _ _ _ _ _ K') as (t1 & _ & A & _).
    apply adv_line_le in A. unfold smark in A. lia.
Qed.
Lemma swp_stale sl es all s (Q : unit -> sc -> Prop) :
  core T sl es all s -> (forall ks, core T sl es all (set_keys s ks) -> fresh (set_keys s ks) -> Q tt (set_keys s ks)) ->
  swp stale_simple_keys s Q eok.
Proof.
  intros C HQ. unfold swp, stale_simple_keys. destruct (stale (smark s) (s_keys s)) as [ks|m] eqn:S.
  - destruct (core_stale _ _ _ _ _ C S). auto.
  - split; cbn; [eapply here_fpos; eauto|]. destruct (stale_inr _ _ _ S) as (k & I & P & <-). eapply key_fpos; eauto.
Qed.

(* removing the key of the current level *)
Lemma swp_remove s (Q : unit -> sc -> Prop) :
  (exists k ks, s_keys s = k :: ks /\ (k_possible k = true -> fpos T (k_mark k))) -> fpos T (smark s) ->
  Q tt (clear_top s) -> swp remove_simple_key s Q eok.
Proof.
  intros (k & ks & E & Hk) Hm HQ. unfold swp, remove_simple_key, clear_top in *. rewrite E in *.
  destruct (k_possible k) eqn:P; cbn [andb]; [destruct (k_required k) eqn:R|].
  - split; cbn; auto.
  - unfold clear_key in HQ. rewrite R in HQ. exact HQ.
  - exact HQ.
Qed.
Lemma core_top sl es all s : core T sl es all s -> exists k ks, s_keys s = k :: ks /\ (k_possible k = true -> fpos T (k_mark k)).
Proof.
  intros C. destruct (keys_nonempty _ _ _ _ (c_keys _ _ _ _ _ C)) as (k & ks & E). exists k, ks. split; auto.
  intros P. eapply key_fpos; eauto. rewrite E. left. reflexivity.
Qed.
Lemma clear_top_clear s : top_clear (s_keys (clear_top s)).
Proof. unfold clear_top. cbn. destruct (s_keys s); cbn; auto. Qed.

(* block ends *)
Definition block_ends (m : mark) (n : nat) : list token := repeat (mkToken TBlockEnd m m false) n.
Lemma unroll_spec m col : forall is i q, indents_ok i is -> (-1 <= col)%Z ->
  exists n i' is', unroll m col i is q = Some (i', is', q ++ block_ends m n) /\ indents_ok i' is' /\ (i' <= col)%Z
    /\ length is = (n + length is')%nat /\ ((i <= col)%Z -> n = O /\ i' = i /\ is' = is) /\ (i' <= i)%Z.
Proof.
  induction is as [|j r IH]; intros i q H Hc; cbn [unroll].
  - cbn in H. subst i. destruct (Z.ltb_spec col (-1)); [lia|].
    exists O, (-1)%Z, []. cbn. rewrite app_nil_r. repeat split; auto; lia.
  - cbn in H. destruct H as [H1 H2]. destruct (Z.ltb_spec col i).
    + destruct (IH j (q ++ [mkToken TBlockEnd m m false]) H2 Hc) as (n & i' & is' & U & O & L & N & _ & Le).
      exists (S n), i', is'. rewrite U. cbn [block_ends repeat length]. rewrite <- app_assoc. split; [reflexivity|]. split; [exact O|]. split; [exact L|]. split; [lia|]. split; lia.
    + exists O, i, (j :: r). cbn. rewrite app_nil_r. repeat split; auto; lia.
Qed.

Lemma flow_block_ends m n d : flow_from d (block_ends m n) = d.
Proof. apply flow_neutral. unfold block_ends. induction n; constructor; auto. intros x. reflexivity. Qed.
Lemma block_block_ends m n d : block_from d (block_ends m n) = (d - Z.of_nat n)%Z.
Proof.
  revert d. unfold block_ends. induction n as [|n IH]; intros d; cbn [repeat]; [cbn; lia|].
  cbn [block_from fold_left block_after t_tok]. unfold block_from in IH. rewrite IH. lia.
Qed.
Lemma struct_block_ends m n d : (Z.of_nat n <= d)%Z -> struct 0 d (block_ends m n).
Proof.
  revert d. unfold block_ends. induction n as [|n IH]; intros d H; cbn [repeat struct]; (split; [lia|]); auto.
  split; [discriminate|]. split; [reflexivity|]. apply IH. unfold block_after. cbn. lia.
Qed.
Lemma implicit_none l : Forall (fun x => ~ is_implicit_key x) l -> forall f, implicit_ok f l.
Proof. induction 1; intros f; cbn [implicit_ok]; auto. split; auto. tauto. Qed.
Lemma repeat_forall {A} (P : A -> Prop) x n : P x -> Forall P (repeat x n).
Proof. induction n; constructor; auto. Qed.
Lemma sorted_snoc_point lo l hi m n : sorted lo l hi -> hi = m_index m -> sorted lo (l ++ block_ends m n) hi.
Proof.
  intros H ->. apply sorted_app. exists (m_index m). split; auto. unfold block_ends. induction n as [|n IH]; cbn [repeat sorted t_start t_end]; [lia|]. split; [lia|]. split; [lia|exact IH].
Qed.

Lemma core_unroll sl es all s col :
  core T sl es all s -> (-1 <= col)%Z -> in_flow s = false ->
  (forall k, In k (s_keys s) -> k_possible k = true -> (s_indent s <= col)%Z) ->
  exists i is q ends, unroll (smark s) col (s_indent s) (s_indents s) (s_tokens s) = Some (i, is, q)
    /\ core T sl es (all ++ ends) (set_tokens (set_indents s i is) q) /\ (i <= col)%Z /\ (col = (-1)%Z -> is = []).
Proof.
  intros C Hc Hf Hk. destruct C as [CA CP CS CE CR Cpos CF CK CI CB CG CM CO CN].
  destruct (unroll_spec (smark s) col _ _ (s_tokens s) CI Hc) as (n & i & is & U & O & L & Ln & Same & Le).
  assert (F0 : s_flow s = 0) by (unfold in_flow in Hf; destruct (N.eqb_spec (s_flow s) 0); auto; discriminate).
  exists i, is, (s_tokens s ++ block_ends (smark s) n), (block_ends (smark s) n). split; [exact U|]. split; [|split; [exact L|]].
  2:{ intros ->. apply indents_low in O as O'. assert (i = (-1)%Z) by lia. subst i. destruct is as [|j r]; auto. cbn in O. destruct O as [O1 O2]. apply indents_low in O2. lia. }
  constructor; try assumption.
  - cbn. rewrite CA, app_assoc. reflexivity.
  - cbn. rewrite CF. unfold flow_depth. rewrite flow_from_app, flow_block_ends. reflexivity.
  - cbn. rewrite F0 in CK |- *. destruct (keys_0 _ _ _ CK) as (k & Ek & Hk0). rewrite Ek. constructor. intros P.
    assert (s_indent s <= col)%Z by (apply (Hk k); auto; rewrite Ek; left; reflexivity).
    destruct (Same H) as (-> & -> & ->). cbn. rewrite app_nil_r. auto.
  - cbn. unfold block_depth. rewrite block_from_app, block_block_ends. fold (block_depth all). rewrite CB. lia.
  - destruct CG as [GS GI GV GD (r & GF & GF')]. constructor; try assumption.
    + apply struct_app. split; auto. fold (flow_depth all) (block_depth all). rewrite <- CF, F0, CB. apply struct_block_ends. lia.
    + apply implicit_app; auto. apply implicit_none. apply repeat_forall. intros [K _]. discriminate.
    + apply Forall_app. split; auto. apply repeat_forall. exact I.
    + apply Forall_app. split; auto. apply repeat_forall. reflexivity.
    + exists (r ++ block_ends (smark s) n). subst all. split; [rewrite GF; reflexivity|]. apply Forall_app. split; auto. apply repeat_forall. exact I.
  - apply Forall_app. split; auto. apply repeat_forall. cbn. split; eexists; exact Cpos.
  - cbn. apply sorted_snoc_point; auto.
  - cbn. rewrite app_length. unfold block_ends. rewrite repeat_length. lia.
Qed.

(* one token at the end of the queue *)
Lemma core_append sl es all s x s' c' :
  core T sl es all s ->
  s_tokens s' = s_tokens s ++ [x] -> s_parsed s' = s_parsed s -> s_enc s' = s_enc s -> s_started s' = true ->
  s_ended s' = false -> s_error s' = None -> s_indents s' = s_indents s -> s_indent s' = s_indent s -> s_cur s' = c' ->
  adv (c_text (s_cur s)) (smark s) (c_text c') (c_mark c') -> (length (c_text c') < length (c_text (s_cur s)))%nat ->
  token_at (c_text (s_cur s)) (smark s) x (c_text c') ->
  is_block_token x = false -> t_tok x <> TStreamEnd -> (forall e, t_tok x <> TStreamStart e) ->
  (t_tok x = TKey -> m_index (t_start x) < m_index (t_end x)) ->
  (is_outer x = true -> s_flow s = 0 -> s_indents s = []) ->
  version_ok T x ->
  s_flow s' = flow_after (s_flow s) x ->
  keys_ok (key_ok T (all ++ [x]) (s_parsed s) (s_indent s) (c_text c') (c_mark c')) (s_flow s') (nlen (all ++ [x])) (s_keys s') ->
  (sl <= 3)%nat ->
  core T 0 es (all ++ [x]) s'.
Proof.
  intros C ET EP EE ES EN ER EI EIn EC A Ln (TS & TD & te & TA & TL) NB NE NS NK NO HV EF HK Hsl.
  destruct C as [CA CP CS CE CR Cpos CF CK CI CB CG CM CO CN].
  assert (Bx : forall d, block_after d x = d) by (intros d; unfold block_after, is_block_token in *; destruct (t_tok x); auto; discriminate).
  assert (Ls : (length (c_text c') <= length te)%nat) by exact TL.
  assert (Ie : m_index (t_end x) <= m_index (c_mark c')).
  { apply adv_index in TA. apply adv_index in A. unfold nlen in *. lia. }
  assert (Is : m_index (t_start x) <= m_index (t_end x)).
  { rewrite TS. apply adv_len in TA as TL'. apply adv_index in TA. unfold nlen in *. lia. }
  constructor; try assumption.
  - rewrite ET, app_assoc, <- CA. reflexivity.
  - congruence.
  - rewrite EC. unfold smark. rewrite EC. eapply adv_trans; eauto.
  - rewrite EF. unfold flow_depth. rewrite flow_from_app. fold (flow_depth all). rewrite <- CF. reflexivity.
  - unfold smark. rewrite EP, EIn, EC. exact HK.
  - rewrite EI, EIn. exact CI.
  - unfold block_depth. rewrite block_from_app. cbn [block_from fold_left]. rewrite Bx, EI. exact CB.
  - rewrite EE. destruct CG as [GS GI GV GD (r & GF & GF')]. constructor.
    + apply struct_app. split; auto. fold (flow_depth all) (block_depth all). rewrite <- CF, CB. cbn [struct].
      split; [lia|]. split; [|split; [|split; [rewrite Bx; lia|exact I]]].
      * intros O F. rewrite NO; auto.
      * congruence.
    + apply implicit_app; auto. apply implicit_none. constructor; [|constructor]. intros [K1 K2]. specialize (NK K1). rewrite K2 in NK. lia.
    + apply Forall_app. auto.
    + apply Forall_app. auto.
    + exists (r ++ [x]). rewrite GF. split; [reflexivity|]. apply Forall_app. split; auto. constructor; [|constructor].
      unfold not_stream. destruct (t_tok x); auto. eapply NS; reflexivity.
  - apply Forall_app. split; auto. constructor; [|constructor]. split; [rewrite TS; eexists; exact Cpos|]. exists te. eapply adv_trans; eauto.
  - apply sorted_app. exists (m_index (smark s)). split; auto. cbn [sorted]. rewrite TS at 1. unfold smark at 3. rewrite EC.
    split; [lia|]. split; auto.
  - rewrite app_length, EI, EC. cbn [length]. lia.
Qed.
End S.
