(* Block structure: the fetchers that open or close block collections. *)
From Verif Require Import Base ReaderModel Utf8Spec CharSpec Types CursorModel ScanModel ScannerModel CursorProofs ScanProofs ScanQuoted ScannerSpec ScannerInv ScannerFetch ScannerBranch.

Section S.
Variable T : list N.
Notation eok := (eok T).
Notation core := (core T).
Notation at_branch := (at_branch T).
Notation fetched := (fetched T).

Definition is_start (t : tok) : Prop := t = TBlockSeqStart \/ t = TBlockMapStart.

(* a new level opens *)
Lemma core_roll es all s col t :
  core 0 es all s -> top_clear (s_keys s) -> s_flow s = 0 -> (s_indent s < col)%Z -> is_start t ->
  core 2 es (all ++ [mkToken t (smark s) (smark s) false])
    (set_tokens (set_indents s col (s_indent s :: s_indents s)) (s_tokens s ++ [mkToken t (smark s) (smark s) false])).
Proof.
  intros C Tc F0 Lt Ht. set (x := mkToken t (smark s) (smark s) false).
  assert (Nx : neutral x) by (intros d; unfold flow_after; destruct Ht as [-> | ->]; reflexivity).
  assert (Bx : forall d, block_after d x = (d + 1)%Z) by (intros d; unfold block_after; destruct Ht as [-> | ->]; reflexivity).
  destruct C as [CA CP CS CE CR Cpos CF CK CI CB CG CM CO CN]. constructor; try assumption.
  - cbn. rewrite CA, app_assoc. reflexivity.
  - cbn. rewrite CF. unfold flow_depth. rewrite flow_from_app. cbn [flow_from fold_left]. rewrite Nx. reflexivity.
  - cbn. rewrite F0 in CK |- *. eapply keys_clear0; eauto.
  - cbn. auto.
  - cbn [s_indents set_tokens set_indents length]. unfold block_depth. rewrite block_from_app. fold (block_depth all).
    cbn [block_from fold_left]. rewrite Bx, CB. lia.
  - destruct CG as [GS GI GV GD (r & GF & GF')]. constructor.
    + apply struct_app. split; auto. fold (flow_depth all) (block_depth all). rewrite <- CF, F0, CB. cbn [struct]. rewrite Bx.
      split; [lia|]. split; [unfold is_outer; destruct Ht as [-> | ->]; discriminate|]. split; [reflexivity|]. split; [lia|exact I].
    + apply implicit_app; auto. apply implicit_none. constructor; [|constructor]. intros [K _]. destruct Ht as [-> | ->]; discriminate.
    + apply Forall_app. split; auto. constructor; [|constructor]. unfold version_ok. destruct Ht as [-> | ->]; exact I.
    + apply Forall_app. split; auto.
    + exists (r ++ [x]). subst all. split; [rewrite GF; reflexivity|]. apply Forall_app. split; auto. constructor; [|constructor].
      unfold not_stream. destruct Ht as [-> | ->]; exact I.
  - apply Forall_app. split; auto. constructor; [|constructor]. split; eexists; exact Cpos.
  - cbn. apply sorted_app. exists (m_index (smark s)). split; auto. cbn [sorted]. change (c_mark (s_cur s)) with (smark s). unfold x, smark; cbn; lia.
  - cbn [s_indents set_tokens set_indents s_cur length]. rewrite app_length. cbn [length]. lia.
Qed.

Lemma clear_top_same s : top_clear (s_keys s) -> clear_top s = s.
Proof.
  destruct s as [? ? ? ? ? ? ? ? ? ? ? ? keys ?]; cbn. destruct keys as [|[po re nu ma] ks]; cbn; [reflexivity|].
  intros ->. reflexivity.
Qed.

Lemma swp_block_start es all s p t (Q : unit -> sc -> Prop) :
  core 0 es all s -> is_start t ->
  (forall sl all1 s1, (sl <= 2)%nat -> core sl es all1 (clear_top s1) -> s_cur s1 = s_cur s -> s_keys s1 = s_keys s ->
     s_flow s1 = s_flow s -> Q tt s1) ->
  swp (block_start p t) s Q eok.
Proof.
  intros C Ht HQ. pose proof (core_clear _ _ _ _ _ C) as C'. pose proof (here_fpos _ _ _ _ _ C) as Hf. unfold block_start. w1. w1.
  destruct (in_flow s) eqn:F.
  - unfold swp, sret. eapply (HQ 0%nat); eauto; lia.
  - destruct (negb (s_allowed s)); [split; cbn; [exact Hf|exact I]|].
    unfold roll_indent. w1. w1. rewrite F. destruct (s_indent s <? Z.of_N (m_column (smark s)))%Z eqn:E.
    + destruct (INT_MAX <? _); [split; cbn; [exact Hf|exact I]|]. unfold swp, sbind, modify, enqueue.
      eapply (HQ 2%nat); try reflexivity; try lia.
      apply (core_roll es all (clear_top s)); auto.
      * apply clear_top_clear.
      * unfold in_flow in F. cbn. destruct (N.eqb_spec (s_flow s) 0); [assumption|discriminate].
      * apply Z.ltb_lt; exact E.
    + unfold swp, sret. eapply (HQ 0%nat); eauto; lia.
Qed.

Lemma pos_same c text m n t' m' c' s1 : s_cur s1 = c -> text = c_text c -> m = c_mark c -> pos text m n t' m' c' -> pos (ctext s1) (smark s1) n t' m' c'.
Proof. intros <- -> ->. auto. Qed.

Lemma fetch_block_entry_ok es all s : at_branch es all s -> nth 0 (ctext s) 0 = 0x2D ->
  swp fetch_block_entry s (fun _ s' => fetched es s s') eok.
Proof.
  intros B Z. unfold fetch_block_entry. apply swp_bind. eapply swp_block_start; [apply (b_core _ _ _ _ B)|left; reflexivity|].
  intros sl all1 s1 Hsl C Ec Ek Ef.
  destruct (one_char _ _ Z) as [L1 X1]; [lia|reflexivity|].
  assert (Em : smark s1 = smark s) by (unfold smark; rewrite Ec; reflexivity).
  apply swp_bind. apply swp_remove; [rewrite Ek; eapply core_top; apply (b_core _ _ _ _ B)|rewrite Em; exact (branch_fpos _ _ _ _ B)|]. ww.
  eapply (swp_chars T 1 _ _ (ctext s) (smark s)); [cbn; rewrite Ec; apply (b_hold _ _ _ _ B)|exact (branch_fpos _ _ _ _ B)|exact (branch_adv _ _ _ _ B)|lia|exact L1|exact X1|].
  intros c' P. destruct (chars_token 1 TBlockEntry (ctext s) (smark s)) as [TA LT]; [lia|exact L1|exact X1|apply P|].
  apply (fetched_from _ _ _ (clear_top s1)); [unfold ctext; cbn; rewrite Ec; reflexivity|].
  assert (E1 : ctext (clear_top s1) = ctext s) by (unfold ctext; cbn; rewrite Ec; reflexivity).
  assert (E2 : smark (clear_top s1) = smark s) by exact Em.
  eapply (removed_append T sl es all1 (clear_top s1)); rewrite ?E1, ?E2; try eassumption; try reflexivity; try lia; try discriminate.
  - apply clear_top_clear.
Qed.

Lemma fetch_key_ok es all s : at_branch es all s -> nth 0 (ctext s) 0 = 0x3F ->
  swp fetch_key s (fun _ s' => fetched es s s') eok.
Proof.
  intros B Z. unfold fetch_key. apply swp_bind. eapply swp_block_start; [apply (b_core _ _ _ _ B)|right; reflexivity|].
  intros sl all1 s1 Hsl C Ec Ek Ef.
  destruct (one_char _ _ Z) as [L1 X1]; [lia|reflexivity|].
  assert (Em : smark s1 = smark s) by (unfold smark; rewrite Ec; reflexivity).
  apply swp_bind. apply swp_remove; [rewrite Ek; eapply core_top; apply (b_core _ _ _ _ B)|rewrite Em; exact (branch_fpos _ _ _ _ B)|]. ww.
  eapply (swp_chars T 1 _ _ (ctext s) (smark s)); [cbn; rewrite Ec; apply (b_hold _ _ _ _ B)|exact (branch_fpos _ _ _ _ B)|exact (branch_adv _ _ _ _ B)|lia|exact L1|exact X1|].
  intros c' P. destruct (chars_token 1 TKey (ctext s) (smark s)) as [TA LT]; [lia|exact L1|exact X1|apply P|].
  apply (fetched_from _ _ _ (clear_top s1)); [unfold ctext; cbn; rewrite Ec; reflexivity|].
  assert (E1 : ctext (clear_top s1) = ctext s) by (unfold ctext; cbn; rewrite Ec; reflexivity).
  assert (E2 : smark (clear_top s1) = smark s) by exact Em.
  eapply (removed_append T sl es all1 (clear_top s1)); rewrite ?E1, ?E2; try eassumption; try reflexivity; try lia; try discriminate.
  - apply clear_top_clear.
  - intros _. cbn. lia.
Qed.

(* lower keys when tokens are put in at a possible key *)
Lemma key_insert a b ins v p i t m t' m' l k F :
  flow_depth a = F -> flow_from F b = F -> l < F -> Forall neutral ins -> neutral v -> (N.to_nat (k_number k) < length a)%nat ->
  adv t m t' m' -> key_ok T (a ++ b) p i t m l k -> key_ok T (a ++ ins ++ b ++ [v]) p i t' m' l k.
Proof.
  intros Fa Fb Ll Ni Nv Ln A K. apply (key_ok_adv _ _ _ _ _ _ _ _ _ _ A) in K. destruct K as [H1 H2 (tk & H3 & H3') H4 H5 H6].
  assert (Z0 : (N.to_nat (k_number k) - length a = 0)%nat) by lia.
  constructor; auto.
  - rewrite firstn_app, Z0 in *. cbn [firstn] in *. rewrite app_nil_r in *. exact H2.
  - exists tk. split; auto. rewrite nth_error_app1 in * by lia. exact H3.
  - rewrite skipn_app, Z0 in *. cbn [skipn] in *. 
    assert (Ff : flow_from l (skipn (N.to_nat (k_number k)) a) = F).
    { rewrite <- Fa. unfold flow_depth at 1. rewrite <- (firstn_skipn (N.to_nat (k_number k)) a) at 2. rewrite flow_from_app.
      rewrite firstn_app, Z0 in H2. cbn [firstn] in H2. rewrite app_nil_r in H2. unfold flow_depth in H2. rewrite H2. reflexivity. }
    apply quiet_insert; [exact Ni|rewrite Ff; lia|]. apply quiet_app in H5 as [H5 H5']. apply quiet_app. split; auto.
    rewrite Ff in H5' |- *. apply quiet_app. split; auto. rewrite Fb. apply quiet_neutral; [constructor; auto|lia].
Qed.

Definition key_tok (m : mark) : token := mkToken TKey m m false.
Definition map_tok (m : mark) : token := mkToken TBlockMapStart m m false.
(* the tokens put in front of the key *)
Definition inserted (s : sc) (m : mark) (ins : list token) (i : Z) (is : list Z) : Prop :=
  (ins = [key_tok m] /\ i = s_indent s /\ is = s_indents s)
  \/ (ins = [map_tok m; key_tok m] /\ s_flow s = 0 /\ (s_indent s < i)%Z /\ i = Z.of_N (m_column m) /\ is = s_indent s :: s_indents s).

Lemma core_value es all s k ks a b ins i is s' c' v :
  core 0 es all s -> fresh s -> s_keys s = k :: ks -> k_possible k = true ->
  all = a ++ b -> length a = N.to_nat (k_number k) -> inserted s (k_mark k) ins i is ->
  es ++ s_tokens s' = a ++ ins ++ b ++ [v] ->
  s_parsed s' = s_parsed s -> s_enc s' = s_enc s -> s_started s' = true -> s_ended s' = false -> s_error s' = None ->
  s_flow s' = s_flow s -> s_indent s' = i -> s_indents s' = is -> s_keys s' = clear_key k :: ks -> s_cur s' = c' ->
  adv (ctext s) (smark s) (c_text c') (c_mark c') -> (length (c_text c') < length (ctext s))%nat ->
  token_at (ctext s) (smark s) v (c_text c') -> t_tok v = TValue ->
  core 0 es (a ++ ins ++ b ++ [v]) s'.
Proof.
  intros C Fr Ek Pk Ea La Hins ET EP EE ES EN ER EF EIn EI EK EC A Ln (TS & TD & te & TA & TL) Hv.
  destruct (Fr k) as [FrL FrI]; [rewrite Ek; left; reflexivity|exact Pk|].
  destruct C as [CA CP CS CE CR Cpos CF CK CI CB CG CM CO CN].
  assert (TK := CK). rewrite Ek in TK. destruct (keys_top _ _ _ _ _ TK Pk) as [Nk KO].
  destruct KO as [KP KL (tk & Ktk & Kst) (t1 & K1 & K2 & K3) KQ KI].
  rewrite <- La in KL, Ktk, KQ. rewrite Ea in KL, Ktk, KQ. rewrite firstn_all_app in KL. rewrite skipn_all_app in KQ.
  rewrite nth_error_app2, Nat.sub_diag in Ktk by lia.
  destruct b as [|tk' b']; [discriminate|]. cbn [nth_error] in Ktk. injection Ktk as ->. set (b := tk :: b') in *.
  assert (Fb : flow_from (s_flow s) b = s_flow s).
  { rewrite CF at 2. rewrite Ea. unfold flow_depth. rewrite flow_from_app. fold (flow_depth a). rewrite KL. reflexivity. }
  assert (Nins : Forall neutral ins).
  { destruct Hins as [(-> & _)|(-> & _)]; repeat constructor; intros d; reflexivity. }
  assert (Nv : neutral v) by (intros d; unfold flow_after; rewrite Hv; reflexivity).
  assert (Bv : forall d, block_after d v = d) by (intros d; unfold block_after; rewrite Hv; reflexivity).
  assert (Tkn : is_node_token tk = true) by (destruct KQ as (_ & Q2 & _); apply Q2; reflexivity).
  assert (Ie : m_index (t_end v) <= m_index (c_mark c')).
  { apply adv_index in TA. apply adv_index in A. unfold nlen in *. lia. }
  assert (Is : m_index (t_start v) <= m_index (t_end v)).
  { rewrite TS. apply adv_len in TA as TL'. apply adv_index in TA. unfold nlen in *. lia. }
  assert (Dn : (block_depth a + block_from 0 b = Z.of_nat (length (s_indents s)))%Z).
  { rewrite <- CB, Ea. unfold block_depth. rewrite block_from_app. rewrite Z.add_comm, <- block_from_add. f_equal. }
  assert (Dm : block_from (block_depth a) b = Z.of_nat (length (s_indents s))).
  { rewrite <- Dn. replace (block_depth a) with (0 + block_depth a)%Z at 1 by lia. rewrite block_from_add. lia. }
  destruct CG as [GS GI GV GD (r & GF & GF')]. rewrite Ea in GS, GI, GV, GD, GF, CM, CO.
  apply struct_app in GS as [GS1 GS2]. fold (flow_depth a) (block_depth a) in GS2. rewrite KL in GS2.
  constructor; auto.
  - congruence.
  - rewrite EC. unfold smark. rewrite EC. eapply adv_trans; [exact Cpos|exact A].
  - rewrite EF. unfold flow_depth. rewrite !flow_from_app. fold (flow_depth a). rewrite KL, (flow_neutral ins) by exact Nins.
    rewrite Fb, flow_neutral by (constructor; [exact Nv|constructor]). reflexivity.
  - unfold smark. rewrite EF, EK, EC, EP, EIn. remember (s_flow s) as F eqn:EFl. rewrite Ek in CK.
    inversion CK as [b0 k0 Hk0|l b0 b1 k0 ks0 Hb0 Hk0 HK0]; subst.
    + constructor. discriminate.
    + destruct (Hk0 Pk) as (Hk1 & Hk2 & _). apply ko_cons with (b' := b1); [|discriminate|].
      * rewrite nlen_app. unfold nlen at 1. lia.
      * refine (keys_mono _ _ _ _ _ _ _ _ HK0); [|lia]. intros l' k' P' N' L' K'.
        assert (Ei : s_indent s' = s_indent s).
        { destruct Hins as [(_ & E & _)|(_ & E & _)]; [exact E|lia]. }
        rewrite Ei. rewrite Ea in K'. eapply key_insert; [exact KL|exact Fb| | | | |exact A|exact K']; auto; lia.
  - rewrite EIn, EI. destruct Hins as [(_ & -> & ->)|(_ & _ & H1 & _ & ->)]; [exact CI|]. cbn. auto.
  - rewrite EI. unfold block_depth. rewrite !block_from_app. fold (block_depth a). cbn [block_from fold_left]. rewrite Bv.
    fold (block_from (block_depth a) ins). 
    destruct Hins as [(-> & _ & ->)|(-> & _ & _ & _ & ->)].
    + exact Dm.
    + change (block_from (block_depth a) [map_tok (k_mark k); key_tok (k_mark k)]) with (block_depth a + 1)%Z.
      change (block_from (block_depth a + 1) b = Z.of_nat (length (s_indent s :: s_indents s))). rewrite block_from_add, Dm. cbn [length]. lia.
  - rewrite EE. constructor.
    + apply struct_app. split; auto. fold (flow_depth a) (block_depth a). rewrite KL.
      assert (SV : forall d, (0 <= d)%Z -> struct (s_flow s) d [v]).
      { intros d Hd. cbn [struct]. rewrite Bv. split; auto. split; [unfold is_outer; rewrite Hv; discriminate|].
        split; [unfold is_block_token; rewrite Hv; discriminate|]. split; [exact Hd|exact I]. }
      pose proof (struct_low _ _ _ GS2) as L0.
      destruct Hins as [(-> & _)|(-> & F0 & _)]; cbn [app struct key_tok map_tok t_tok is_outer is_block_token flow_after block_after].
      * split; [exact L0|]. split; [discriminate|]. split; [discriminate|]. apply struct_app. split; auto. rewrite Fb. apply SV. lia.
      * split; [exact L0|]. split; [discriminate|]. split; [intros _; exact F0|]. split; [lia|]. split; [discriminate|]. split; [discriminate|].
        apply struct_app. split; [eapply struct_lift; eauto|]. rewrite Fb. apply SV. rewrite block_from_add. lia.
    + assert (HV : has_value (s_flow s) (s_flow s) (key_tok (k_mark k)) (b ++ [v])).
      { apply quiet_has_value; auto; cbn [key_tok t_start]; rewrite TS; auto. }
      assert (IB : implicit_ok (s_flow s) (b ++ [v])).
      { apply implicit_app; [rewrite <- KL; apply implicit_suffix; exact GI|]. apply implicit_none. constructor; [|constructor].
        intros [K _]. congruence. }
      assert (IK : implicit_ok (s_flow s) (key_tok (k_mark k) :: b ++ [v])).
      { cbn [implicit_ok]. split; [|exact IB]. intros _. split; auto. exists tk, (b' ++ [v]). auto. }
      apply implicit_app; [eapply implicit_prefix; eauto|]. fold (flow_depth a). rewrite KL.
      destruct Hins as [(-> & _)|(-> & F0 & _)]; cbn [app]; [exact IK|].
      cbn [implicit_ok]. split; [intros [K _]; discriminate|]. exact IK.
    + apply Forall_app in GV as [GV1 GV2]. apply Forall_app. split; auto. apply Forall_app. split.
      * destruct Hins as [(-> & _)|(-> & _)]; repeat constructor; exact I.
      * apply Forall_app. split; auto. constructor; [|constructor]. unfold version_ok. rewrite Hv. exact I.
    + apply Forall_app in GD as [GD1 GD2]. apply Forall_app. split; auto. apply Forall_app. split.
      * destruct Hins as [(-> & _)|(-> & _)]; repeat constructor.
      * apply Forall_app. split; auto.
    + destruct a as [|z a'].
      * cbn [app] in GF. injection GF as E _. rewrite E in Tkn. discriminate.
      * cbn [app] in GF |- *. injection GF as -> E. exists (a' ++ ins ++ b ++ [v]). split; [reflexivity|].
        rewrite <- E in GF'. apply Forall_app in GF' as [G1 G2]. apply Forall_app. split; auto. apply Forall_app. split.
        -- destruct Hins as [(-> & _)|(-> & _)]; repeat constructor; exact I.
        -- apply Forall_app. split; auto. constructor; [|constructor]. unfold not_stream. rewrite Hv. exact I.
  - assert (Fk : fpos T (k_mark k)) by (exists t1; exact K1).
    apply Forall_app in CM as [CM1 CM2]. apply Forall_app. split; auto. apply Forall_app. split.
    + destruct Hins as [(-> & _)|(-> & _)]; repeat constructor; exact Fk.
    + apply Forall_app. split; auto. constructor; [|constructor]. split; [rewrite TS; eexists; exact Cpos|]. exists te. eapply adv_trans; [exact Cpos|exact TA].
  - apply sorted_app in CO as (mid & CO1 & CO2). 
    assert (Hm : mid <= m_index (k_mark k)) by (cbn [sorted b] in CO2; rewrite <- Kst; tauto).
    apply sorted_app. exists (m_index (k_mark k)). split; [eapply sorted_le; eauto|].
    assert (SB : sorted (m_index (k_mark k)) (b ++ [v]) (m_index (smark s'))).
    { apply sorted_app. exists (m_index (smark s)). split.
      - cbn [sorted b] in CO2 |- *. rewrite <- Kst. split; [lia|tauto].
      - cbn [sorted]. rewrite TS at 1. unfold smark at 3. rewrite EC. split; [lia|]. auto. }
    destruct Hins as [(-> & _)|(-> & _)]; cbn [app sorted key_tok map_tok t_start t_end]; repeat (split; [lia|]); exact SB.
  - rewrite EC, EI. rewrite Ea, !app_length in *. cbn [length] in *. unfold ctext in Ln.
    destruct Hins as [(-> & _ & ->)|(-> & _ & _ & _ & ->)]; cbn [length]; lia.
Qed.

Lemma split_at {A} (es q : list A) n : (length es <= n)%nat -> firstn n (es ++ q) = es ++ firstn (n - length es) q /\ skipn n (es ++ q) = skipn (n - length es) q.
Proof.
  intros H. rewrite firstn_app, skipn_app, firstn_all2, skipn_all2 by lia. auto.
Qed.
Lemma fetch_value_ok es all s : at_branch es all s -> nth 0 (ctext s) 0 = 0x3A ->
  swp fetch_value s (fun _ s' => fetched es s s') eok.
Proof.
  intros B Z. pose proof (b_core _ _ _ _ B) as C. unfold fetch_value. w1. w1.
  destruct (one_char _ _ Z) as [L1 X1]; [lia|reflexivity|].
  destruct (core_top _ _ _ _ _ C) as (k & ks & Ek & _). rewrite Ek. apply swp_bind. destruct (k_possible k) eqn:Pk.
  - pose proof (c_keys _ _ _ _ _ C) as CK. rewrite Ek in CK. destruct (keys_top _ _ _ _ _ CK Pk) as [Nk KO]. clear CK.
    pose proof (ko_parsed _ _ _ _ _ _ _ _ KO) as KP. pose proof (ko_indent _ _ _ _ _ _ _ _ KO) as KI. clear KO.
    pose proof (c_all _ _ _ _ _ C) as CA. pose proof (c_parsed _ _ _ _ _ C) as CP.
    set (i := N.to_nat (k_number k - s_parsed s)).
    assert (Hi : (i <= length (s_tokens s))%nat) by (rewrite CA, nlen_app in Nk; unfold nlen in *; lia).
    assert (Hp : (length es <= N.to_nat (k_number k))%nat) by (unfold nlen in *; lia).
    assert (Hpi : (N.to_nat (k_number k) - length es = i)%nat) by (unfold nlen in *; lia).
    destruct (split_at es (s_tokens s) _ Hp) as [F1 F2]. rewrite Hpi, <- CA in F1, F2.
    set (a := firstn (N.to_nat (k_number k)) all) in *. set (b := skipn (N.to_nat (k_number k)) all) in *.
    assert (Ea : all = a ++ b) by (symmetry; apply firstn_skipn).
    assert (La : length a = N.to_nat (k_number k)) by (apply firstn_length_le; unfold nlen in Nk; lia).
    assert (Fin : forall s1 ins i' is', inserted s (k_mark k) ins i' is' -> s_tokens s1 = firstn i (s_tokens s) ++ ins ++ skipn i (s_tokens s) ->
       s_indent s1 = i' -> s_indents s1 = is' -> s_cur s1 = s_cur s -> s_flow s1 = s_flow s -> s_parsed s1 = s_parsed s -> s_enc s1 = s_enc s ->
       s_started s1 = s_started s -> s_ended s1 = s_ended s -> s_error s1 = s_error s -> 
       swp (modify (fun s => set_keys s (mkKey false (k_required k) (k_number k) (k_mark k) :: ks)) ~;; allow false) s1
         (fun _ s2 => swp (fetch_chars 1 TValue) s2 (fun _ s' => fetched es s s') eok) eok).
    { intros s1 ins i' is' Hins E1 E2 E3 E4 E5 E6 E7 E8 E9 E10. ww.
      eapply (swp_chars T 1 _ _ (ctext s) (smark s)); [cbn; rewrite E4; apply (b_hold _ _ _ _ B)|exact (branch_fpos _ _ _ _ B)|exact (branch_adv _ _ _ _ B)|lia|exact L1|exact X1|].
      intros c' P. destruct (chars_token 1 TValue (ctext s) (smark s)) as [TA LT]; [lia|exact L1|exact X1|apply P|].
      destruct (pos_core _ _ _ _ _ _ _ _ _ C P) as (Et & Em & A). rewrite <- Et in TA, LT.
      split; [|exact LT]. exists (a ++ ins ++ b ++ [mkToken TValue (smark s) (next_column 1 (smark s)) false]). split; [|split].
      - eapply (core_value es all s k ks a b ins i' is' _ c' _ C (b_fresh _ _ _ _ B) Ek Pk Ea La Hins); try eassumption; try reflexivity; cbn.
        + rewrite E1, F1, F2, !app_assoc. reflexivity.
        + rewrite E8. apply (c_started _ _ _ _ _ C).
        + rewrite E9. apply (c_ended _ _ _ _ _ C).
        + rewrite E10. apply (c_error _ _ _ _ _ C).
      - rewrite !app_length. cbn [length]. lia.
      - cbn. apply app_cons_not_nil. }
    apply swp_bind. unfold swp at 1, queue_insert. fold i. replace (s_parsed s <=? k_number k) with true by (symmetry; apply N.leb_le; exact KP).
    replace (i <=? length (s_tokens s))%nat with true by (symmetry; apply Nat.leb_le; exact Hi). cbn [andb].
    apply swp_bind. unfold roll_indent. w1. w1. cbn [in_flow s_flow set_tokens s_indent].
    fold (key_tok (k_mark k)).
    change (in_flow (set_tokens s (firstn i (s_tokens s) ++ key_tok (k_mark k) :: skipn i (s_tokens s)))) with (in_flow s).
    assert (Fin1 : swp (modify (fun s => set_keys s (mkKey false (k_required k) (k_number k) (k_mark k) :: ks)) ~;; allow false)
         (set_tokens s (firstn i (s_tokens s) ++ key_tok (k_mark k) :: skipn i (s_tokens s)))
         (fun _ s2 => swp (fetch_chars 1 TValue) s2 (fun _ s' => fetched es s s') eok) eok).
    { apply (Fin _ [key_tok (k_mark k)] (s_indent s) (s_indents s)); try reflexivity. left. auto. }
    destruct (in_flow s) eqn:Fl; [exact Fin1|].
    destruct (s_indent s <? Z.of_N (m_column (k_mark k)))%Z eqn:E; [|exact Fin1].
    destruct (INT_MAX <? _); [split; cbn; [exact (branch_fpos _ _ _ _ B)|exact I]|].
    apply swp_bind. unfold swp at 1, modify.
    unfold swp at 1, queue_insert. cbn [s_parsed set_indents set_tokens s_tokens]. fold i.
    replace (s_parsed s <=? k_number k) with true by (symmetry; apply N.leb_le; exact KP).
    assert (Lf : length (firstn i (s_tokens s)) = i) by (apply firstn_length_le; exact Hi).
    match goal with |- context[(i <=? ?n)%nat] => replace (i <=? n)%nat with true by (symmetry; apply Nat.leb_le; rewrite app_length, Lf; lia) end.
    cbn [andb].
    assert (K1 : forall r, firstn i (firstn i (s_tokens s) ++ r) = firstn i (s_tokens s)) by (intros r; rewrite <- Lf at 1; apply firstn_all_app).
    assert (K2 : forall r, skipn i (firstn i (s_tokens s) ++ r) = r) by (intros r; rewrite <- Lf at 1; apply skipn_all_app).
    rewrite K1, K2.
    apply (Fin _ [map_tok (k_mark k); key_tok (k_mark k)] (Z.of_N (m_column (k_mark k))) (s_indent s :: s_indents s)); try reflexivity.
    right. split; [reflexivity|]. split; [unfold in_flow in Fl; destruct (N.eqb_spec (s_flow s) 0); [assumption|discriminate]|].
    split; [apply Z.ltb_lt; exact E|]. auto.
  - apply swp_bind. eapply swp_block_start; [exact C|right; reflexivity|]. intros sl all1 s1 Hsl C1 Ec Ek1 Ef.
    assert (Em : smark s1 = smark s) by (unfold smark; rewrite Ec; reflexivity).
    assert (Tc : top_clear (s_keys s1)) by (rewrite Ek1, Ek; exact Pk). rewrite (clear_top_same _ Tc) in C1.
    ww.
    eapply (swp_chars T 1 _ _ (ctext s) (smark s)); [cbn; rewrite Ec; apply (b_hold _ _ _ _ B)|exact (branch_fpos _ _ _ _ B)|exact (branch_adv _ _ _ _ B)|lia|exact L1|exact X1|].
    intros c' P. destruct (chars_token 1 TValue (ctext s) (smark s)) as [TA LT]; [lia|exact L1|exact X1|apply P|].
    apply (fetched_from _ _ _ s1); [unfold ctext; rewrite Ec; reflexivity|].
    assert (E1 : ctext s1 = ctext s) by (unfold ctext; rewrite Ec; reflexivity).
    eapply (removed_append T sl es all1 s1); rewrite ?E1, ?Em; try eassumption; try reflexivity; try lia; try discriminate.
Qed.

(* --- document indicators and directives --- *)
Lemma swp_reset es all s (Q : unit -> sc -> Prop) :
  core 0 es all s ->
  (forall all1 s1, core 0 es all1 s1 -> s_cur s1 = s_cur s -> top_clear (s_keys s1) -> (s_flow s1 = 0 -> s_indents s1 = []) -> Q tt s1) ->
  swp reset_block s Q eok.
Proof.
  intros C HQ. pose proof (core_clear _ _ _ _ _ C) as C'. pose proof (here_fpos _ _ _ _ _ C) as Hf. unfold reset_block.
  apply swp_bind. unfold swp at 1, unroll_indent. destruct (in_flow s) eqn:Fl.
  - apply swp_bind. apply swp_remove; [eapply core_top; exact C|exact Hf|]. ww. eapply (HQ all).
    + apply core_allowed. exact C'.
    + reflexivity.
    + apply clear_top_clear.
    + cbn. intros F0. unfold in_flow in Fl. rewrite F0 in Fl. discriminate.
  - assert (Fl' : in_flow (clear_top s) = false) by exact Fl.
    destruct (core_unroll T 0 es all (clear_top s) (-1)%Z C') as (i & is & q & ends & U & CU & _ & Hi); [lia|exact Fl'| |].
    { intros k Ik Pk. exfalso. 
      assert (F0 : s_flow s = 0) by (unfold in_flow in Fl; destruct (N.eqb_spec (s_flow s) 0); [assumption|discriminate]).
      pose proof (c_keys _ _ _ _ _ C') as CK. change (s_flow (clear_top s)) with (s_flow s) in CK. rewrite F0 in CK.
      destruct (keys_0 _ _ _ CK) as (k0 & Ek & _). rewrite Ek in Ik. destruct Ik as [<-|[]].
      pose proof (clear_top_clear s) as Tc. rewrite Ek in Tc. cbn in Tc. congruence. }
    cbn [clear_top s_indent s_indents s_tokens set_keys] in U. change (smark (clear_top s)) with (smark s) in U. rewrite U.
    apply swp_bind. apply swp_remove; [exact (core_top _ _ _ _ _ C)|exact Hf|]. ww. eapply (HQ (all ++ ends)).
    + apply core_allowed. exact CU.
    + reflexivity.
    + apply clear_top_clear.
    + cbn. intros _. auto.
Qed.

Lemma fetch_document_indicator_ok es all s t x : at_branch es all s -> is_indicator x (ctext s) = true -> x = 0x2D \/ x = 0x2E ->
  t = TDocStart \/ t = TDocEnd ->
  swp (fetch_document_indicator t) s (fun _ s' => fetched es s s') eok.
Proof.
  intros B Hx X Ht. unfold fetch_document_indicator. apply swp_bind. eapply swp_reset; [apply (b_core _ _ _ _ B)|].
  intros all1 s1 C Ec Tc Hi.
  destruct (indicator_chars _ _ Hx) as [L1 X1]; [destruct X as [-> | ->]; lia|destruct X as [-> | ->]; reflexivity|].
  assert (E1 : ctext s1 = ctext s) by (unfold ctext; rewrite Ec; reflexivity).
  assert (Em : smark s1 = smark s) by (unfold smark; rewrite Ec; reflexivity).
  eapply (swp_chars T 3 _ _ (ctext s) (smark s)); [rewrite Ec; apply (b_hold _ _ _ _ B)|exact (branch_fpos _ _ _ _ B)|exact (branch_adv _ _ _ _ B)|lia|exact L1|exact X1|].
  intros c' P. destruct (chars_token 3 t (ctext s) (smark s)) as [TA LT]; [lia|exact L1|exact X1|apply P|].
  apply (fetched_from _ _ _ s1); [exact E1|].
  eapply (removed_append T 0 es all1 s1); rewrite ?E1, ?Em; try eassumption; try reflexivity; try lia.
  - destruct Ht as [-> | ->]; reflexivity.
  - destruct Ht as [-> | ->]; discriminate.
  - destruct Ht as [-> | ->]; discriminate.
  - auto.
  - destruct Ht as [-> | ->]; exact I.
  - destruct Ht as [-> | ->]; discriminate.
  - destruct Ht as [-> | ->]; reflexivity.
Qed.

Lemma fetch_directive_ok es all s : at_branch es all s -> nth 0 (ctext s) 0 = 0x25 ->
  swp fetch_directive s (fun _ s' => fetched es s s') eok.
Proof.
  intros B Z. unfold fetch_directive. apply swp_bind. eapply swp_reset; [apply (b_core _ _ _ _ B)|].
  intros all1 s1 C Ec Tc Hi.
  assert (E1 : ctext s1 = ctext s) by (unfold ctext; rewrite Ec; reflexivity).
  assert (Em : smark s1 = smark s) by (unfold smark; rewrite Ec; reflexivity).
  ww. apply swp_lift. rewrite Ec. eapply wp_err; [eapply p_scan_directive; [exact (branch_hold1 _ _ _ _ B)|exact Z|]|intros e He; exact (branch_eok _ _ _ _ _ B He)].
  intros tk t' m' c' P L TA K. ww.
  apply (fetched_from _ _ _ s1); [exact E1|].
  eapply (removed_append T 0 es all1 s1); rewrite ?E1, ?Em; try eassumption; try reflexivity; try lia.
  - unfold is_block_token. destruct (t_tok tk); try destruct K; reflexivity.
  - intros E. rewrite E in K. exact K.
  - intros e E. rewrite E in K. exact K.
  - auto.
  - unfold version_ok. destruct (t_tok tk); try exact I. exists (ctext s). split; [|exact K].
    destruct TA as (-> & _). exact (branch_adv _ _ _ _ B).
  - intros E. rewrite E in K. destruct K.
  - intros d. unfold flow_after. destruct (t_tok tk); try destruct K; reflexivity.
Qed.

(* --- the end of the stream --- *)
(* a position, or the start of the line that is forced after an unfinished one *)
Definition fend (m : mark) : Prop :=
  fpos T m \/ exists m0, fpos T m0 /\ m_column m0 <> 0 /\ m = mkMark (m_index m0) (m_line m0 + 1) 0.
Definition eend (e : serr) : Prop :=
  fend (se_mark e) /\ match se_context e with Some m => fpos T m | None => True end.
Lemma eok_eend e : eok e -> eend e.
Proof. intros [H1 H2]. split; auto. left. exact H1. Qed.
Definition is_end_token (x : token) : Prop := (t_tok x = TBlockEnd \/ t_tok x = TStreamEnd) /\ t_end x = t_start x /\ fend (t_start x).
Definition marks_ok (l : list token) : Prop :=
  Forall (fun x => (fpos T (t_start x) /\ fpos T (t_end x)) \/ is_end_token x) l.

Record complete (e : encoding) (pre : list token) (m : mark) : Prop := {
  cp_good : good T e pre;
  cp_block : flow_depth pre = 0 -> block_depth pre = 0%Z;
  cp_marks : marks_ok pre;
  cp_end : fend m;
  cp_sorted : sorted 0 pre (m_index m);
  cp_count : (length pre <= 4 * length T + 1)%nat }.
Definition end_tok (m : mark) : token := mkToken TStreamEnd m m false.
Record finished (es : list token) (s : sc) : Prop := {
  fi_all : exists pre, es ++ s_tokens s = pre ++ [end_tok (smark s)] /\ complete (s_enc s) pre (smark s);
  fi_parsed : s_parsed s = nlen es;
  fi_started : s_started s = true;
  fi_ended : s_ended s = false;
  fi_error : s_error s = None;
  fi_tokens : s_tokens s <> [];
  fi_keys : forall k, In k (s_keys s) -> k_possible k = true -> fpos T (k_mark k) /\ m_line (k_mark k) < m_line (smark s);
  fi_pos : m_index (smark s) + nlen (c_text (s_cur s)) = nlen T }.

Definition forced (m : mark) : mark := if m_column m =? 0 then m else mkMark (m_index m) (m_line m + 1) 0.
Lemma forced_fend m : fpos T m -> fend (forced m).
Proof.
  intros F. unfold forced. destruct (N.eqb_spec (m_column m) 0); [left; exact F|]. right. exists m. auto.
Qed.
Lemma forced_index m : m_index (forced m) = m_index m.
Proof. unfold forced. destruct (_ =? 0); reflexivity. Qed.
Lemma fresh_forced es all s k : core 0 es all s -> fresh s -> In k (s_keys s) -> k_possible k = true -> m_line (k_mark k) < m_line (forced (smark s)).
Proof.
  intros C Fr Ik Pk. destruct (Fr k Ik Pk) as [L _]. unfold forced. destruct (N.eqb_spec (m_column (smark s)) 0) as [E|E]; cbn; [|lia].
  destruct (keys_in _ _ _ _ _ (c_keys _ _ _ _ _ C) Ik Pk) as (l & _ & K & _). destruct (ko_pos _ _ _ _ _ _ _ _ K) as (t1 & _ & A & Ln).
  pose proof (adv_same_line _ _ _ _ A (eq_sym L)). apply adv_lt_index in A; [lia|exact Ln].
Qed.

Lemma fetch_stream_end_ok es all s : at_branch es all s ->
  swp fetch_stream_end s (fun _ s' => finished es s') eend.
Proof.
  intros B. pose proof (b_core _ _ _ _ B) as C. pose proof (b_fresh _ _ _ _ B) as Fr. pose proof (here_fpos _ _ _ _ _ C) as Hf.
  unfold fetch_stream_end, reset_block. apply swp_bind. unfold swp at 1, lift, force_line.
  match goal with |- swp _ (set_cur s ?c) _ _ => set (c1 := c) end.
  assert (Ec : c_mark c1 = forced (smark s)) by (unfold c1, forced, smark; destruct (_ =? 0); reflexivity).
  assert (Et : c_text c1 = c_text (s_cur s)) by (unfold c1; destruct (_ =? 0); reflexivity).
  clearbody c1. apply swp_bind. apply swp_bind.
  assert (KF : forall k, In k (s_keys s) -> k_possible k = true -> fpos T (k_mark k) /\ m_line (k_mark k) < m_line (forced (smark s))).
  { intros k Ik Pk. split; [eapply key_fpos; eauto|eapply fresh_forced; eauto]. }
  destruct (core_top _ _ _ _ _ C) as (k0 & ks & Ek & Fk0).
  assert (Fin : forall s1 n, s_cur s1 = c1 -> s_keys s1 = s_keys s -> s_tokens s1 = s_tokens s ++ block_ends (forced (smark s)) n ->
     s_parsed s1 = s_parsed s -> s_enc s1 = s_enc s -> s_started s1 = s_started s -> s_ended s1 = s_ended s -> s_error s1 = s_error s ->
     (s_flow s <> 0 /\ n = O \/ s_flow s = 0 /\ n = length (s_indents s)) ->
     swp (remove_simple_key ~;; allow false) s1
       (fun _ s' => swp (s'' <~ get ;; enqueue (end_tok (smark s''))) s' (fun _ s' => finished es s') eend) eend).
  { intros s1 n E1 E2 E3 E4 E5 E6 E7 E8 Hn. assert (Em : smark s1 = forced (smark s)) by (unfold smark at 1; rewrite E1; exact Ec).
    apply swp_bind. unfold swp at 1, remove_simple_key. rewrite E2, Ek. destruct (k_possible k0 && k_required k0) eqn:PR.
    - split; cbn; [rewrite Em; apply forced_fend; exact Hf|]. apply Fk0. destruct (k_possible k0); auto.
    - ww. cbn. change (smark (set_allowed (set_keys s1 (mkKey false (k_required k0) (k_number k0) (k_mark k0) :: ks)) false)) with (smark s1).
      set (pre := all ++ block_ends (forced (smark s)) n).
      assert (Cp : complete (s_enc s1) pre (forced (smark s))).
      { destruct C as [CA CP CS CE CR Cpos CF CK CI CB CG CM CO CN]. destruct CG as [GS GI GV GD (r & GF & GF')].
        constructor.
        - rewrite E5. constructor.
          + apply struct_app. split; auto. fold (flow_depth all) (block_depth all). rewrite CB, <- CF.
            destruct Hn as [(Hn & ->)|(Hn & ->)]; [cbn; split; [lia|exact I]|]. rewrite Hn. apply struct_block_ends. lia.
          + apply implicit_app; auto. apply implicit_none. apply repeat_forall. intros [K _]. discriminate.
          + apply Forall_app. split; auto. apply repeat_forall. exact I.
          + apply Forall_app. split; auto. apply repeat_forall. reflexivity.
          + exists (r ++ block_ends (forced (smark s)) n). unfold pre. rewrite GF. split; [reflexivity|]. apply Forall_app. split; auto. apply repeat_forall. exact I.
        - unfold pre. intros F0. unfold flow_depth in F0. rewrite flow_from_app, flow_block_ends in F0. fold (flow_depth all) in F0.
          unfold block_depth. rewrite block_from_app, block_block_ends. fold (block_depth all). rewrite CB.
          destruct Hn as [(Hn & ->)|(Hn & ->)]; [congruence|]. lia.
        - apply Forall_app. split; [eapply Forall_impl; [|exact CM]; auto|]. apply repeat_forall. right. split; [left; reflexivity|].
          split; [reflexivity|]. apply forced_fend. exact Hf.
        - apply forced_fend. exact Hf.
        - apply sorted_snoc_point; rewrite ?forced_index; auto.
        - unfold pre. rewrite app_length. unfold block_ends. rewrite repeat_length. destruct Hn as [(Hn & ->)|(Hn & ->)]; lia. }
      constructor; cbn; auto.
      + exists pre. change (smark (set_tokens _ _)) with (smark s1). rewrite Em. split; [|exact Cp].
        unfold pre. rewrite E3, (c_all _ _ _ _ _ C), !app_assoc. reflexivity.
      + rewrite E4. apply (c_parsed _ _ _ _ _ C).
      + rewrite E6. apply (c_started _ _ _ _ _ C).
      + rewrite E7. apply (c_ended _ _ _ _ _ C).
      + rewrite E8. apply (c_error _ _ _ _ _ C).
      + apply app_cons_not_nil.
      + change (smark (set_tokens _ _)) with (smark s1). rewrite Em. intros k [<-|Ik] Pk; [discriminate|]. apply KF; auto. rewrite Ek. right. exact Ik.
      + change (smark (set_tokens _ _)) with (smark s1). rewrite Em, E1, Et, forced_index. pose proof (adv_index _ _ _ _ (c_pos _ _ _ _ _ C)) as Ix. cbn in Ix. exact Ix. }
  unfold swp at 1, unroll_indent. change (in_flow (set_cur s c1)) with (in_flow s). destruct (in_flow s) eqn:Fl.
  - eapply (Fin _ 0%nat); try reflexivity.
    + cbn. rewrite app_nil_r. reflexivity.
    + left. split; auto. unfold in_flow in Fl. destruct (N.eqb_spec (s_flow s) 0); [discriminate|assumption].
  - change (smark (set_cur s c1)) with (c_mark c1). cbn [s_indent s_indents s_tokens set_cur]. rewrite Ec.
    destruct (unroll_spec (forced (smark s)) (-1) _ _ (s_tokens s) (c_ind _ _ _ _ _ C)) as (n & i & is & U & O & L & Ln & _); [lia|]. rewrite U.
    eapply (Fin _ n); try reflexivity.
    right. split; [unfold in_flow in Fl; destruct (N.eqb_spec (s_flow s) 0); [assumption|discriminate]|].
    apply indents_low in O as O'. assert (i = (-1)%Z) by lia. subst i. destruct is as [|j r]; [cbn in Ln; lia|]. cbn in O. destruct O as [O1 O2]. apply indents_low in O2. lia.
Qed.
End S.
