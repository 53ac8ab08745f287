(* A text that ends because the input cannot be read further is never taken for a complete one (C72). *)
From Verif Require Import Base ReaderModel Utf8Spec CharSpec Types CursorModel ScanModel ScannerModel CursorProofs ScanProofs ScanQuoted ScannerSpec ScannerInv ScannerFetch ScannerBranch ScannerBlock ScannerLoop ScannerFinal LexemeRun LexemeLoop Prefix.
From Verif Require PlainExact.

Lemma wp_cut {A} (m : cm A) c Q E : pre [] m -> cut c -> wp m c Q E -> wp m c (fun a c' => Q a c' /\ cut c') E.
Proof. intros P W. specialize (P c W). unfold wp. destruct (m c); auto. intros H. split; [exact H|exact (proj2 P)]. Qed.
Lemma swp_cut {A} (m : sm A) s Q E : spre [] m -> cut (s_cur s) -> swp m s Q E -> swp m s (fun a s' => Q a s' /\ cut (s_cur s')) E.
Proof. intros P W. specialize (P s W). unfold swp. destruct (m s); auto. intros H. split; [exact H|exact (proj2 P)]. Qed.
Lemma adv_in t m t' m' : adv t m t' m' -> forall x, In x t' -> In x t.
Proof. intros A x I. destruct (PlainExact.adv_suffix _ _ _ _ A) as (w & ->). apply in_or_app. right. exact I. Qed.

Section S.
Variable T : list N.
Hypothesis no_nul : ~ In 0 T.
Notation eok := (eok T).
Notation eend := (eend T).
Notation core := (core T).
Notation at_branch := (at_branch T).
Notation fetched := (fetched T).

Lemma fetch_next_cut0 es all s : core 0 es all s -> cut (s_cur s) -> swp fetch_next_token s (fun _ s' => fetched es s s') eend.
Proof.
  intros C0 K0. unfold fetch_next_token. apply swp_bind, swp_lift.
  eapply wp_mono; [apply (wp_cut _ _ _ _ (pre_cache [] 1) K0 (cache_core T _ _ _ 1 C0))| |apply eok_eend]. intros _ c1 ((C1 & H1) & K1). cbv beta.
  assert (X1 : ctext (set_cur s c1) = ctext s) by (destruct H1 as (E & _); exact E).
  apply hold_self in H1. w1. w1. rewrite (c_started _ _ _ _ _ C1). cbn [negb].
  apply swp_bind, swp_lift. eapply wp_mono; [eapply wp_cut; [apply pre_scan_to_next_token|exact K1|eapply (p_scan_to_next_token (ctext (set_cur s c1)) (smark (set_cur s c1)) None); [apply pos_start; exact H1|]]| |].
  - intros a t' m' c' P. intros. exact (ex_intro _ t' (ex_intro _ m' P)).
  - cbv beta. intros a c2 ((t' & m' & P2) & K2). w1. w1.
    destruct (pos_core _ _ _ _ _ _ _ _ _ C1 P2) as (_ & _ & A2).
    assert (C2 : core 0 es all (set_allowed (set_cur (set_cur s c1) c2) a)).
    { apply core_allowed, core_cur; [exact C1|exact A2]. }
    assert (X2 : (length (ctext (set_allowed (set_cur (set_cur s c1) c2) a)) <= length (ctext s))%nat).
    { rewrite <- X1. apply adv_len in A2. exact A2. }
    assert (K2' : cut (s_cur (set_allowed (set_cur (set_cur s c1) c2) a))) by exact K2.
    set (s2 := set_allowed (set_cur (set_cur s c1) c2) a) in *. clearbody s2. clear H1 X1 P2 A2 C1 K2.
    apply swp_bind. eapply swp_err; [|apply eok_eend]. eapply swp_stale; [exact C2|]. intros ks C3 Fr3.
    assert (X3 : (length (ctext (set_keys s2 ks)) <= length (ctext s))%nat) by exact X2.
    assert (K3 : cut (s_cur (set_keys s2 ks))) by exact K2'.
    set (s3 := set_keys s2 ks) in *. clearbody s3. clear s2 C2 X2 K2'. w1. w1. apply swp_bind.
    assert (Fin : forall all4 s4, core 0 es all4 s4 -> fresh s4 -> (s_flow s4 = 0 -> (s_indent s4 <= Z.of_N (m_column (smark s4)))%Z) ->
       in_flow s4 = in_flow s3 -> (length (ctext s4) <= length (ctext s))%nat -> cut (s_cur s4) ->
       swp (lift (cache 4) ~;; b <~ lift (choose (in_flow s3));; fetch_branch b) s4 (fun _ s' => fetched es s s') eend).
    { intros all4 s4 C4 Fr4 I4 F4 X4 K4. apply swp_bind, swp_lift.
      eapply wp_mono; [apply (wp_cut _ _ _ _ (pre_cache [] 4) K4 (cache_core T _ _ _ 4 C4))| |apply eok_eend]. intros _ c5 ((C5 & H5) & K5). cbv beta.
      assert (X5 : ctext (set_cur s4 c5) = ctext s4) by (destruct H5 as (E & _); exact E).
      assert (M5 : smark (set_cur s4 c5) = smark s4) by (destruct H5 as (_ & E & _); exact E).
      apply hold_self in H5. apply swp_bind, swp_lift.
      eapply wp_mono; [eapply (p_choose (c_text c5) (c_mark c5) None (in_flow s3)); [apply pos_start; exact H5|]| |].
      - intros b Hb. refine (_ : (fun b c => choose_ok (in_flow s3) (c_text c5) (c_mark c5) b /\ c = c5) b c5). auto.
      - cbv beta. intros b c [Hb ->]. change (set_cur (set_cur s4 c5) c5) with (set_cur s4 c5).
        assert (Nb : b <> BStreamEnd).
        { intros ->. cbn [choose_ok] in Hb. destruct H5 as (_ & _ & Hu). destruct K5 as [_ Ku]. pose proof (c_pos _ _ _ _ _ C5) as A5. cbn [set_cur s_cur] in A5.
          apply no_nul, (adv_in _ _ _ _ A5). destruct (c_text c5) as [|x r]; [cbn in Ku; lia|]. cbn in Hb. left. exact Hb. }
        eapply swp_mono; [eapply (fetch_branch_ok1 T es all4)| |auto].
        + constructor; [exact C5| | |exact H5].
          * unfold fresh in *. rewrite M5. exact Fr4.
          * rewrite M5. exact I4.
        + change (in_flow (set_cur s4 c5)) with (in_flow s4). rewrite F4. exact Hb.
        + exact Nb.
        + cbv beta. intros a' s' H. destruct H as [H L]. split; [exact H|]. rewrite X5 in L. lia.
      - intros e He. apply eok_eend. eapply epos_eok; [apply (c_pos _ _ _ _ _ C5)|]. destruct He as [He Hc]. split; [exact He|].
        destruct Hc as [->| ->]; auto. }
    unfold swp at 1, unroll_indent. destruct (in_flow s3) eqn:F3.
    + eapply Fin; eauto. intros F0. unfold in_flow in F3. rewrite F0 in F3. discriminate.
    + destruct (core_unroll T 0 es all s3 (Z.of_N (m_column (smark s3))) C3) as (i & is & q & ends & U & CU & Li & _).
      * lia.
      * exact F3.
      * intros k Ik Pk. eapply fresh_column; eauto.
      * rewrite U. eapply Fin; [exact CU|exact Fr3| |exact F3|exact X3|exact K3]. intros _. exact Li.
  - intros e He. apply eok_eend. eapply epos_eok; [apply (c_pos _ _ _ _ _ C1)|]. destruct He as [He Hc]. split; [exact He|].
    destruct Hc as [->| ->]; auto.
Qed.
Lemma fetch_next_cut es all s : core 0 es all s -> cut (s_cur s) -> swp fetch_next_token s (fun _ s' => fetched es s s' /\ cut (s_cur s')) eend.
Proof. intros C K. apply swp_cut; [apply spre_next|exact K|]. eapply fetch_next_cut0; eauto. Qed.

Definition ready_cut (es : list token) (s : sc) : Prop :=
  s_tokens s <> [] /\ cut (s_cur s) /\ exists all, core 0 es all s /\ head_may_be_key s = false.
Lemma fetch_more_cut n : forall es all s, core 0 es all s -> cut (s_cur s) -> (length (ctext s) + 2 <= n)%nat ->
  swp (fetch_more_n n) s (fun _ s' => ready_cut es s') eend.
Proof.
  induction n as [|n IH]; intros es all s C K Hn; [lia|].
  assert (Step : forall s1, core 0 es all s1 -> cut (s_cur s1) -> (length (ctext s1) <= length (ctext s))%nat ->
     swp (fetch_next_token ~;; fetch_more_n n) s1 (fun _ s' => ready_cut es s') eend).
  { intros s1 C1 K1 L1. apply swp_bind. eapply swp_mono; [eapply fetch_next_cut; [exact C1|exact K1]| |auto]. intros _ s2 [[(all' & C2 & _ & _) L2] K2].
    eapply IH; [exact C2|exact K2|lia]. }
  apply fetch_more_step. destruct (s_tokens s) as [|t q] eqn:Et.
  - w1. w1. apply Step; auto.
  - apply swp_bind. apply swp_bind. eapply swp_err; [|apply eok_eend]. eapply swp_stale; [exact C|]. intros ks C1 Fr. ww.
    destruct (head_may_be_key (set_keys s ks)) eqn:H.
    + eapply swp_err; [apply Step; auto|]. auto.
    + unfold swp, modify. split; [cbn; congruence|]. split; [exact K|]. exists all. split; [apply core_avail; exact C1|exact H].
Qed.

Inductive live_cut (e : encoding) (es : list token) (s : sc) : Prop :=
| lc_init nest plan : es = [] -> s = init_scanner e nest T true plan -> live_cut e es s
| lc_run all : core 0 es all s -> s_avail s = false -> cut (s_cur s) -> live_cut e es s.
Lemma scan_step_cut e es s : live_cut e es s ->
  match scan s with ScanToken t s' => t_tok t <> TStreamEnd /\ live_cut e (es ++ [undeep t]) s' | ScanNothing _ => False | _ => True end.
Proof.
  intros L. unfold scan. destruct L as [nest plan -> ->|all C Av K].
  - cbn [s_ended s_error init_scanner s_avail orb].
    assert (K : cut (s_cur (init_scanner e nest T true plan))) by (split; [reflexivity|cbn; lia]).
    pose proof (swp_cut _ _ _ _ (spre_more_tokens []) K (first_fetch T e nest true plan)) as H. unfold swp in H.
    destruct (fetch_more_tokens (init_scanner e nest T true plan)) as [u s'|er| |]; try contradiction; [|exact I].
    destruct H as ((C & Hk & Et) & K'). rewrite Et. destruct (dequeue_core T _ _ _ _ _ C Hk Et) as (C' & _ & _). cbn [app] in *.
    rewrite (c_ended _ _ _ _ _ C). split; [discriminate|]. apply lc_run with (all := [start_tok e]); [exact C'|reflexivity|exact K'].
  - rewrite (c_ended _ _ _ _ _ C), (c_error _ _ _ _ _ C), Av. cbn [orb].
    assert (H : swp fetch_more_tokens s (fun _ s' => ready_cut es s') eend).
    { unfold swp, fetch_more_tokens. apply (fetch_more_cut (length (ctext s) + 3) es all s C K). lia. }
    unfold swp in H. destruct (fetch_more_tokens s) as [u s'|er| |]; try contradiction; [|exact I].
    destruct H as (Nt & K' & all' & C' & Hk).
    destruct (s_tokens s') as [|t q] eqn:Et; [congruence|]. destruct (dequeue_core T _ _ _ _ _ C' Hk Et) as (C2 & E2 & D2).
    rewrite (c_ended _ _ _ _ _ C'), E2. cbn [orb]. split; [cbn; intros E; rewrite E in E2; discriminate|]. apply lc_run with (all := all'); [|reflexivity|exact K'].
    unfold undeep. cbn. destruct t as [tt ts te td]. cbn in *. subst td. exact C2.
Qed.
Lemma never_ended e n : forall es s, live_cut e es s -> snd (scan_all n s) <> Ended.
Proof.
  induction n as [|n IH]; intros es s L; cbn [scan_all]; [discriminate|]. pose proof (scan_step_cut e es s L) as K.
  destruct (scan s) as [t s'|s'|s'| |]; try discriminate; [|contradiction|].
  - destruct K as [_ K]. specialize (IH _ _ K). destruct (scan_all n s'). exact IH.
  - cbn. destruct (s_error s'); discriminate.
Qed.
Lemma no_end_token e n : forall es s, live_cut e es s -> Forall (fun t => t_tok t <> TStreamEnd) (fst (scan_all n s)).
Proof.
  induction n as [|n IH]; intros es s L; cbn [scan_all]; [constructor|]. pose proof (scan_step_cut e es s L) as K.
  destruct (scan s) as [t s'|s'|s'| |]; try constructor. destruct K as [K1 K]. specialize (IH _ _ K). destruct (scan_all n s'). cbn. constructor; assumption.
Qed.
End S.
