(* scan_to_next_token skips exactly what is between two tokens. *)
From Verif Require Import Base ReaderModel Utf8Spec CharSpec Types CursorModel ScanModel CursorProofs RoundSpec LexSpec.

Section Reader.
  Variable E : serr -> Prop.
  Hypothesis HE : forall m, E (mkSerr SReader None m).
  Lemma x_cache k n t m c (Q : unit -> cur -> Prop) : hold n t m c -> (forall c', hold (Nat.max n k) t m c' -> Q tt c') -> wp (cache k) c Q E.
  Proof. intros H HQ. eapply wp_cache; eauto. Qed.
  Lemma x_skip_while p n t m c (Q : unit -> cur -> Prop) : hold n t m c -> (1 <= n)%nat ->
    (forall x, p x = true -> x <> 0) ->
    (forall w t' c', t = w ++ t' -> Forall (fun x => p x = true) w -> hold 1 t' (next_column (nlen w) m) c' -> p (nth 0 t' 0) = false -> Q tt c') ->
    wp (skip_while p) c Q E.
  Proof.
    intros H Hn Hp HQ.
    apply (wp_loop (fun _ c => exists w t', t = w ++ t' /\ Forall (fun x => p x = true) w /\ hold 1 t' (next_column (nlen w) m) c)).
    { exists [], t. split; [reflexivity|]. split; [constructor|]. replace (next_column (nlen (@nil N)) m) with m; [eapply hold_le; eauto|].
      unfold next_column. destruct m. cbn. f_equal; lia. }
    intros _ c1 (w & t1 & T & F & H1). apply wp_bind. eapply wp_check0; eauto.
    destruct (p (nth 0 t1 0)) eqn:P1.
    - destruct (nth0_cons t1 (Hp _ P1)) as [x [r ->]]. cbn [nth] in *.
      apply wp_bind. eapply wp_skip; eauto. intros c2 H2. apply wp_bind. eapply x_cache; [exact H2|]. intros c3 H3. apply wp_ret. split.
      + exists (w ++ [x]), r. split; [rewrite <- app_assoc; exact T|]. split; [apply Forall_app; auto|].
        replace (next_column (nlen (w ++ [x])) m) with (next_column 1 (next_column (nlen w) m)); [eapply hold_le; eauto|].
        unfold next_column. cbn. rewrite nlen_app, nlen_cons, nlen_nil. f_equal; lia.
      + rewrite (proj1 H1), (proj1 H3). cbn [length]. lia.
    - apply wp_ret. eapply HQ; eauto.
  Qed.
End Reader.

Lemma line_step_break t m t' m' : line_step t m t' m' -> exists b, t = b ++ t' /\ line_break b /\ (b = [0xD] -> nth 0 t' 0 <> 0xA) /\ m_column m' = 0.
Proof.
  destruct 1 as [r m|x r m B C].
  - exists [0xD; 0xA]. split; [reflexivity|]. split; [right; reflexivity|]. split; [discriminate|reflexivity].
  - exists [x]. split; [reflexivity|]. split; [left; exists x; auto|]. split; [|reflexivity]. intros [= ->] Y. rewrite Y in C. discriminate.
Qed.

Theorem gap_exact flow key c :
  wp (scan_to_next_token flow key) c (fun key' c' => gap flow key (m_column (c_mark c) =? 0) (c_text c) (c_text c') key')
    (fun e => se_problem e = SReader).
Proof.
  set (t := c_text c). set (m := c_mark c).
  assert (HE : forall m, (fun e => se_problem e = SReader) (mkSerr SReader None m)) by reflexivity.
  unfold scan_to_next_token.
  apply (wp_loop (fun k c1 => forall r k', gap flow k (m_column (c_mark c1) =? 0) (c_text c1) r k' -> gap flow key (m_column m =? 0) t r k')).
  { auto. }
  intros k c1 G. assert (H : hold 0 (c_text c1) (c_mark c1) c1) by (repeat split; lia).
  revert G H. generalize (c_text c1) (c_mark c1). intros t1 m1 G H.
  apply wp_bind. eapply (x_cache _ HE); [exact H|]. intros c2 H2. apply wp_bind. eapply wp_column; [exact H2|].
  apply wp_bind. apply wp_andc. apply wp_ret.
  assert (K : forall b u m3 c3, (b = (m_column m1 =? 0) && (nth 0 t1 0 =? 0xFEFF)) -> t1 = (if b then [0xFEFF] else []) ++ u -> hold 0 u m3 c3 ->
    wp (cache 1 ;;; skip_while (fun x => is_space x || ((flow || negb k) && is_tab x)) ;;; hash <- check 0 (eqc 0x23) ;;
      (if hash then skip_while (fun x => negb (is_breakz x)) else ret tt) ;;; b <- check 0 is_break ;;
      if b then cache 2 ;;; skip_line ;;; ret (inl (if flow then k else true)) else ret (inr k)) c3
     (fun r c' => match r with
        | inl a' => (forall r k', gap flow a' (m_column (c_mark c') =? 0) (c_text c') r k' -> gap flow key (m_column m =? 0) t r k') /\ (length (c_text c') < length t1)%nat
        | inr b => gap flow key (m_column m =? 0) t (c_text c') b end) (fun e => se_problem e = SReader)).
  { intros b u m3 c3 Eb Eu H3. apply wp_bind. eapply (x_cache _ HE); [exact H3|]. intros c4 H4. apply wp_bind.
    eapply (x_skip_while _ HE); [exact H4|lia| |].
    { intros x Hx ->. unfold is_space, is_tab in Hx. rewrite andb_false_r in Hx. discriminate. }
    intros bl t5 c5 -> F5 H5 N5. apply wp_bind. eapply wp_check0; [exact H5|lia|]. apply wp_bind.
    assert (Fb : Forall (blank_here flow k) bl).
    { eapply Forall_impl; [|exact F5]. intros x Hx. unfold is_space, is_tab in Hx. unfold blank_here. destruct flow, k; cbn in Hx; lia. }
    assert (Nb : ~ blank_here flow k (nth 0 t5 0)).
    { intros X. unfold is_space, is_tab in N5. destruct X as [X|[X [Y|Y]]]; rewrite X in N5; [|rewrite Y in N5|rewrite Y in N5; rewrite orb_true_r in N5]; discriminate. }
    assert (Kr : forall cm t6 m6 c6, t5 = cm ++ t6 -> (cm = [] /\ nth 0 t6 0 <> 0x23 \/
       exists s, cm = 0x23 :: s /\ Forall (fun x => is_breakz x = false) s /\ is_breakz (nth 0 t6 0) = true) -> hold 1 t6 m6 c6 ->
      wp (b <- check 0 is_break ;; if b then cache 2 ;;; skip_line ;;; ret (inl (if flow then k else true)) else ret (inr k)) c6
     (fun r c' => match r with
        | inl a' => (forall r k', gap flow a' (m_column (c_mark c') =? 0) (c_text c') r k' -> gap flow key (m_column m =? 0) t r k') /\ (length (c_text c') < length t1)%nat
        | inr b => gap flow key (m_column m =? 0) t (c_text c') b end) (fun e => se_problem e = SReader)).
    { intros cm t6 m6 c6 E6 Hc H6. assert (LG : line_gap flow k (m_column m1 =? 0) t1 t6).
      { exists (if b then [0xFEFF] else []), bl, cm. rewrite <- Eb. split; [rewrite Eu, E6; reflexivity|]. split; [destruct b; reflexivity|]. split; [exact Fb|]. split; [rewrite <- E6; exact Nb|exact Hc]. }
      apply wp_bind. eapply wp_check0; [exact H6|lia|]. destruct (is_break (nth 0 t6 0)) eqn:B6.
      - apply wp_bind. eapply (x_cache _ HE); [exact H6|]. intros c7 H7. apply wp_bind. eapply wp_skip_line; [exact H7|lia|exact B6|].
        intros t8 m8 c8 S8 H8. apply wp_ret. destruct (line_step_break _ _ _ _ S8) as (br & E8 & L8 & N8 & C8). split.
        + intros r k' Gr. apply G. eapply gap_line; [rewrite <- E8; exact LG|exact L8|exact N8|]. destruct H8 as (T8 & M8 & _). rewrite T8, M8, C8 in Gr. exact Gr.
        + rewrite Eu, E6, E8. destruct H8 as (T8 & _). rewrite T8. rewrite !app_length. destruct L8 as [(x & -> & _)| ->]; cbn [length]; lia.
      - apply wp_ret. apply G. rewrite (proj1 H6). apply gap_end; assumption. }
    unfold eqc. destruct (N.eqb_spec (nth 0 t5 0) 0x23) as [X|X].
    - eapply (x_skip_while _ HE); [exact H5|lia| |].
      { intros x Hx ->. discriminate. }
      intros w t6 c6 E6 F6 H6 N6. destruct w as [|x w].
      { cbn [app] in E6. subst t6. rewrite X in N6. discriminate. }
      subst t5. cbn in X. subst x. inversion F6 as [|? ? _ F6']; subst.
      apply (Kr (0x23 :: w) t6 (next_column (nlen (0x23 :: w)) (next_column (nlen bl) m3)) c6); [reflexivity| |exact H6]. right. exists w. split; [reflexivity|]. split; [|destruct (is_breakz (nth 0 t6 0)); [reflexivity|discriminate]].
      eapply Forall_impl; [|exact F6']. intros x Hx. cbv beta in *. destruct (is_breakz x); [discriminate|reflexivity].
    - apply wp_ret. apply (Kr [] t5 (next_column (nlen bl) m3) c5); [reflexivity|left; split; [reflexivity|exact X]|exact H5]. }
  destruct (m_column m1 =? 0) eqn:C1.
  - eapply wp_check0; [exact H2|lia|]. unfold is_bom. destruct (nth 0 t1 0 =? 0xFEFF) eqn:Bm.
    + destruct t1 as [|x u]; [discriminate|]. cbn [nth] in Bm. apply N.eqb_eq in Bm. subst x. apply wp_bind. eapply wp_skip; [apply (hold_le 1%nat _ _ _ _ H2); lia|].
      intros c3 H3. apply (K true u _ c3 eq_refl eq_refl H3).
    + apply wp_bind. apply wp_ret. apply (K false t1 m1 c2 eq_refl eq_refl). eapply hold_le; [exact H2|lia].
  - apply wp_bind. apply wp_ret. apply (K false t1 m1 c2 eq_refl eq_refl). eapply hold_le; [exact H2|lia].
Qed.
