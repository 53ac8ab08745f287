(* Every token scanner is safe, terminates, and moves forward in the text. *)
From Verif Require Import Base ReaderModel Utf8Spec CharSpec Types CursorModel ScanModel CursorProofs.

(* The cursor is at text [t] and mark [m], reached from [t0] and [m0]. *)
Definition pos (t0 : list N) (m0 : mark) (n : nat) (t : list N) (m : mark) (c : cur) : Prop :=
  hold n t m c /\ adv t0 m0 t m.

Ltac cls := unfold is_blankz, is_spacez, is_breakz, is_blank, is_break, is_tab, is_space, is_z, is_bom, is_hex, is_alpha,
  is_digit, is_upper, is_lower, is_ascii, in_range, eqc in *; lia.

Lemma pos_le k t0 m0 n t m c : pos t0 m0 n t m c -> (k <= n)%nat -> pos t0 m0 k t m c.
Proof. intros [H A] K. split; auto. eapply hold_le; eauto. Qed.
Lemma pos_start n t m c : hold n t m c -> pos t m n t m c.
Proof. split; auto. constructor. Qed.
Lemma pos_text t0 m0 n t m c : pos t0 m0 n t m c -> c_text c = t.
Proof. intros [[H _] _]. exact H. Qed.
Lemma pos_from t1 m1 t0 m0 n t m c : adv t1 m1 t0 m0 -> pos t0 m0 n t m c -> pos t1 m1 n t m c.
Proof. intros A [H B]. split; auto. eapply adv_trans; eauto. Qed.

Section P.
Variables (t0 : list N) (m0 : mark) (st : option mark).
Notation pos := (pos t0 m0). Notation E := (epos t0 m0 st).

Lemma p_cache k n t m c (Q : unit -> cur -> Prop) :
  pos n t m c -> (forall c', pos (Nat.max n k) t m c' -> Q tt c') -> wp (cache k) c Q E.
Proof.
  intros [H A] HQ. eapply wp_cache; [exact H| |].
  - intros c' H'. apply HQ. split; auto.
  - eapply epos_adv; [exact A|apply epos_here0].
Qed.
Lemma p_peek0 n t m c (Q : N -> cur -> Prop) :
  pos n t m c -> (0 < n)%nat -> (pos n t m c -> Q (nth 0 t 0) c) -> wp (peek 0) c Q E.
Proof. intros [H A] K HQ. eapply wp_peek0; [exact H|exact K|]. apply HQ. split; auto. Qed.
Lemma p_check0 p n t m c (Q : bool -> cur -> Prop) :
  pos n t m c -> (0 < n)%nat -> (pos n t m c -> Q (p (nth 0 t 0)) c) -> wp (check 0 p) c Q E.
Proof. intros [H A] K HQ. eapply wp_check0; [exact H|exact K|]. apply HQ. split; auto. Qed.
Lemma p_peek k n t m c (Q : N -> cur -> Prop) :
  pos n t m c -> (k < n)%nat -> (k <= length t)%nat -> forallb is_ascii (firstn k t) = true ->
  (pos n t m c -> Q (nth k t 0) c) -> wp (peek k) c Q E.
Proof. intros [H A] K L F HQ. eapply wp_peek; eauto. intros _. apply HQ. split; auto. Qed.
Lemma p_check k p n t m c (Q : bool -> cur -> Prop) :
  pos n t m c -> (k < n)%nat -> (k <= length t)%nat -> forallb is_ascii (firstn k t) = true ->
  (pos n t m c -> Q (p (nth k t 0)) c) -> wp (check k p) c Q E.
Proof. intros [H A] K L F HQ. eapply wp_check; eauto. apply HQ. split; auto. Qed.
Lemma p_mark n t m c (Q : mark -> cur -> Prop) : pos n t m c -> (pos n t m c -> Q m c) -> wp get_mark c Q E.
Proof. intros [H A] HQ. eapply wp_get_mark; eauto. apply HQ. split; auto. Qed.
Lemma p_column n t m c (Q : N -> cur -> Prop) : pos n t m c -> (pos n t m c -> Q (m_column m) c) -> wp column c Q E.
Proof. intros [H A] HQ. eapply wp_column; eauto. apply HQ. split; auto. Qed.
Lemma p_err {A} p n t m c (Q : A -> cur -> Prop) : pos n t m c -> wp (err st p) c Q E.
Proof. intros [H B]. eapply wp_err; eauto. eapply epos_adv; [exact B|apply epos_here]. Qed.
Lemma p_skip n t m c (Q : unit -> cur -> Prop) :
  pos (S n) t m c -> nth 0 t 0 <> 0 -> is_break (nth 0 t 0) = false ->
  (forall x r c', t = x :: r -> pos n r (next_column 1 m) c' -> Q tt c') -> wp skip c Q E.
Proof.
  intros [H A] Z B HQ. destruct (nth0_cons t Z) as [x [r ->]]. eapply wp_skip; [exact H|].
  intros c' H'. eapply HQ; [reflexivity|]. split; auto. eapply adv_trans; [exact A|apply adv_one; exact B].
Qed.
Lemma p_read s n t m c (Q : list N -> cur -> Prop) :
  pos (S n) t m c -> nth 0 t 0 <> 0 -> is_break (nth 0 t 0) = false ->
  (forall x r c', t = x :: r -> pos n r (next_column 1 m) c' -> Q (s ++ utf8_enc x) c') -> wp (read s) c Q E.
Proof.
  intros [H A] Z B HQ. destruct (nth0_cons t Z) as [x [r ->]]. eapply wp_read; [exact H|].
  intros c' H'. eapply HQ; [reflexivity|]. split; auto. eapply adv_trans; [exact A|apply adv_one; exact B].
Qed.
Lemma p_skip_line n t m c (Q : unit -> cur -> Prop) :
  pos n t m c -> (2 <= n)%nat -> is_break (nth 0 t 0) = true ->
  (forall t' m' c', line_step t m t' m' -> pos (n - 2) t' m' c' -> Q tt c') -> wp skip_line c Q E.
Proof.
  intros [H A] Hn B HQ. eapply wp_skip_line; eauto. intros t' m' c' L H'. eapply HQ; eauto.
  split; auto. eapply adv_trans; [exact A|apply line_step_adv; exact L].
Qed.
Lemma p_read_line s n t m c (Q : list N -> cur -> Prop) :
  pos n t m c -> (2 <= n)%nat -> is_break (nth 0 t 0) = true ->
  (forall t' m' c', line_step t m t' m' -> pos (n - 2) t' m' c' -> Q (s ++ break_bytes t) c') -> wp (read_line s) c Q E.
Proof.
  intros [H A] Hn B HQ. eapply wp_read_line; eauto. intros t' m' c' L H'. eapply HQ; eauto.
  split; auto. eapply adv_trans; [exact A|apply line_step_adv; exact L].
Qed.
Lemma p_read_line_z s n t m c (Q : list N -> cur -> Prop) :
  pos n t m c -> (2 <= n)%nat -> is_z (nth 0 t 0) = true -> (pos n t m c -> Q s c) -> wp (read_line s) c Q E.
Proof. intros [H A] Hn B HQ. eapply wp_read_line_z; eauto. intros _. apply HQ. split; auto. Qed.
Lemma p_skip_while p n t m c (Q : unit -> cur -> Prop) :
  pos n t m c -> (1 <= n)%nat -> (forall x, p x = true -> x <> 0 /\ is_break x = false) ->
  (forall w t' m' c', t = w ++ t' -> Forall (fun x => p x = true) w -> m' = next_column (nlen w) m -> adv t m t' m' ->
     pos 1 t' m' c' -> p (nth 0 t' 0) = false -> Q tt c') ->
  wp (skip_while p) c Q E.
Proof.
  intros [H A] Hn Hp HQ. eapply wp_skip_while with (start := st); eauto.
  - intros w t' m' c' T F M A' H' P. eapply HQ; eauto. split; auto. eapply adv_trans; eauto.
  - intros e. apply epos_adv. exact A.
Qed.
Lemma p_read_while p s n t m c (Q : list N -> cur -> Prop) :
  pos n t m c -> (1 <= n)%nat -> (forall x, p x = true -> x <> 0 /\ is_break x = false) ->
  (forall w t' m' c', t = w ++ t' -> Forall (fun x => p x = true) w -> m' = next_column (nlen w) m -> adv t m t' m' ->
     pos 1 t' m' c' -> p (nth 0 t' 0) = false -> Q (s ++ utf8 w) c') ->
  wp (read_while p s) c Q E.
Proof.
  intros [H A] Hn Hp HQ. eapply wp_read_while with (start := st); eauto.
  - intros w t' m' c' T F M A' H' P. eapply HQ; eauto. split; auto. eapply adv_trans; eauto.
  - intros e. apply epos_adv. exact A.
Qed.
Lemma p_loop {A B} (J : A -> list N -> mark -> Prop) n (body : A -> cm (A + B)) a t m c Q :
  pos n t m c -> J a t m ->
  (forall a t m c, pos n t m c -> J a t m ->
     wp (body a) c (fun r c' => match r with
        | inl a' => exists t' m', pos n t' m' c' /\ J a' t' m' /\ (length t' < length t)%nat
        | inr b => Q b c' end) E) ->
  wp (loop body a) c Q E.
Proof.
  intros H Ha HB. apply (wp_loop (fun a c => exists t m, pos n t m c /\ J a t m)); [eauto|].
  intros a1 c1 (t1 & m1 & H1 & J1). eapply wp_mono; [apply (HB a1 t1 m1 c1 H1 J1)| |auto].
  intros [a'|b] c' K; [|exact K]. destruct K as (t' & m' & H' & J' & L). split; [eauto|].
  rewrite (pos_text _ _ _ _ _ _ H'), (pos_text _ _ _ _ _ _ H1). exact L.
Qed.
End P.

Ltac nx := first [discriminate | congruence | lia | cls | idtac].
Ltac s1 :=
  cbv beta iota; cbn [negb];
  match goal with
  | |- wp (bind _ _) _ _ _ => apply wp_bind
  | |- wp (ret _) _ _ _ => apply wp_ret
  | |- wp (andc _ _) _ _ _ => apply wp_andc
  | |- wp (orc _ _) _ _ _ => apply wp_orc
  | H : pos _ _ _ _ _ ?c |- wp (cache _) ?c _ _ =>
      eapply p_cache; [exact H|]; clear H; let c' := fresh "c" in intros c' H; cbn [Nat.max] in H; clear c; rename c' into c
  | H : pos _ _ _ _ _ ?c |- wp (peek 0) ?c _ _ => eapply p_peek0; [exact H|lia|]; intros _
  | H : pos _ _ _ _ _ ?c |- wp (check 0 _) ?c _ _ => eapply p_check0; [exact H|lia|]; intros _
  | H : pos _ _ _ _ _ ?c |- wp get_mark ?c _ _ => eapply p_mark; [exact H|]; intros _
  | H : pos _ _ _ _ _ ?c |- wp column ?c _ _ => eapply p_column; [exact H|]; intros _
  | H : pos _ _ _ _ _ ?c |- wp (err _ _) ?c _ _ => eapply p_err; exact H
  end.
Ltac ss := repeat s1.

Definition no_break (p : N -> bool) : Prop := forall x, p x = true -> x <> 0 /\ is_break x = false.
Lemma nb_blank : no_break is_blank.
Proof. intros x H. split; cls. Qed.
Lemma nb_comment : no_break (fun x => negb (is_breakz x)).
Proof. intros x H. split; cls. Qed.
Lemma nb_alpha : no_break is_alpha.
Proof. intros x H. split; cls. Qed.
Lemma nb_white f : no_break (fun x => is_space x || (f && is_tab x)).
Proof. intros x H. destruct f; split; cls. Qed.

Section Q.
Variables (t0 : list N) (m0 : mark).
Notation pos := (pos t0 m0).

Lemma p_scan_to_next_token st flow allowed n t m c (Q : bool -> cur -> Prop) :
  pos n t m c ->
  (forall a t' m' c', pos 1 t' m' c' -> is_break (nth 0 t' 0) = false ->
     adv t m t' m' -> (m_line m' = m_line m -> a = allowed) -> (m_line m < m_line m' -> a = allowed || negb flow) ->
     is_space (nth 0 t' 0) = false -> ((flow || negb a) = true -> is_tab (nth 0 t' 0) = false) ->
     (nth 0 t' 0 =? 0x23) = false ->
     Q a c') ->
  wp (scan_to_next_token flow allowed) c Q (epos t0 m0 st).
Proof.
  intros H HQ. unfold scan_to_next_token.
  apply (p_loop t0 m0 st (fun a t' m' => adv t m t' m' /\ (m_line m' = m_line m -> a = allowed)
     /\ m_line m <= m_line m' /\ (m_line m < m_line m' -> a = allowed || negb flow)) O _ _ t m); auto.
  { eapply pos_le; eauto. lia. }
  { split; [constructor|]. repeat split; lia. }
  clear H n c. intros a t1 m1 c H (A1 & J1 & J2 & J3).
  ss. assert (K : forall n t2 m2 c2, pos n t2 m2 c2 -> adv t1 m1 t2 m2 -> m_line m2 = m_line m1 ->
    wp (cache 1 ;;; skip_while (fun x => is_space x || ((flow || negb a) && is_tab x)) ;;;
        hash <- check 0 (eqc 0x23) ;; (if hash then skip_while (fun x => negb (is_breakz x)) else ret tt) ;;;
        b <- check 0 is_break ;;
        if b then cache 2 ;;; skip_line ;;; ret (inl (if flow then a else true)) else ret (inr a)) c2
     (fun r c' => match r with
        | inl a' => exists t' m', pos 0 t' m' c' /\ (adv t m t' m' /\ (m_line m' = m_line m -> a' = allowed)
              /\ m_line m <= m_line m' /\ (m_line m < m_line m' -> a' = allowed || negb flow)) /\ (length t' < length t1)%nat
        | inr b => Q b c' end) (epos t0 m0 st)).
  { clear H c. intros n t2 m2 c2 H2 A2 L2. ss.
    eapply p_skip_while; [exact H2|lia|apply nb_white|]. clear H2 c2. intros w3 t3 m3 c3 T3 F3 M3 A3 H3 P3. assert (L3 : m_line m3 = m_line m2) by (subst m3; reflexivity).
    ss.
    assert (G : forall t4 m4 c4, pos 1 t4 m4 c4 -> adv t3 m3 t4 m4 -> m_line m4 = m_line m3 -> 
              (is_break (nth 0 t4 0) = false -> is_space (nth 0 t4 0) = false /\ ((flow || negb a) = true -> is_tab (nth 0 t4 0) = false) /\ (nth 0 t4 0 =? 0x23) = false) ->
      wp (b <- check 0 is_break ;;
        if b then cache 2 ;;; skip_line ;;; ret (inl (if flow then a else true)) else ret (inr a)) c4
     (fun r c' => match r with
        | inl a' => exists t' m', pos 0 t' m' c' /\ (adv t m t' m' /\ (m_line m' = m_line m -> a' = allowed)
              /\ m_line m <= m_line m' /\ (m_line m < m_line m' -> a' = allowed || negb flow)) /\ (length t' < length t1)%nat
        | inr b => Q b c' end) (epos t0 m0 st)).
    { clear H3. intros t4 m4 c4 H4 A4 L4 W4.
      assert (A : adv t m t4 m4) by (repeat (eapply adv_trans; [eassumption|]); constructor).
      assert (A' : adv t1 m1 t4 m4) by (repeat (eapply adv_trans; [eassumption|]); constructor).
      ss. destruct (is_break (nth 0 t4 0)) eqn:B4.
      - ss. eapply p_skip_line; [exact H4|lia|exact B4|]. clear H4 c4. intros t5 m5 c5 S5 H5. ss.
        exists t5, m5. split; [eapply pos_le; eauto; lia|].
        pose proof (line_step_adv _ _ _ _ S5) as A5. pose proof (line_step_len _ _ _ _ S5) as N5.
        assert (m_line m5 = m_line m4 + 1) by (destruct S5; reflexivity).
        split; [|pose proof (adv_len _ _ _ _ A'); lia].
        split; [eapply adv_trans; eauto|]. split; [lia|]. split; [lia|].
        intros _. destruct flow; cbn; [|rewrite orb_true_r; reflexivity].
        rewrite orb_false_r. destruct (N.eq_dec (m_line m1) (m_line m)); [auto|]. rewrite J3 by lia. apply orb_false_r.
      - ss. destruct (W4 eq_refl) as (W1 & W2 & W3). eapply (HQ a t4 m4); eauto; [intros; apply J1; lia|intros; apply J3; lia]. }
    destruct (eqc 0x23 (nth 0 t3 0)) eqn:Hash.
    - eapply p_skip_while; [exact H3|lia|apply nb_comment|]. intros w4 t4 m4 c4 T4 F4 M4 A4 H4 P4. assert (L4 : m_line m4 = m_line m3) by (subst m4; reflexivity).
      eapply G; eauto. intros B. unfold eqc in Hash.
      assert (nth 0 t4 0 = 0) by (unfold is_breakz in P4; rewrite B in P4; cls).
      rewrite H. repeat split; reflexivity.
    - apply wp_ret. apply (G t3 m3 c3 H3); [constructor|reflexivity|]. intros B. split; [destruct (is_space _); auto; discriminate|].
      split; [|exact Hash]. intros T. rewrite T in P3. cbn [andb] in P3. apply orb_false_iff in P3. apply P3. }
  destruct (m_column m1 =? 0) eqn:C0.
  - ss. destruct (is_bom (nth 0 t1 0)) eqn:Bom.
    + eapply p_skip; [exact H|cls|cls|]. intros x r c' T H'.
      apply (K O r (next_column 1 m1)); [exact H'|subst t1; apply adv_one; cbn [nth] in Bom; cls|reflexivity].
    + apply wp_ret. apply (K 1%nat t1 m1); [exact H|constructor|reflexivity].
  - s1. s1. apply (K 1%nat t1 m1); [exact H|constructor|reflexivity].
Qed.

Lemma p_scan_line_end start p n t m c (Q : unit -> cur -> Prop) :
  pos n t m c ->
  (forall t' m' c', pos 0 t' m' c' -> adv t m t' m' -> Q tt c') ->
  wp (scan_line_end start p) c Q (epos t0 m0 (Some start)).
Proof.
  intros H HQ. unfold scan_line_end. ss.
  eapply p_skip_while; [exact H|lia|apply nb_blank|]. clear H c. intros w1 t1 m1 c1 T1 F1 M1 A1 H1 P1. ss.
  assert (G : forall t2 m2 c2, pos 1 t2 m2 c2 -> adv t m t2 m2 ->
    wp (e <- check 0 is_breakz ;; if negb e then err (Some start) p else
        b <- check 0 is_break ;; if b then cache 2 ;;; skip_line else ret tt) c2 Q (epos t0 m0 (Some start))).
  { clear H1. intros t2 m2 c2 H2 A2. ss. destruct (is_breakz (nth 0 t2 0)); cbn [negb]; ss.
    destruct (is_break (nth 0 t2 0)) eqn:B; ss.
    - eapply p_skip_line; [exact H2|lia|exact B|]. intros t3 m3 c3 S3 H3.
      eapply HQ; [eapply pos_le; eauto; lia|]. eapply adv_trans; [exact A2|apply line_step_adv; exact S3].
    - eapply HQ; [eapply pos_le; eauto|exact A2]. }
  destruct (eqc 0x23 (nth 0 t1 0)).
  - eapply p_skip_while; [exact H1|lia|apply nb_comment|]. intros w2 t2 m2 c2 T2 F2 M2 A2 H2 P2.
    eapply G; eauto. eapply adv_trans; eauto.
  - apply wp_ret. eapply G; eauto.
Qed.

Lemma p_scan_directive_name start n t m c (Q : list N -> cur -> Prop) :
  pos n t m c ->
  (forall w t' m' c', pos 1 t' m' c' -> adv t m t' m' -> t = w ++ t' -> Forall (fun x => is_alpha x = true) w -> Q (utf8 w) c') ->
  wp (scan_directive_name start) c Q (epos t0 m0 (Some start)).
Proof.
  intros H HQ. unfold scan_directive_name. ss.
  eapply p_read_while; [exact H|lia|apply nb_alpha|]. clear H c. intros w t1 m1 c1 T F M A1 H1 P.
  change ([] ++ utf8 w) with (utf8 w). destruct (utf8 w) eqn:W; ss.
  destruct (is_blankz (nth 0 t1 0)); cbn [negb]; ss. rewrite <- W. eapply HQ; eauto.
Qed.

Definition dec (ds : list N) : N := fold_left (fun v d => v * 10 + as_digit d) ds 0.
Lemma p_scan_version_number start n t m c (Q : N -> cur -> Prop) :
  pos n t m c ->
  (forall ds t' m' c', pos 1 t' m' c' -> adv t m t' m' -> t = ds ++ t' -> Forall (fun x => is_digit x = true) ds ->
     (1 <= length ds <= 9)%nat -> is_digit (nth 0 t' 0) = false -> Q (dec ds) c') ->
  wp (scan_version_number start) c Q (epos t0 m0 (Some start)).
Proof.
  intros H HQ. unfold scan_version_number. ss.
  apply (p_loop t0 m0 (Some start) (fun a t' m' => exists ds, t = ds ++ t' /\ adv t m t' m' /\
     Forall (fun x => is_digit x = true) ds /\ fst a = dec ds /\ snd a = length ds /\ (length ds <= 9)%nat) 1%nat _ _ t m).
  { eapply pos_le; eauto. lia. }
  { exists []. repeat split; auto; try constructor. cbn; lia. }
  clear H c. intros [v k] t1 m1 c H (ds & T & A & F & V & K & L). cbn [fst snd] in *. subst v k. ss.
  destruct (is_digit (nth 0 t1 0)) eqn:D.
  - destruct (Nat.ltb_spec MAX_NUMBER_LENGTH (S (length ds))) as [|L9]; ss. unfold MAX_NUMBER_LENGTH in L9.
    eapply p_skip; [exact H|cls|cls|]. intros x r c' -> H'. cbn [nth] in D. ss.
    exists r, (next_column 1 m1). split; [exact H'|]. split; [|cbn [length]; lia].
    exists (ds ++ [x]). rewrite <- app_assoc. split; [exact T|].
    split; [eapply adv_trans; [exact A|apply adv_one; cls]|].
    split; [apply Forall_app; auto|]. split; [unfold dec; rewrite fold_left_app; reflexivity|].
    rewrite app_length. cbn [length snd]. split; lia.
  - ss. cbn [fst snd]. destruct ds as [|d ds]; cbn [length]; ss.
    eapply HQ; eauto. cbn [length] in *. lia.
Qed.

Lemma p_scan_version_value start n t m c (Q : N * N -> cur -> Prop) :
  pos n t m c ->
  (forall v t' m' c', pos 1 t' m' c' -> adv t m t' m' ->
     (exists ws d1 d2, t = ws ++ d1 ++ [0x2E] ++ d2 ++ t' /\ Forall (fun x => is_blank x = true) ws
       /\ Forall (fun x => is_digit x = true) d1 /\ Forall (fun x => is_digit x = true) d2
       /\ (1 <= length d1 <= 9)%nat /\ (1 <= length d2 <= 9)%nat /\ is_digit (nth 0 t' 0) = false
       /\ v = (dec d1, dec d2)) -> Q v c') ->
  wp (scan_version_value start) c Q (epos t0 m0 (Some start)).
Proof.
  intros H HQ. unfold scan_version_value. ss.
  eapply p_skip_while; [exact H|lia|apply nb_blank|]. clear H c. intros ws t1 m1 c1 T1 F1 M1 A1 H1 P1. ss.
  eapply p_scan_version_number; [exact H1|]. clear H1 c1. intros d1 t2 m2 c2 H2 A2 T2 F2 L2 N2. ss.
  destruct (eqc 0x2E (nth 0 t2 0)) eqn:Dot; cbn [negb]; ss.
  eapply p_skip; [exact H2|cls|cls|]. intros x r c3 -> H3. cbn [nth] in Dot. ss.
  eapply p_scan_version_number; [exact H3|]. clear H3 H2 c2 c3. intros d2 t4 m4 c4 H4 A4 T4 F4 L4 N4. ss.
  eapply HQ; [exact H4| |].
  - eapply adv_trans; [exact A1|]. eapply adv_trans; [exact A2|]. eapply adv_trans; [apply adv_one; cls|exact A4].
  - exists ws, d1, d2. split; [|auto 10]. unfold eqc in Dot. apply N.eqb_eq in Dot. subst. reflexivity.
Qed.

Lemma p_scan_tag_handle directive start n t m c (Q : list N -> cur -> Prop) :
  pos n t m c ->
  (forall s t' m' c', pos 0 t' m' c' -> adv t m t' m' -> (length t' < length t)%nat -> Q s c') ->
  wp (scan_tag_handle directive start) c Q (epos t0 m0 (Some start)).
Proof.
  intros H HQ. unfold scan_tag_handle. ss.
  destruct (eqc 0x21 (nth 0 t 0)) eqn:Bang; cbn [negb]; ss.
  eapply p_read; [eapply (pos_le 1); [exact H|lia]|cls|cls|]. clear H. intros x r c1 -> H1. cbn [nth] in Bang. ss.
  eapply p_read_while; [exact H1|lia|apply nb_alpha|]. clear H1 c1. intros w t2 m2 c2 T2 F2 M2 A2 H2 P2. ss.
  assert (A : adv (x :: r) m t2 m2) by (eapply adv_trans; [apply adv_one; cls|exact A2]).
  pose proof (adv_len _ _ _ _ A2) as L.
  destruct (eqc 0x21 (nth 0 t2 0)) eqn:Bang2.
  - eapply p_read; [exact H2|cls|cls|]. intros y q c3 -> H3. cbn [nth] in Bang2. eapply HQ; [exact H3| |].
    + eapply adv_trans; [exact A|apply adv_one; cls].
    + cbn [length] in *; lia.
  - destruct (directive && _); ss. eapply HQ; [eapply pos_le; [exact H2|lia]|exact A|cbn [length] in *; lia].
Qed.

Lemma hex_ascii x : is_hex x = true -> is_ascii x = true.
Proof. intros. cls. Qed.

Lemma p_scan_uri_escapes start s n t m c (Q : list N -> cur -> Prop) :
  pos n t m c ->
  (forall s t' m' c', pos 0 t' m' c' -> adv t m t' m' -> (length t' < length t)%nat -> Q s c') ->
  wp (scan_uri_escapes start s) c Q (epos t0 m0 (Some start)).
Proof.
  intros H HQ. unfold scan_uri_escapes.
  apply (p_loop t0 m0 (Some start) (fun a t' m' => adv t m t' m' /\
     let '(w, free, s) := a in (w = O /\ free = room \/ (1 <= w /\ w <= 3 /\ w <= free))%nat) O _ _ t m).
  { eapply pos_le; eauto. lia. }
  { split; [constructor|]. left. auto. }
  clear H c. intros [[w free] s1] t1 m1 c H [A J]. ss.
  destruct (eqc 0x25 (nth 0 t1 0)) eqn:Pct; ss.
  assert (Z0 : nth 0 t1 0 <> 0) by cls.
  destruct (nth0_cons t1 Z0) as [x [r ->]]. cbn [nth] in *.
  eapply p_check; [exact H|lia|cbn [length]; lia|cbn; cls|]. intros _. cbn [nth].
  destruct (is_hex (nth 0 r 0)) eqn:X1; ss.
  assert (Z1 : nth 0 r 0 <> 0) by cls.
  destruct (nth0_cons r Z1) as [y [q ->]]. cbn [nth] in *.
  eapply p_check; [exact H|lia|cbn [length]; lia|cbn; cls|]. intros _. cbn [nth].
  destruct (is_hex (nth 0 q 0)) eqn:X2; ss.
  assert (Z2 : nth 0 q 0 <> 0) by cls.
  destruct (nth0_cons q Z2) as [z [q' ->]]. cbn [nth] in *. cbn [negb]. ss.
  eapply p_peek; [exact H|lia|cbn [length]; lia|cbn; cls|]. intros _. cbn [nth]. ss.
  eapply p_peek; [exact H|lia|cbn [length]; lia|cbn; cls|]. intros _. cbn [nth].
  set (octet := as_hex y * 16 + as_hex z).
  assert (K : forall k, (1 <= k <= 4 /\ k <= free)%nat -> wp
    match free with
    | O => ub
    | S rest' =>
        skip ;;; skip ;;; skip ;;;
        match k with
        | S (S w') => ret (inl (S w', rest', s1 ++ [octet]))
        | _ => ret (inr (s1 ++ [octet]))
        end
    end c (fun r c' => match r with
        | inl a' => exists t' m', pos 0 t' m' c' /\ (adv t m t' m' /\
             let '(w, free, s) := a' in (w = O /\ free = room \/ (1 <= w /\ w <= 3 /\ w <= free))%nat) /\ (length t' < length (x :: y :: z :: q'))%nat
        | inr b => Q b c' end) (epos t0 m0 (Some start))).
  { intros k Hk. destruct free as [|f]; [lia|]. ss.
    eapply p_skip; [exact H|exact Z0|cbn [nth]; cls|]. intros ? ? c1 [= <- <-] H1. ss.
    eapply p_skip; [exact H1|exact Z1|cbn [nth]; cls|]. intros ? ? c2 [= <- <-] H2. ss.
    eapply p_skip; [exact H2|exact Z2|cbn [nth]; cls|]. intros ? ? c3 [= <- <-] H3.
    assert (A3 : adv t m q' (next_column 1 (next_column 1 (next_column 1 m1)))).
    { eapply adv_trans; [exact A|]. repeat (apply adv_char; [cls|]). constructor. }
    pose proof (adv_len _ _ _ _ A) as L. cbn [length] in L.
    destruct k as [|[|k]]; ss; [lia| |].
    - eapply HQ; [exact H3|exact A3|lia].
    - eexists _, _. split; [exact H3|]. split; [|cbn [length]; lia]. split; [exact A3|]. right. lia. }
  assert (U : (uri_width octet <= 4)%nat) by (unfold uri_width; repeat match goal with |- context [if ?b then _ else _] => destruct b end; lia).
  destruct (Nat.eqb_spec w 0).
  - destruct (Nat.eqb_spec (uri_width octet) 0); ss. apply K. unfold room in *. lia.
  - destruct (negb _); ss. apply K. lia.
Qed.

Lemma nb_uri u : no_break (uri_class u).
Proof. intros x H. unfold uri_class in H. cbn [existsb] in H. destruct u; split; cls. Qed.

Lemma p_scan_tag_uri u head start n t m c (Q : list N -> cur -> Prop) :
  pos n t m c ->
  (forall s t' m' c', pos 1 t' m' c' -> adv t m t' m' -> uri_class u (nth 0 t' 0) = false -> Q s c') ->
  wp (scan_tag_uri u head start) c Q (epos t0 m0 (Some start)).
Proof.
  intros H HQ. unfold scan_tag_uri. ss.
  apply (p_loop t0 m0 (Some start) (fun a t' m' => adv t m t' m') 1%nat _ _ t m).
  { eapply pos_le; [exact H|lia]. }
  { constructor. }
  clear H c. intros [s some] t1 m1 c H A. ss.
  destruct (uri_class u (nth 0 t1 0)) eqn:U.
  - destruct (nb_uri u _ U) as [Z B]. ss.
    assert (K : forall (s' : list N) t2 m2 c2, pos 0 t2 m2 c2 -> adv t1 m1 t2 m2 -> (length t2 < length t1)%nat ->
      wp (cache 1 ;;; ret (@inl (list N * bool) (list N * bool) (s', true))) c2 (fun r c' => match r with
        | inl a' => exists t' m', pos 1 t' m' c' /\ adv t m t' m' /\ (length t' < length t1)%nat
        | inr r => wp (if snd r then ret (cstr (fst r)) else err (Some start) SNoUri) c' Q (epos t0 m0 (Some start)) end) (epos t0 m0 (Some start))).
    { intros s' t2 m2 c2 H2 A2 L2. ss. exists t2, m2. split; [exact H2|]. split; [eapply adv_trans; eauto|exact L2]. }
    destruct (eqc 0x25 (nth 0 t1 0)).
    + eapply p_scan_uri_escapes; [exact H|]. intros. eapply K; eauto.
    + eapply p_read; [exact H|exact Z|exact B|]. intros x r c' -> H'. eapply K; [exact H'|apply adv_one; exact B|cbn [length]; lia].
  - ss. cbn [fst snd]. destruct some; ss. eapply HQ; eauto.
Qed.

Lemma p_scan_tag_directive_value start n t m c (Q : list N * list N -> cur -> Prop) :
  pos n t m c ->
  (forall v t' m' c', pos 1 t' m' c' -> adv t m t' m' -> Q v c') ->
  wp (scan_tag_directive_value start) c Q (epos t0 m0 (Some start)).
Proof.
  intros H HQ. unfold scan_tag_directive_value. ss.
  eapply p_skip_while; [exact H|lia|apply nb_blank|]. clear H c. intros ws t1 m1 c1 T1 F1 M1 A1 H1 P1. ss.
  eapply p_scan_tag_handle; [exact H1|]. clear H1 c1. intros s t2 m2 c2 H2 A2 L2. ss.
  destruct (is_blank (nth 0 t2 0)); cbn [negb]; ss.
  eapply p_skip_while; [exact H2|lia|apply nb_blank|]. clear H2 c2. intros ws' t3 m3 c3 T3 F3 M3 A3 H3 P3. ss.
  eapply p_scan_tag_uri; [exact H3|]. clear H3 c3. intros s' t4 m4 c4 H4 A4 U4. ss.
  destruct (is_blankz (nth 0 t4 0)); cbn [negb]; ss.
  eapply HQ; [exact H4|]. repeat (eapply adv_trans; [eassumption|]). constructor.
Qed.
End Q.

(* A token made between [t],[m] and [t']: it starts at [m] and ends at a
   position not beyond [t']. *)
Definition token_at (t : list N) (m : mark) (tk : token) (t' : list N) : Prop :=
  t_start tk = m /\ t_deep tk = false /\ exists te, adv t m te (t_end tk) /\ (length t' <= length te)%nat.

Lemma token_at_adv t m t1 tk t' : token_at t m tk t1 -> (length t' <= length t1)%nat -> token_at t m tk t'.
Proof. intros (S & D & te & A & L) K. repeat split; auto. exists te. split; auto. lia. Qed.

(* What a %YAML line says *)
Definition version_text (t : list N) (major minor : N) : Prop :=
  exists nm ws d1 d2 r, t = 0x25 :: nm ++ ws ++ d1 ++ [0x2E] ++ d2 ++ r /\ utf8 nm = yaml_name
    /\ Forall (fun x => is_blank x = true) ws
    /\ Forall (fun x => is_digit x = true) d1 /\ Forall (fun x => is_digit x = true) d2
    /\ (1 <= length d1 <= 9)%nat /\ (1 <= length d2 <= 9)%nat /\ is_digit (nth 0 r 0) = false
    /\ major = dec d1 /\ minor = dec d2.
Definition is_directive (t : list N) (k : tok) : Prop :=
  match k with TVersion a b => version_text t a b | TTagDirective _ _ => True | _ => False end.

Lemma p_scan_directive t m c (Q : token -> cur -> Prop) :
  hold 1 t m c -> nth 0 t 0 = 0x25 ->
  (forall tk t' m' c', pos t m 0 t' m' c' -> (length t' < length t)%nat -> token_at t m tk t' -> is_directive t (t_tok tk) -> Q tk c') ->
  wp scan_directive c Q (epos t m (Some m)).
Proof.
  intros H0 X HQ. pose proof (pos_start _ _ _ _ H0) as H. clear H0. unfold scan_directive. ss.
  eapply p_skip; [exact H|cls|cls|]. clear H. intros x r c1 -> H1. cbn [nth] in X. subst x. ss.
  eapply p_scan_directive_name; [exact H1|]. clear H1 c1. intros w t2 m2 c2 H2 A2 T2 F2. ss.
  assert (K : forall tk t3 m3 c3, pos (0x25 :: r) m 1 t3 m3 c3 -> adv r (next_column 1 m) t3 m3 -> token_at (0x25 :: r) m tk t3 ->
     is_directive (0x25 :: r) (t_tok tk) -> wp (scan_line_end m SDirectiveEnd) c3 (fun _ c' => wp (ret tk) c' Q (epos (0x25 :: r) m (Some m))) (epos (0x25 :: r) m (Some m))).
  { intros tk t3 m3 c3 H3 A3 T3 D3. ss. eapply p_scan_line_end; [exact H3|]. intros t4 m4 c4 H4 A4. ss.
    eapply HQ; [exact H4| | |exact D3].
    - apply adv_len in A3. apply adv_len in A4. cbn [length]; lia.
    - eapply token_at_adv; [exact T3|]. eapply adv_len; eauto. }
  assert (M : forall tk t3 m3 c3, pos (0x25 :: r) m 1 t3 m3 c3 -> t_start tk = m -> t_end tk = m3 -> t_deep tk = false -> token_at (0x25 :: r) m tk t3).
  { intros tk t3 m3 c3 [_ A3] S3 E3 D3. repeat split; auto. exists t3. rewrite E3. split; [exact A3|lia]. }
  destruct (str_eqb_spec (utf8 w) yaml_name) as [Y|_]; [|destruct (str_eqb_spec (utf8 w) tag_name) as [G|_]]; ss.
  - eapply p_scan_version_value; [exact H2|]. clear H2 c2. intros v t3 m3 c3 H3 A3 (ws & d1 & d2 & T3 & F3). ss.
    eapply K; [exact H3|eapply adv_trans; eauto|eapply M; eauto|].
    cbn. exists w, ws, d1, d2, t3. rewrite T2, T3. destruct F3 as (Fw & Fa & Fb & La & Lb & Nd & ->). cbn [fst snd]. auto 12.
  - eapply p_scan_tag_directive_value; [exact H2|]. clear H2 c2. intros v t3 m3 c3 H3 A3. ss.
    apply (K _ t3 m3 c3 H3 (adv_trans _ _ _ _ _ _ A2 A3)); [apply (M _ t3 m3 c3 H3); reflexivity|exact I].
Qed.

Lemma p_scan_anchor a t m c (Q : token -> cur -> Prop) :
  hold 1 t m c -> nth 0 t 0 <> 0 -> is_break (nth 0 t 0) = false ->
  (forall tk t' m' c', pos t m 0 t' m' c' -> (length t' < length t)%nat -> token_at t m tk t' ->
     match t_tok tk with TAlias _ => a = false | TAnchor _ => a = true | _ => False end -> Q tk c') ->
  wp (scan_anchor a) c Q (epos t m (Some m)).
Proof.
  intros H0 Z B HQ. pose proof (pos_start _ _ _ _ H0) as H. clear H0. unfold scan_anchor. ss.
  eapply p_skip; [exact H|exact Z|exact B|]. clear H. intros x r c1 -> H1. ss.
  eapply p_read_while; [exact H1|lia|apply nb_alpha|]. clear H1 c1. intros w t2 m2 c2 T2 F2 M2 A2 H2 P2.
  change ([] ++ utf8 w) with (utf8 w). ss. destruct (utf8 w) eqn:W; ss.
  destruct (anchor_end (nth 0 t2 0)); cbn [negb]; ss. eapply HQ; [eapply pos_le; [exact H2|lia]| | |].
  - apply adv_len in A2. cbn [length]. lia.
  - repeat split. exists t2. split; [apply H2|lia].
  - destruct a; reflexivity.
Qed.

Lemma p_scan_tag flow t m c (Q : token -> cur -> Prop) :
  hold 1 t m c -> nth 0 t 0 = 0x21 ->
  (forall tk t' m' c', pos t m 0 t' m' c' -> (length t' < length t)%nat -> token_at t m tk t' ->
     match t_tok tk with TTag _ _ => True | _ => False end -> Q tk c') ->
  wp (scan_tag flow) c Q (epos t m (Some m)).
Proof.
  intros H0 X HQ. pose proof (pos_start _ _ _ _ H0) as H. clear H0. unfold scan_tag. ss.
  assert (Z : nth 0 t 0 <> 0) by cls. destruct (nth0_cons t Z) as [x [r ->]]. cbn [nth] in *. subst x.
  eapply p_check; [exact H|lia|cbn [length]; lia|reflexivity|]. intros _. cbn [nth]. ss.
  assert (K : forall (tg : tok) (t3 : list N) m3 c3, pos (0x21 :: r) m 0 t3 m3 c3 -> (length t3 < S (length r))%nat ->
     match tg with TTag _ _ => True | _ => False end ->
     wp (cache 1 ;;; z <- check 0 is_blankz ;;
         comma <- (if z then ret true else andc (ret flow) (check 0 (eqc 0x2C))) ;;
         if negb comma then err (Some m) STagEnd else e <- get_mark ;; ret (mkToken tg m e false)) c3 Q (epos (0x21 :: r) m (Some m))).
  { intros tg t3 m3 c3 H3 L3 G3. ss.
    assert (J : Q (mkToken tg m m3 false) c3).
    { eapply HQ; [eapply pos_le; [exact H3|lia]|exact L3| |exact G3].
      repeat split. exists t3. split; [apply H3|lia]. }
    destruct (is_blankz (nth 0 t3 0)); ss; [exact J|].
    destruct flow; ss. destruct (eqc 0x2C (nth 0 t3 0)); cbn [negb]; ss. exact J. }
  destruct (eqc 0x3C (nth 0 r 0)) eqn:V.
  - ss. eapply p_skip; [exact H|cbn; lia|reflexivity|]. intros ? ? c1 [= <- <-] H1. ss.
    eapply p_skip; [exact H1|cls|cls|]. intros y q c2 -> H2. ss.
    eapply p_scan_tag_uri; [exact H2|]. intros s t3 m3 c3 H3 A3 U3. ss.
    destruct (eqc 0x3E (nth 0 t3 0)) eqn:Cl; cbn [negb]; ss.
    eapply p_skip; [exact H3|cls|cls|]. intros y' q' c4 -> H4. apply wp_ret. eapply K; [exact H4| |exact I].
    apply adv_len in A3. cbn [length] in *. lia.
  - ss. eapply p_scan_tag_handle; [exact H|]. intros s t2 m2 c2 H2 A2 L2. ss.
    destruct (is_handle s); ss; (eapply p_scan_tag_uri; [exact H2|]; intros s' t3 m3 c3 H3 A3 U3);
      [|destruct s']; (apply wp_ret; eapply K; [eapply pos_le; [exact H3|lia]| |exact I]; apply adv_len in A3; cbn [length] in *; lia).
Qed.

Lemma p_andc_ret t0 m0 st b p n t m c (Q : bool -> cur -> Prop) :
  pos t0 m0 n t m c -> (0 < n)%nat -> Q (b && p (nth 0 t 0)) c -> wp (andc (ret b) (check 0 p)) c Q (epos t0 m0 st).
Proof. intros H K HQ. apply wp_andc. apply wp_ret. destruct b; [|exact HQ]. eapply p_check0; eauto. Qed.
Ltac s2 :=
  cbv beta iota zeta; cbn [negb];
  match goal with
  | H : pos _ _ _ _ _ ?c |- wp (andc (ret _) (check 0 _)) ?c _ _ => eapply p_andc_ret; [exact H|lia|]
  | |- _ => s1
  end.
Ltac sx := repeat s2.

Section R.
Variables (t0 : list N) (m0 : mark).
Notation pos := (pos t0 m0).

Lemma p_scan_block_header start n t m c (Q : option bool * Z -> cur -> Prop) :
  pos n t m c ->
  (forall h t' m' c', pos 0 t' m' c' -> adv t m t' m' -> (0 <= snd h)%Z -> Q h c') ->
  wp (scan_block_header start) c Q (epos t0 m0 (Some start)).
Proof.
  intros H HQ. unfold scan_block_header. ss.
  assert (D : forall x, (0 <= Z.of_N (as_digit x))%Z) by (intros; lia).
  destruct ((nth 0 t 0 =? 0x2B) || (nth 0 t 0 =? 0x2D)) eqn:C1.
  - ss. eapply p_skip; [eapply (pos_le 1); [exact H|lia]|cls|cls|]. clear H. intros x r c1 -> H1. cbn [nth] in C1. ss.
    destruct (is_digit (nth 0 r 0)) eqn:D1.
    + destruct (nth 0 r 0 =? 0x30); ss.
      eapply p_skip; [exact H1|cls|cls|]. clear H1. intros y q c2 -> H2. cbn [nth] in *. ss.
      eapply HQ; [exact H2| |apply D]. apply adv_char; [cls|]. apply adv_one. cls.
    + ss. eapply HQ; [eapply pos_le; [exact H1|lia]| |cbn; lia]. apply adv_one; cls.
  - destruct (is_digit (nth 0 t 0)) eqn:D1.
    + destruct (nth 0 t 0 =? 0x30); ss.
      eapply p_skip; [eapply (pos_le 1); [exact H|lia]|cls|cls|]. clear H. intros x r c1 -> H1. cbn [nth] in *. ss.
      destruct ((nth 0 r 0 =? 0x2B) || (nth 0 r 0 =? 0x2D)) eqn:C2; ss.
      * eapply p_skip; [exact H1|cls|cls|]. clear H1. intros y q c2 -> H2. cbn [nth] in *. ss.
        eapply HQ; [exact H2| |apply D]. apply adv_char; [cls|]. apply adv_one. cls.
      * eapply HQ; [eapply pos_le; [exact H1|lia]| |apply D]. apply adv_one; cls.
    + ss. eapply HQ; [eapply pos_le; [exact H|lia]|constructor|cbn; lia].
Qed.

(* [e] is a position between [t],[m] and [t'] *)
Definition between (t : list N) (m : mark) (e : mark) (t' : list N) : Prop :=
  exists te, adv t m te e /\ (length t' <= length te)%nat.
Lemma between_here t m t' m' : adv t m t' m' -> between t m m' t'.
Proof. exists t'. split; auto. Qed.
Lemma between_le t m e t1 t' : between t m e t1 -> (length t' <= length t1)%nat -> between t m e t'.
Proof. intros (te & A & L) K. exists te. split; auto. lia. Qed.
Lemma between_trans t m t1 m1 e t' : adv t m t1 m1 -> between t1 m1 e t' -> between t m e t'.
Proof. intros A (te & B & L). exists te. split; auto. eapply adv_trans; eauto. Qed.

Lemma p_scan_block_scalar_breaks pindent indent breaks start n t m c (Q : Z * list N * mark -> cur -> Prop) :
  pos n t m c ->
  (forall i b e t' m' c', pos 1 t' m' c' -> adv t m t' m' -> between t m e t' -> is_break (nth 0 t' 0) = false -> Q (i, b, e) c') ->
  wp (scan_block_scalar_breaks pindent indent breaks start) c Q (epos t0 m0 (Some start)).
Proof.
  intros H HQ. unfold scan_block_scalar_breaks. sx.
  apply (p_loop t0 m0 (Some start) (fun (a : Z * list N * mark) t' m' => adv t m t' m' /\ between t m (snd a) t') O _ _ t m).
  { eapply pos_le; [exact H|lia]. }
  { split; [constructor|]. apply between_here. constructor. }
  clear H c. intros [[mi bs] e] t1 m1 c H [A B]. cbn [snd] in B. sx.
  apply (p_loop t0 m0 (Some start) (fun (_ : unit) t' m' => adv t1 m1 t' m') 1%nat _ _ t1 m1).
  { eapply pos_le; [exact H|lia]. }
  { constructor. }
  clear H c. intros _ t2 m2 c H A2. sx.
  assert (L12 : (length t2 <= length t1)%nat) by (eapply adv_len; eauto).
  assert (A02 : adv t m t2 m2) by (eapply adv_trans; eauto).
  destruct (((indent =? 0)%Z || (Z.of_N (m_column m2) <? indent)%Z) && is_space (nth 0 t2 0)) eqn:Sp.
  - apply andb_true_iff in Sp. destruct Sp as [_ Sp]. sx.
    eapply p_skip; [exact H|cls|cls|]. clear H. intros x r c1 -> H1. sx.
    exists r, (next_column 1 m2). split; [exact H1|]. split; [|cbn [length]; lia].
    eapply adv_trans; [exact A2|]. apply adv_one. cbn [nth] in Sp. cls.
  - sx. destruct (((indent =? 0)%Z || (Z.of_N (m_column m2) <? indent)%Z) && is_tab (nth 0 t2 0)); sx.
    destruct (is_break (nth 0 t2 0)) eqn:Bk; sx.
    + eapply p_read_line; [exact H|lia|exact Bk|]. clear H. intros t3 m3 c3 S3 H3. sx.
      pose proof (line_step_adv _ _ _ _ S3) as A3. pose proof (line_step_len _ _ _ _ S3) as L3.
      assert (A03 : adv t m t3 m3) by (eapply adv_trans; eauto).
      exists t3, m3. split; [eapply pos_le; [exact H3|lia]|]. split; [|lia]. split; [exact A03|]. apply between_here. exact A03.
    + eapply HQ; [exact H|exact A02| |exact Bk]. eapply between_le; [exact B|exact L12].
Qed.
End R.

Lemma p_scan_block_scalar pindent (literal : bool) t m c (Q : token -> cur -> Prop) :
  hold 1 t m c -> nth 0 t 0 <> 0 -> is_break (nth 0 t 0) = false ->
  (forall tk t' m' c', pos t m 0 t' m' c' -> (length t' < length t)%nat -> token_at t m tk t' ->
     match t_tok tk with TScalar _ y => y = (if literal then Literal else Folded) | _ => False end -> Q tk c') ->
  wp (scan_block_scalar pindent literal) c Q (epos t m (Some m)).
Proof.
  intros H0 Z B HQ. pose proof (pos_start _ _ _ _ H0) as H. clear H0. unfold scan_block_scalar. sx.
  eapply p_skip; [exact H|exact Z|exact B|]. clear H. intros x r c1 -> H1. cbn [nth] in *. sx.
  eapply p_scan_block_header; [exact H1|]. clear H1 c1 c. intros [ch inc] t2 m2 c2 H2 A2 I2. cbn [snd] in I2. sx.
  eapply p_scan_line_end; [exact H2|]. clear H2 c2. intros t3 m3 c3 H3 A3. sx.

  eapply p_scan_block_scalar_breaks; [exact H3|]. clear H3 c3. intros i b e t4 m4 c4 H4 A4 B4 N4. sx.
  assert (L2 := adv_len _ _ _ _ A2). assert (L3 := adv_len _ _ _ _ A3). assert (L4 := adv_len _ _ _ _ A4).
  assert (A03 : adv (x :: r) m t3 m3) by (eapply adv_trans; [apply adv_one; exact B|eapply adv_trans; eauto]).
  apply (p_loop (x :: r) m (Some m) (fun (a : list N * list N * list N * bool * mark) t' m' => adv t4 m4 t' m' /\ between (x :: r) m (snd a) t') 1%nat _ _ t4 m4).
  { eapply pos_le; [exact H4|lia]. }
  { split; [constructor|]. eapply between_trans; [exact A03|]. exact B4. }
  clear H4 c4. intros [[[[s ld] tr] lb] e5] t5 m5 c5 H5 [A5 B5]. cbn [snd] in B5. sx.
  assert (L5 := adv_len _ _ _ _ A5).
  destruct ((Z.of_N (m_column m5) =? i)%Z && negb (is_z (nth 0 t5 0))) eqn:More; sx.
  2:{ eapply HQ; [eapply pos_le; [exact H5|lia]|cbn [length]; lia| |reflexivity].
      destruct B5 as (te & Ae & Le). repeat split. exists te. split; auto. }
  apply andb_true_iff in More. destruct More as [_ Z5]. apply negb_true_iff in Z5.
  eapply (wp_mono _ _ (fun (_ : list N) c' => c' = c5)); [|intros s2 c6 ->|intros ? K; exact K].
  { destruct (negb literal && starts_lf ld && negb lb && negb (is_blank (nth 0 t5 0))); [|reflexivity].
    destruct (nonempty tr); [reflexivity|]. apply wp_put; [cbn; unfold room; lia|reflexivity]. }
  sx. eapply p_read_while; [exact H5|lia|apply nb_comment|]. clear H5 c5. intros w t6 m6 c6 T6 F6 M6 A6 H6 P6. sx.
  assert (L6 := adv_len _ _ _ _ A6).
  eapply (wp_mono _ _ (fun (_ : list N) c7 => exists t7 m7, pos (x :: r) m 0 t7 m7 c7 /\ adv t6 m6 t7 m7 /\ (length t7 < length t5)%nat)).
  { destruct (is_break (nth 0 t6 0)) eqn:B6.
    - eapply p_read_line; [exact H6|lia|exact B6|]. intros t7 m7 c7 S7 H7.
      exists t7, m7. split; [eapply pos_le; [exact H7|lia]|]. split; [apply line_step_adv; exact S7|]. apply line_step_len in S7. lia.
    - eapply p_read_line_z; [exact H6|lia|unfold is_breakz in P6; rewrite B6 in P6; cls|]. intros _.
      exists t6, m6. split; [eapply pos_le; [exact H6|lia]|]. split; [constructor|].
      destruct w as [|y w]; [|subst t5; rewrite app_length; cbn [length]; lia].
      cbn [app] in T6. subst t6. unfold is_breakz in P6. rewrite B6 in P6. cbn [orb] in P6. rewrite Z5 in P6. discriminate. }
  2:{ intros ? K. exact K. }
  clear H6 c6. intros ld' c7 (t7 & m7 & H7 & A7 & L7). sx.
  eapply p_scan_block_scalar_breaks; [exact H7|].
  intros i8 b8 e8 t8 m8 c8 H8 A8 B8 N8. sx. assert (L8 := adv_len _ _ _ _ A8).
  exists t8, m8. split; [exact H8|]. split; [|lia]. split.
  - repeat (eapply adv_trans; [eassumption|]). constructor.
  - cbn [snd]. eapply between_trans; [exact (proj2 H7)|exact B8].
Qed.
