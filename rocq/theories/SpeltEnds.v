(* Where the end marks are of the tokens behind which the scanner reads on (C75). *)
From Verif Require Import Base ReaderModel Utf8Spec CharSpec Types CursorModel ScanModel CursorProofs ScanProofs ScanQuoted RoundSpec LexSpec GapExact TagLex.

Definition white (x : N) : Prop := is_blank x || is_break x = true.
Lemma line_step_white t m t' m' : line_step t m t' m' -> exists g, t = g ++ t' /\ Forall white g.
Proof. intros [r m1|x r m1 B N]; [exists [0xD; 0xA]; split; [reflexivity|repeat constructor]|exists [x]; split; [reflexivity|]]. constructor; [|constructor]. unfold white. rewrite B. apply orb_true_r. Qed.
(* [e] is the mark of a place from which [g] leads to [t'] *)
Definition sharp (p : N -> Prop) (t : list N) (m e : mark) (t' : list N) : Prop := exists te g, adv t m te e /\ te = g ++ t' /\ Forall p g.
Lemma sharp_here p t m t' m' : adv t m t' m' -> sharp p t m m' t'.
Proof. intros A. exists t', []. auto. Qed.
Lemma sharp_le (p : N -> Prop) t m e t1 t' g : sharp p t m e t1 -> t1 = g ++ t' -> Forall p g -> sharp p t m e t'.
Proof. intros (te & g1 & A & E & F) -> Fg. exists te, (g1 ++ g). split; [exact A|]. split; [rewrite <- app_assoc; exact E|apply Forall_app; auto]. Qed.
Lemma sharp_trans p t m t1 m1 e t' : adv t m t1 m1 -> sharp p t1 m1 e t' -> sharp p t m e t'.
Proof. intros A (te & g & B & E). exists te, g. split; [eapply adv_trans; eauto|exact E]. Qed.

(* ---- plain scalars: behind the last character that is not white ---- *)
Definition behind (t : list N) (m e : mark) (t' : list N) : Prop :=
  exists u x g, t = u ++ x :: g ++ t' /\ is_blankz x = false /\ Forall white g /\ adv t m (g ++ t') e.
Definition wend (t : list N) (m e : mark) (t' : list N) : Prop := t' = t \/ behind t m e t'.
Lemma behind_le t m e t1 t' g : behind t m e t1 -> t1 = g ++ t' -> Forall white g -> behind t m e t'.
Proof. intros (u & x & g1 & E & X & F & A) -> Fg. exists u, x, (g1 ++ g). rewrite <- !app_assoc. repeat split; auto. apply Forall_app; auto. Qed.
Lemma behind_char (t u : list N) m x r m' : t = u ++ x :: r -> is_blankz x = false -> adv t m r m' -> behind t m m' r.
Proof. intros E X A. exists u, x, []. auto. Qed.

Section P2.
Variables (t0 : list N) (m0 : mark).
Notation pos := (pos t0 m0).
Lemma suffix_of t m c n : pos n t m c -> exists u, t0 = u ++ t.
Proof.
  intros [_ A]. induction A as [t m|x t m t' m' B A IH|t m t' m' A IH|x t m t' m' B N A IH]; [exists []; reflexivity|..]; destruct IH as [u ->]; [exists (x :: u)|exists (0xD :: 0xA :: u)|exists (x :: u)]; reflexivity.
Qed.
Lemma e_plain_word flow start s0 b0 e0 n t m c (Q : plain_state -> cur -> Prop) :
  pos n t m c -> (2 <= n)%nat -> wend t0 m0 e0 t ->
  (forall s b e t' m' c', pos 1 t' m' c' -> adv t m t' m' -> wend t0 m0 e t' ->
     (plain_stop flow t = false -> (length t' < length t)%nat) -> Q (s, b, e) c') ->
  wp (scan_plain_word flow start (s0, b0, e0)) c Q (epos t0 m0 (Some start)).
Proof.
  intros H K B0 HQ. unfold scan_plain_word.
  apply (p_loop t0 m0 (Some start) (fun (a : plain_state) t' m' => adv t m t' m' /\ wend t0 m0 (snd a) t'
     /\ (t' = t \/ (length t' < length t)%nat)) 2%nat _ _ t m).
  { eapply pos_le; [exact H|lia]. }
  { split; [constructor|]. auto. }
  clear H c. intros [[s [[[lb ws] ld] tr]] e] t1 m1 c H (A & Be & P). cbn [snd] in Be. assert (L1 := adv_len _ _ _ _ A). sx.
  assert (Leave : plain_stop flow t1 = true -> Q (s, (lb, ws, ld, tr), e) c).
  { intros St. eapply HQ; [eapply pos_le; [exact H|lia]|exact A|exact Be|]. intros. destruct P as [->|]; [congruence|assumption]. }
  unfold plain_stop in Leave.
  destruct (is_blankz (nth 0 t1 0)) eqn:Bz; [sx; auto|].
  assert (Z : nth 0 t1 0 <> 0) by cls. assert (B : is_break (nth 0 t1 0) = false) by cls.
  destruct (nth0_cons _ Z) as [x [r ->]]. cbn [nth] in *. cbn [orb] in Leave.
  s1.
  eapply (wp_mono _ _ (fun b c' => c' = c)).
  { apply wp_andc, wp_ret. destruct flow; [|reflexivity]. s1. eapply p_check0; [exact H|lia|]. intros _. cbn [nth]. unfold eqc at 1.
    destruct (N.eqb_spec x 0x3A) as [->|]; [|reflexivity]. eapply p_check1; [exact H|lia|reflexivity|]. reflexivity. }
  2:{ intros ? W. exact W. }
  intros col ? ->. destruct col; [sx|]. s1.
  eapply (wp_mono _ _ (fun b c' => c' = c /\ b = ((x =? 0x3A) && is_blankz (nth 0 r 0)) || (flow && flow_end x))).
  { s1. s1. eapply p_check0; [exact H|lia|]. intros _. cbn [nth]. unfold eqc at 1.
    destruct (N.eqb_spec x 0x3A) as [->|].
    - eapply p_check1; [exact H|lia|reflexivity|]. cbn [andb]. destruct (is_blankz (nth 0 r 0)); [split; reflexivity|].
      eapply p_andc_ret; [exact H|lia|]. split; reflexivity.
    - cbn [andb orb]. eapply p_andc_ret; [exact H|lia|]. split; reflexivity. }
  2:{ intros ? W. exact W. }
  intros stop c1 [-> Es]. destruct stop; [sx; auto|]. sx.
  eapply (wp_mono _ _ (fun (_ : list N) c' => c' = c)); [|intros s4 c4 ->|intros ? W; exact W].
  { destruct lb; [apply p_fold_breaks; reflexivity|reflexivity]. }
  sx. destruct (suffix_of _ _ _ _ H) as [u Eu]. eapply p_read; [exact H|exact Z|exact B|]. intros ? ? c1 [= <- <-] H1. clear H Leave. sx.
  assert (A' : adv t m r (next_column 1 m1)) by (eapply adv_trans; [exact A|apply adv_one; exact B]).
  exists r, (next_column 1 m1). split; [eapply pos_le; [exact H1|lia]|]. split; [|cbn [length]; lia].
  split; [exact A'|]. split; [|right; cbn [length] in L1; lia]. right. eapply behind_char; [exact Eu|exact Bz|apply H1].
Qed.
Lemma e_plain_blanks indent start b0 n t m c (Q : blanks -> cur -> Prop) :
  pos n t m c -> (1 <= n)%nat ->
  (forall b g t' m' c', pos 1 t' m' c' -> adv t m t' m' -> t = g ++ t' -> Forall white g ->
     is_blank (nth 0 t' 0) = false -> is_break (nth 0 t' 0) = false -> Q b c') ->
  wp (scan_plain_blanks indent start b0) c Q (epos t0 m0 (Some start)).
Proof.
  intros H K HQ. unfold scan_plain_blanks.
  apply (p_loop t0 m0 (Some start) (fun (a : blanks) t' m' => adv t m t' m' /\ exists g, t = g ++ t' /\ Forall white g) 1%nat _ _ t m).
  { eapply pos_le; [exact H|lia]. }
  { split; [constructor|]. exists []. auto. }
  clear H c. intros [[[lb ws] ld] tr] t1 m1 c H [A (g & Eg & Fg)]. sx.
  destruct (is_blank (nth 0 t1 0)) eqn:Bl; sx.
  { assert (A' : forall x r, t1 = x :: r -> adv t m r (next_column 1 m1) /\ exists g, t = g ++ r /\ Forall white g).
    { intros x r ->. cbn [nth] in Bl. split; [eapply adv_trans; [exact A|]; apply adv_one; cls|]. exists (g ++ [x]). split; [rewrite <- app_assoc; exact Eg|].
      apply Forall_app. split; [exact Fg|]. constructor; [unfold white; rewrite Bl; reflexivity|constructor]. }
    destruct (lb && _ && _); sx.
    destruct lb; sx.
    - eapply p_skip; [exact H|cls|cls|]. intros x r c1 T1 H1. clear H. sx.
      exists r, (next_column 1 m1). split; [exact H1|]. split; [eauto|]. subst t1. cbn [length]. lia.
    - eapply p_read; [exact H|cls|cls|]. intros x r c1 T1 H1. clear H. sx.
      exists r, (next_column 1 m1). split; [exact H1|]. split; [eauto|]. subst t1. cbn [length]. lia. }
  destruct (is_break (nth 0 t1 0)) eqn:Bk; sx.
  - assert (A' : forall t2 m2, line_step t1 m1 t2 m2 -> adv t m t2 m2 /\ exists g, t = g ++ t2 /\ Forall white g).
    { intros t2 m2 S2. split; [eapply adv_trans; [exact A|apply line_step_adv; exact S2]|]. destruct (line_step_white _ _ _ _ S2) as (g2 & -> & F2).
      exists (g ++ g2). rewrite <- app_assoc. split; [exact Eg|apply Forall_app; auto]. }
    destruct lb; sx; (eapply p_read_line; [exact H|lia|exact Bk|]); intros t2 m2 c2 S2 H2; clear H; sx;
      (exists t2, m2; split; [eapply pos_le; [exact H2|lia]|]; split; [eauto|eapply line_step_len; eauto]).
  - eapply HQ; eauto.
Qed.
End P2.

Lemma e_plain flow pindent t m c :
  hold 1 t m c -> plain_stop flow t = false -> nth 0 t 0 <> 0x23 -> at_document_indicator t m = false ->
  wp (scan_plain_scalar flow pindent) c (fun r c' => behind t m (t_end (fst r)) (c_text c')) (epos t m (Some m)).
Proof.
  intros H0 St Hs Di. pose proof (pos_start _ _ _ _ H0) as H. clear H0. unfold scan_plain_scalar. sx.
  apply (p_loop t m (Some m) (fun (a : plain_state) t' m' => wend t m (snd a) t' /\ ((t' = t /\ m' = m) \/ (length t' < length t)%nat)) O _ _ t m).
  { eapply pos_le; [exact H|lia]. }
  { split; [left; reflexivity|auto]. }
  clear H c. intros [[s b] e] t1 m1 c H [Be P]. cbn [snd] in Be. sx.
  assert (Leave : forall s b e t' m' c', pos t m 0 t' m' c' -> wend t m e t' -> (length t' < length t)%nat ->
     wp (let '(s, (lb, _, _, _), e) := (s, b, e) : plain_state in ret (mkToken (TScalar s Plain) m e false, lb)) c' (fun r c' => behind t m (t_end (fst r)) (c_text c')) (epos t m (Some m))).
  { clear. intros s [[[lb ws] ld] tr] e t' m' c' H B L. apply wp_ret. cbn [fst t_end]. rewrite (proj1 (proj1 H)). destruct B as [->|B]; [lia|exact B]. }
  eapply p_document_indicator; [exact H|lia|].
  destruct (at_document_indicator t1 m1) eqn:Di1.
  { apply wp_ret. eapply Leave; [eapply pos_le; [exact H|lia]|exact Be|]. destruct P as [[-> ->]|]; [congruence|assumption]. }
  sx. unfold eqc at 1. destruct (N.eqb_spec (nth 0 t1 0) 0x23) as [Hs1|Hs1].
  { apply wp_ret. eapply Leave; [eapply pos_le; [exact H|lia]|exact Be|]. destruct P as [[-> ->]|]; [congruence|assumption]. }
  sx. eapply e_plain_word; [exact H|lia|exact Be|]. clear H. intros s2 b2 e2 t2 m2 c2 H2 A2 B2 P2.
  assert (L2 := adv_len _ _ _ _ A2).
  assert (P2' : (length t2 < length t)%nat) by (destruct P as [[-> ->]|]; [auto|lia]).
  sx. destruct (is_blank (nth 0 t2 0) || is_break (nth 0 t2 0)) eqn:Mo; cbn [negb].
  2:{ apply wp_ret. eapply Leave; [eapply pos_le; [exact H2|lia]|exact B2|exact P2']. }
  sx. eapply e_plain_blanks; [exact H2|lia|]. clear H2. intros b3 g t3 m3 c3 H3 A3 Eg Fg N3 N3'. assert (L3 := adv_len _ _ _ _ A3). sx.
  assert (B3 : wend t m e2 t3). { right. destruct B2 as [->|B2]; [lia|]. eapply behind_le; [exact B2|exact Eg|exact Fg]. }
  destruct (negb flow && _).
  { apply wp_ret. eapply Leave; [eapply pos_le; [exact H3|lia]|exact B3|lia]. }
  sx. exists t3, m3. split; [eapply pos_le; [exact H3|lia]|].
  assert (length t3 <> length t2).
  { intros Eq. assert (t2 = t3) by (eapply adv_same_len; eauto). subst t3. rewrite N3, N3' in Mo. discriminate. }
  split; [|lia]. split; [exact B3|right; lia].
Qed.

(* ---- block scalars: before the indentation of the line that does not belong to them ---- *)
Definition bol (t : list N) (m : mark) : Prop := m_column m = 0 \/ nth 0 t 0 = 0.
Definition lend (t : list N) (m e : mark) (t' : list N) : Prop :=
  exists g, adv t m (g ++ t') e /\ Forall (fun x => x = 0x20) g /\ bol (g ++ t') e.
Lemma lend_here t m t' m' : adv t m t' m' -> bol t' m' -> lend t m m' t'.
Proof. intros A B. exists []. auto. Qed.
Lemma lend_le t m e t1 t' g : lend t m e t1 -> t1 = g ++ t' -> Forall (fun x => x = 0x20) g -> lend t m e t'.
Proof. intros (g1 & A & F & B) -> Fg. exists (g1 ++ g). rewrite <- app_assoc. split; [exact A|]. split; [apply Forall_app; auto|exact B]. Qed.
Lemma lend_trans t m t1 m1 e t' : adv t m t1 m1 -> lend t1 m1 e t' -> lend t m e t'.
Proof. intros A (g & B & E). exists g. split; [eapply adv_trans; eauto|exact E]. Qed.
Section R.
Variables (t0 : list N) (m0 : mark).
Notation pos := (pos t0 m0).
Lemma e_line_end start p n t m c (Q : unit -> cur -> Prop) :
  pos n t m c ->
  (forall t' m' c', pos 0 t' m' c' -> adv t m t' m' -> bol t' m' -> Q tt c') ->
  wp (scan_line_end start p) c Q (epos t0 m0 (Some start)).
Proof.
  intros H HQ. unfold scan_line_end. ss.
  eapply p_skip_while; [exact H|lia|apply nb_blank|]. clear H c. intros w1 t1 m1 c1 T1 F1 M1 A1 H1 P1. ss.
  assert (G : forall t2 m2 c2, pos 1 t2 m2 c2 -> adv t m t2 m2 ->
    wp (e <- check 0 is_breakz ;; if negb e then err (Some start) p else
        b <- check 0 is_break ;; if b then cache 2 ;;; skip_line else ret tt) c2 Q (epos t0 m0 (Some start))).
  { clear H1. intros t2 m2 c2 H2 A2. ss. destruct (is_breakz (nth 0 t2 0)) eqn:Z; cbn [negb]; ss.
    destruct (is_break (nth 0 t2 0)) eqn:B; ss.
    - eapply p_skip_line; [exact H2|lia|exact B|]. intros t3 m3 c3 S3 H3.
      eapply HQ; [eapply pos_le; eauto; lia| |left; eapply line_step_col; exact S3]. eapply adv_trans; [exact A2|apply line_step_adv; exact S3].
    - eapply HQ; [eapply pos_le; eauto|exact A2|]. right. cls. }
  destruct (eqc 0x23 (nth 0 t1 0)).
  - eapply p_skip_while; [exact H1|lia|apply nb_comment|]. intros w2 t2 m2 c2 T2 F2 M2 A2 H2 P2.
    eapply G; eauto. eapply adv_trans; eauto.
  - apply wp_ret. eapply G; eauto.
Qed.
Lemma e_block_breaks pindent indent breaks start n t m c (Q : Z * list N * mark -> cur -> Prop) :
  pos n t m c -> bol t m ->
  (forall i b e t' m' c', pos 1 t' m' c' -> adv t m t' m' -> lend t m e t' -> is_break (nth 0 t' 0) = false -> Q (i, b, e) c') ->
  wp (scan_block_scalar_breaks pindent indent breaks start) c Q (epos t0 m0 (Some start)).
Proof.
  intros H Bo HQ. unfold scan_block_scalar_breaks. sx.
  apply (p_loop t0 m0 (Some start) (fun (a : Z * list N * mark) t' m' => adv t m t' m' /\ lend t m (snd a) t') O _ _ t m).
  { eapply pos_le; [exact H|lia]. }
  { split; [constructor|]. apply lend_here; [constructor|exact Bo]. }
  clear H c. intros [[mi bs] e] t1 m1 c H [A B]. cbn [snd] in B. sx.
  apply (p_loop t0 m0 (Some start) (fun (_ : unit) t' m' => adv t1 m1 t' m' /\ exists g, t1 = g ++ t' /\ Forall (fun x => x = 0x20) g) 1%nat _ _ t1 m1).
  { eapply pos_le; [exact H|lia]. }
  { split; [constructor|]. exists []. auto. }
  clear H c. intros _ t2 m2 c H [A2 (g & Eg & Fg)]. sx.
  assert (L12 : (length t2 <= length t1)%nat) by (eapply adv_len; eauto).
  assert (A02 : adv t m t2 m2) by (eapply adv_trans; eauto).
  destruct (((indent =? 0)%Z || (Z.of_N (m_column m2) <? indent)%Z) && is_space (nth 0 t2 0)) eqn:Sp.
  - apply andb_true_iff in Sp. destruct Sp as [_ Sp]. sx.
    eapply p_skip; [exact H|cls|cls|]. clear H. intros x r c1 -> H1. cbn [nth] in Sp. sx.
    exists r, (next_column 1 m2). split; [exact H1|]. split; [|cbn [length]; lia].
    split; [eapply adv_trans; [exact A2|]; apply adv_one; cls|]. exists (g ++ [x]). split; [rewrite <- app_assoc; exact Eg|]. apply Forall_app. split; [exact Fg|]. constructor; [cls|constructor].
  - sx. destruct (((indent =? 0)%Z || (Z.of_N (m_column m2) <? indent)%Z) && is_tab (nth 0 t2 0)); sx.
    destruct (is_break (nth 0 t2 0)) eqn:Bk; sx.
    + eapply p_read_line; [exact H|lia|exact Bk|]. clear H. intros t3 m3 c3 S3 H3. sx.
      pose proof (line_step_adv _ _ _ _ S3) as A3. pose proof (line_step_len _ _ _ _ S3) as L3.
      assert (A03 : adv t m t3 m3) by (eapply adv_trans; eauto).
      exists t3, m3. split; [eapply pos_le; [exact H3|lia]|]. split; [|lia]. split; [exact A03|]. apply lend_here; [exact A03|left; eapply line_step_col; exact S3].
    + eapply HQ; [exact H|exact A02| |exact Bk]. eapply lend_le; [exact B|exact Eg|exact Fg].
Qed.
End R.

Lemma e_block pindent (literal : bool) t m c :
  hold 1 t m c -> nth 0 t 0 <> 0 -> is_break (nth 0 t 0) = false ->
  wp (scan_block_scalar pindent literal) c (fun tk c' => lend t m (t_end tk) (c_text c')) (epos t m (Some m)).
Proof.
  intros H0 Z B. pose proof (pos_start _ _ _ _ H0) as H. clear H0. unfold scan_block_scalar. sx.
  eapply p_skip; [exact H|exact Z|exact B|]. clear H. intros x r c1 -> H1. cbn [nth] in *. sx.
  eapply p_scan_block_header; [exact H1|]. clear H1 c1 c. intros [ch inc] t2 m2 c2 H2 A2 I2. cbn [snd] in I2. sx.
  eapply e_line_end; [exact H2|]. clear H2 c2. intros t3 m3 c3 H3 A3 Bo3. sx.
  eapply e_block_breaks; [exact H3|exact Bo3|]. clear H3 c3. intros i b e t4 m4 c4 H4 A4 B4 N4. sx.
  assert (L2 := adv_len _ _ _ _ A2). assert (L3 := adv_len _ _ _ _ A3). assert (L4 := adv_len _ _ _ _ A4).
  assert (A03 : adv (x :: r) m t3 m3) by (eapply adv_trans; [apply adv_one; exact B|eapply adv_trans; eauto]).
  apply (p_loop (x :: r) m (Some m) (fun (a : list N * list N * list N * bool * mark) t' m' => adv t4 m4 t' m' /\ lend (x :: r) m (snd a) t') 1%nat _ _ t4 m4).
  { eapply pos_le; [exact H4|lia]. }
  { split; [constructor|]. eapply lend_trans; [exact A03|]. exact B4. }
  clear H4 c4. intros [[[[s ld] tr] lb] e5] t5 m5 c5 H5 [A5 B5]. cbn [snd] in B5. sx.
  assert (L5 := adv_len _ _ _ _ A5).
  destruct ((Z.of_N (m_column m5) =? i)%Z && negb (is_z (nth 0 t5 0))) eqn:More; sx.
  2:{ cbn [t_end]. rewrite (proj1 (proj1 H5)). exact B5. }
  apply andb_true_iff in More. destruct More as [_ Z5]. apply negb_true_iff in Z5.
  eapply (wp_mono _ _ (fun (_ : list N) c' => c' = c5)); [|intros s2 c6 ->|intros ? K; exact K].
  { destruct (negb literal && starts_lf ld && negb lb && negb (is_blank (nth 0 t5 0))); [|reflexivity].
    destruct (nonempty tr); [reflexivity|]. apply wp_put; [cbn; unfold room; lia|reflexivity]. }
  sx. eapply p_read_while; [exact H5|lia|apply nb_comment|]. clear H5 c5. intros w t6 m6 c6 T6 F6 M6 A6 H6 P6. sx.
  assert (L6 := adv_len _ _ _ _ A6).
  eapply (wp_mono _ _ (fun (_ : list N) c7 => exists t7 m7, pos (x :: r) m 0 t7 m7 c7 /\ adv t6 m6 t7 m7 /\ (length t7 < length t5)%nat /\ bol t7 m7)).
  { destruct (is_break (nth 0 t6 0)) eqn:B6.
    - eapply p_read_line; [exact H6|lia|exact B6|]. intros t7 m7 c7 S7 H7.
      exists t7, m7. split; [eapply pos_le; [exact H7|lia]|]. split; [apply line_step_adv; exact S7|]. split; [apply line_step_len in S7; lia|left; eapply line_step_col; exact S7].
    - assert (Z6 : is_z (nth 0 t6 0) = true) by (unfold is_breakz in P6; rewrite B6 in P6; cls). eapply p_read_line_z; [exact H6|lia|exact Z6|]. intros _.
      exists t6, m6. split; [eapply pos_le; [exact H6|lia]|]. split; [constructor|]. split; [|right; cls].
      destruct w as [|y w]; [|subst t5; rewrite app_length; cbn [length]; lia].
      cbn [app] in T6. subst t6. unfold is_breakz in P6. rewrite B6 in P6. cbn [orb] in P6. rewrite Z5 in P6. discriminate. }
  2:{ intros ? K. exact K. }
  clear H6 c6. intros ld' c7 (t7 & m7 & H7 & A7 & L7 & Bo7). sx.
  eapply e_block_breaks; [exact H7|exact Bo7|].
  intros i8 b8 e8 t8 m8 c8 H8 A8 B8 N8. sx. assert (L8 := adv_len _ _ _ _ A8).
  exists t8, m8. split; [exact H8|]. split; [|lia]. split.
  - repeat (eapply adv_trans; [eassumption|]). constructor.
  - cbn [snd]. eapply lend_trans; [exact (proj2 H7)|exact B8].
Qed.

(* ---- directives: behind the version or the prefix ---- *)
Definition no_err (e : serr) : Prop := True.
Lemma wp_conj {A} (m : cm A) c (Q Q' : A -> cur -> Prop) E E' : wp m c Q E -> wp m c Q' E' -> wp m c (fun a c' => Q a c' /\ Q' a c') no_err.
Proof. unfold wp. destruct (m c); cbn; auto; try (intros; exact I). Qed.
Lemma e_directive c x t : (1 <= c_unread c)%nat -> c_text c = x :: t -> x <> 0 -> is_break x = false ->
  wp scan_directive c (fun tk c' => exists r1, directive_text t (t_tok tk) r1 /\ line_end r1 (c_text c') /\ adv (c_text c) (c_mark c) r1 (t_end tk)) no_err.
Proof.
  intros U T Z B. set (m := c_mark c). set (Qf := fun (tk : token) c' => exists r1, directive_text t (t_tok tk) r1 /\ line_end r1 (c_text c') /\ adv (c_text c) m r1 (t_end tk)).
  assert (H : pos (x :: t) m 1 (x :: t) m c) by (apply pos_start; repeat split; [exact T|lia]).
  assert (HEr : forall m, no_err (mkSerr SReader None m)) by (intros; exact I).
  assert (HEn : True -> forall p m', no_err (mkSerr p (Some m) m')) by (intros; exact I).
  unfold scan_directive. apply wp_bind. eapply wp_get_mark; [exact (proj1 H)|]. apply wp_bind. eapply wp_skip; [exact (proj1 H)|]. intros c1 H1'.
  assert (H1 : pos (x :: t) m 0 t (next_column 1 m) c1) by (split; [eapply hold_le; [exact H1'|lia]|apply adv_one; exact B]).
  assert (Fin : forall d e n r1 m2 c2, hold n r1 m2 c2 -> directive_text t d r1 -> adv (x :: t) m r1 e -> wp (scan_line_end m SDirectiveEnd ;;; ret (mkToken d m e false)) c2 Qf no_err).
  { intros d e n r1 m2 c2 H2 D A. apply wp_bind. eapply (x_line_stop m no_err True HEr HEn); [exact H2|auto|].
    intros r m3 c3 Le H3. apply wp_ret. exists r1. rewrite (proj1 H3), T. auto. }
  apply wp_bind. eapply wp_mono; [|intros n c2 K; exact K|intros e K; exact I]. 
  unfold scan_directive_name. apply wp_bind. eapply p_cache; [exact H1|]. intros c2 H2. apply wp_bind. eapply (p_read_while (x :: t) m (Some m)); [exact H2|lia|apply nb_alpha|].
  intros w q m3 c3 Eq F M3 A3 H3 P3. rewrite (name_utf8 w F). cbn [app].
  destruct w as [|y w]; [eapply p_err; exact H3|]. apply wp_bind. eapply wp_check0; [exact (proj1 H3)|lia|]. destruct (is_blankz (nth 0 q 0)) eqn:Bz; cbn [negb]; [|eapply p_err; exact H3].
  apply wp_ret. apply wp_bind. destruct (str_eqb_spec (y :: w) yaml_name) as [X|X].
  - apply wp_bind. eapply wp_mono; [eapply wp_conj; [eapply (x_version m no_err True HEr HEn _ _ _ _ (fun v c' => version_text q (fst v) (snd v) (c_text c')) (proj1 H3) Bz)|
      eapply (p_scan_version_value (x :: t) m m _ _ _ _ (fun _ c' => exists t' m', pos (x :: t) m 1 t' m' c') H3)]| |intros; exact I].
    + auto.
    + intros n1 n2 r m4 c4 V H4. cbn [fst snd]. rewrite (proj1 H4). exact V.
    + intros v t' m' c' H4 _ _. eauto.
    + cbv beta. intros v c4 [V (t' & m' & H4)]. rewrite (proj1 (proj1 H4)) in V. apply wp_bind. eapply wp_get_mark; [exact (proj1 H4)|]. apply wp_ret. eapply Fin; [exact (proj1 H4)| |exact (proj2 H4)].
      apply directive_cases. left. exists q, (fst v), (snd v). split; [rewrite <- X; exact Eq|auto].
  - destruct (str_eqb_spec (y :: w) tag_name) as [Y|Y]; [|eapply wp_err; [exact (proj1 H3)|exact I]].
    apply wp_bind. eapply wp_mono; [eapply wp_conj; [eapply (x_tagdir m no_err True HEr HEn _ _ _ _ (fun v c' => tagdir_text q (fst v) (snd v) (c_text c')) (proj1 H3) Bz)|
      eapply (p_scan_tag_directive_value (x :: t) m m _ _ _ _ (fun _ c' => exists t' m', pos (x :: t) m 1 t' m' c') H3)]| |intros; exact I].
    + auto.
    + intros n1 n2 r m4 c4 V H4. cbn [fst snd]. rewrite (proj1 H4). exact V.
    + intros v t' m' c' H4 _. eauto.
    + cbv beta. intros v c4 [V (t' & m' & H4)]. rewrite (proj1 (proj1 H4)) in V. apply wp_bind. eapply wp_get_mark; [exact (proj1 H4)|]. apply wp_ret. eapply Fin; [exact (proj1 H4)| |exact (proj2 H4)].
      apply directive_cases. right. exists q, (fst v), (snd v). split; [rewrite <- Y; exact Eq|auto].
Qed.
