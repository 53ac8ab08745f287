(* Which line the token scanners leave the cursor on. *)
From Verif Require Import Base ReaderModel Utf8Spec CharSpec Types CursorModel ScanModel RequiredSpec.

Section S.
Variable T : list N.
(* the rest of the text *)
Definition ats (c : cur) : Prop := c_text c = skipn (N.to_nat (m_index (c_mark c))) T.
(* something other than a space before the position on its line *)
Definition ink (m : mark) : Prop :=
  exists i, m_index m <= i + m_column m /\ i < m_index m /\ nth (N.to_nat i) T 0 <> 0x20.
Lemma ink_not_first m : ink m -> ~ first_on_line T m.
Proof.
  intros (i & H1 & H2 & H3) F. specialize (F i H1 H2). apply H3. apply (nth_error_nth _ _ 0) in F. exact F.
Qed.

(* every operation keeps the rest of the text in place *)
Definition keep {A} (m : cm A) : Prop := forall c a c', ats c -> m c = COk a c' -> ats c'.
(* on one line *)
Definition along (m m' : mark) : Prop := m_index m' + m_column m = m_index m + m_column m' /\ m_index m <= m_index m'.
Definition lp {A} (m : cm A) : Prop := forall c a c', ats c -> m c = COk a c' -> ats c' /\ along (c_mark c) (c_mark c').
Lemma along_refl m : along m m. Proof. split; lia. Qed.
Lemma along_trans m1 m2 m3 : along m1 m2 -> along m2 m3 -> along m1 m3.
Proof. unfold along. lia. Qed.
Lemma along_ink m m' : along m m' -> ink m -> ink m'.
Proof. intros [A B] (i & H1 & H2 & H3). exists i. repeat split; auto; lia. Qed.

Lemma keep_lp {A} (m : cm A) : lp m -> keep m.
Proof. intros H c a c' X E. eapply H; eauto. Qed.
Lemma keep_ret {A} (a : A) : keep (ret a).
Proof. intros c b c' H [= <- <-]. exact H. Qed.
Lemma keep_bind {A B} (m : cm A) (k : A -> cm B) : keep m -> (forall a, keep (k a)) -> keep (bind m k).
Proof.
  intros H K c b c' X E. unfold bind in E. destruct (m c) as [a c1| | |] eqn:E1; try discriminate. eapply K; [|exact E]. eapply H; eauto.
Qed.
Lemma lp_ret {A} (a : A) : lp (ret a).
Proof. intros c b c' H [= <- <-]. split; [exact H|apply along_refl]. Qed.
Lemma lp_bind {A B} (m : cm A) (k : A -> cm B) : lp m -> (forall a, lp (k a)) -> lp (bind m k).
Proof.
  intros H K c b c' X E. unfold bind in E. destruct (m c) as [a c1| | |] eqn:E1; try discriminate.
  destruct (H _ _ _ X E1) as [X1 A1]. destruct (K _ _ _ _ X1 E) as [X2 A2]. split; [exact X2|eapply along_trans; eauto].
Qed.
Lemma lp_err {A} ctx p : lp (err (A := A) ctx p). Proof. intros c a c' _ E. discriminate. Qed.
Lemma lp_ub {A} : lp (ub (A := A)). Proof. intros c a c' _ E. discriminate. Qed.
Lemma lp_mark : lp get_mark. Proof. intros c a c' H [= <- <-]. split; [exact H|apply along_refl]. Qed.
Lemma lp_column : lp column. Proof. intros c a c' H [= <- <-]. split; [exact H|apply along_refl]. Qed.
Lemma lp_peek k : lp (peek k).
Proof. intros c a c' H E. unfold peek in E. destruct (_ && _); [|discriminate]. injection E as <- <-. split; [exact H|apply along_refl]. Qed.
Lemma lp_check k p : lp (check k p).
Proof. apply lp_bind; [apply lp_peek|intros; apply lp_ret]. Qed.
Lemma lp_andc a b : lp a -> lp b -> lp (andc a b).
Proof. intros. apply lp_bind; [assumption|]. intros []; [assumption|apply lp_ret]. Qed.
Lemma lp_orc a b : lp a -> lp b -> lp (orc a b).
Proof. intros. apply lp_bind; [assumption|]. intros []; [apply lp_ret|assumption]. Qed.
Lemma lp_cache n : lp (cache n).
Proof.
  intros c a c' H E. unfold cache in E. destruct (n <=? c_unread c)%nat; [injection E as <- <-; split; [exact H|apply along_refl]|].
  destruct (c_bad c && _); [discriminate|]. injection E as <- <-. split; [exact H|apply along_refl].
Qed.
Lemma skipn_S {A} (l : list A) n x r : skipn n l = x :: r -> skipn (S n) l = r.
Proof. revert n. induction l as [|y l IH]; intros n; [rewrite skipn_nil; discriminate|]. destruct n; cbn; [intros [= _ <-]; reflexivity|apply IH]. Qed.
Lemma skipn_add {A} (l : list A) n k : skipn k (skipn n l) = skipn (n + k) l.
Proof. revert n. induction l as [|y l IH]; intros n; [rewrite !skipn_nil; reflexivity|]. destruct n; [reflexivity|]. cbn. apply IH. Qed.
Lemma skip_eq c u c' : skip c = COk u c' -> exists x r, c_text c = x :: r /\ c_text c' = r /\ c_mark c' = next_column 1 (c_mark c).
Proof. unfold skip. destruct (c_text c) as [|x r]; [discriminate|]. destruct (c_unread c); [discriminate|]. intros [= _ <-]. exists x, r. auto. Qed.
Lemma lp_skip : lp skip.
Proof.
  intros c a c' H E. destruct (skip_eq _ _ _ E) as (x & r & E1 & E2 & E3). unfold ats in *. rewrite E2, E3. cbn [m_index next_column]. split.
  - rewrite E1 in H. symmetry in H. apply skipn_S in H. rewrite N2Nat.inj_add. change (N.to_nat 1) with 1%nat. rewrite Nat.add_1_r. symmetry. exact H.
  - unfold along, next_column. cbn. lia.
Qed.
Lemma keep_drop k : keep (drop_line k).
Proof.
  intros c a c' H E. unfold drop_line in E. destruct (_ && _); [|discriminate]. injection E as <- <-. unfold ats in *. cbn. rewrite H, skipn_add. f_equal. lia.
Qed.
Lemma lp_put s bs : lp (put s bs).
Proof. unfold put. destruct (_ <=? _)%nat; [apply lp_ret|apply lp_ub]. Qed.
Lemma lp_loop_n {A B} (body : A -> cm (A + B)) n : (forall a, lp (body a)) -> forall a, lp (loop_n n body a).
Proof.
  intros H. induction n as [|n IH]; intros a c b c' X E; [discriminate|]. cbn in E. destruct (body a c) as [[a'|b'] c1| | |] eqn:E1; try discriminate.
  - destruct (H _ _ _ _ X E1) as [X1 A1]. destruct (IH _ _ _ _ X1 E) as [X2 A2]. split; [exact X2|eapply along_trans; eauto].
  - injection E as <- <-. eapply H; eauto.
Qed.
Lemma lp_loop {A B} (body : A -> cm (A + B)) : (forall a, lp (body a)) -> forall a, lp (loop body a).
Proof. intros H a c b c' X E. eapply lp_loop_n; eauto. Qed.
Lemma keep_loop {A B} (body : A -> cm (A + B)) : (forall a, keep (body a)) -> forall a, keep (loop body a).
Proof.
  intros H a c b c' X E. unfold loop in E. revert X E. generalize (S (length (c_text c))). intros n. revert a c.
  induction n as [|n IH]; intros a c X E; [discriminate|]. cbn in E. destruct (body a c) as [[a'|b'] c1| | |] eqn:E1; try discriminate.
  - eapply IH; [|exact E]. eapply H; eauto.
  - injection E as <- <-. eapply H; eauto.
Qed.
(* invariants of loops *)
Lemma loop_inv {A B} (body : A -> cm (A + B)) (I : A -> cur -> Prop) (Q : B -> cur -> Prop) :
  (forall a c r c', I a c -> body a c = COk r c' -> match r with inl a' => I a' c' | inr b => Q b c' end) ->
  forall a c b c', I a c -> loop body a c = COk b c' -> Q b c'.
Proof.
  intros H a c b c'. unfold loop. generalize (S (length (c_text c))). intros n. revert a c.
  induction n as [|n IH]; intros a c X E; [discriminate|]. cbn in E. destruct (body a c) as [[a'|b'] c1| | |] eqn:E1; try discriminate.
  - eapply IH; [|exact E]. exact (H _ _ _ _ X E1).
  - injection E as <- <-. exact (H _ _ _ _ X E1).
Qed.

Create HintDb lps.
Hint Resolve lp_ret lp_err lp_ub lp_mark lp_column lp_peek lp_check lp_cache lp_skip lp_put : lps.
Ltac lpt := repeat first
  [ solve [auto with lps]
  | match goal with
    | |- lp (bind _ _) => apply lp_bind; [|intros ?]
    | |- lp (andc _ _) => apply lp_andc
    | |- lp (orc _ _) => apply lp_orc
    | |- lp (loop _ _) => apply lp_loop; intros ?
    | |- lp (let '(_, _) := ?x in _) => destruct x
    | |- lp (if ?b then _ else _) => destruct b
    | |- lp (match ?x with _ => _ end) => destruct x
    end ].
Lemma lp_read s : lp (read s). Proof. unfold read. lpt. Qed.
Hint Resolve lp_read : lps.
Lemma lp_skip_while p : lp (skip_while p). Proof. unfold skip_while. lpt. Qed.
Lemma lp_read_while p s : lp (read_while p s). Proof. unfold read_while. lpt. Qed.
Hint Resolve lp_skip_while lp_read_while : lps.
Lemma lp_tag_handle d m : lp (scan_tag_handle d m). Proof. unfold scan_tag_handle. lpt. Qed.
Lemma lp_uri_escapes m s : lp (scan_uri_escapes m s). Proof. unfold scan_uri_escapes. lpt. Qed.
Hint Resolve lp_tag_handle lp_uri_escapes : lps.
Lemma lp_tag_uri u h m : lp (scan_tag_uri u h m). Proof. unfold scan_tag_uri. lpt. Qed.
Hint Resolve lp_tag_uri : lps.
Lemma lp_anchor a : lp (scan_anchor a). Proof. unfold scan_anchor. lpt. Qed.
Lemma lp_tag f : lp (scan_tag f). Proof. unfold scan_tag. lpt. Qed.
Lemma lp_skip_n n : lp (skip_n n). Proof. induction n; cbn; lpt. Qed.
Lemma lp_hex n : forall k m v, lp (scan_hex n k m v).
Proof. induction n as [|n IH]; intros; cbn; lpt. Qed.
Hint Resolve lp_skip_n lp_hex : lps.
Lemma lp_escape m s : lp (scan_escape m s). Proof. unfold scan_escape. lpt. Qed.

Hint Resolve keep_lp keep_drop : lps.
Ltac kpt := repeat first
  [ solve [auto with lps]
  | match goal with
    | |- keep (bind _ _) => apply keep_bind; [|intros ?]
    | |- keep (loop _ _) => apply keep_loop; intros ?
    | |- keep (let '(_, _) := ?x in _) => destruct x
    | |- keep (if ?b then _ else _) => destruct b
    | |- keep (match ?x with _ => _ end) => destruct x
    | |- keep (andc _ _) => apply keep_lp; lpt
    | |- keep (orc _ _) => apply keep_lp; lpt
    end ].
Lemma keep_is_crlf : lp is_crlf. Proof. unfold is_crlf. lpt. Qed.
Hint Resolve keep_is_crlf : lps.
Lemma keep_skip_line : keep skip_line. Proof. unfold skip_line. kpt. Qed.
Lemma keep_read_line s : keep (read_line s). Proof. unfold read_line. kpt. Qed.
Hint Resolve keep_skip_line keep_read_line lp_escape : lps.
Lemma lp_indicator : lp document_indicator. Proof. unfold document_indicator, triple. lpt. Qed.
Hint Resolve lp_indicator : lps.
Lemma keep_word b m s : keep (scan_quoted_word b m s). Proof. unfold scan_quoted_word. kpt. Qed.
Lemma keep_qblanks b : keep (scan_quoted_blanks b). Proof. unfold scan_quoted_blanks. kpt. Qed.
Lemma lp_fold s l t : lp (fold_breaks s l t). Proof. unfold fold_breaks. lpt. Qed.
Hint Resolve keep_word keep_qblanks lp_fold : lps.

Lemma bind_ok {A B} (m : cm A) (k : A -> cm B) c b c' : bind m k c = COk b c' -> exists a c1, m c = COk a c1 /\ k a c1 = COk b c'.
Proof. unfold bind. destruct (m c) as [a c1| | |]; try discriminate. eauto. Qed.
Lemma check_ok k p c b c' : check k p c = COk b c' -> c' = c /\ b = p (nth k (c_text c) 0).
Proof. intros E. apply bind_ok in E as (x & c1 & E1 & E2). unfold peek in E1. destruct (_ && _); [|discriminate]. injection E1 as <- <-. injection E2 as <- <-. auto. Qed.

Lemma hd_text c : ats c -> nth 0 (c_text c) 0 = nth (N.to_nat (m_index (c_mark c))) T 0.
Proof.
  unfold ats. intros ->. generalize (N.to_nat (m_index (c_mark c))) as i. generalize T as l.
  induction l as [|y l IH]; intros i; destruct i; cbn; auto.
Qed.

(* a quoted scalar ends in a quote *)
Lemma flow_scalar_ink b c tk c' : ats c -> scan_flow_scalar b c = COk tk c' -> ink (c_mark c').
Proof.
  intros X E. unfold scan_flow_scalar in E. apply bind_ok in E as (m & c1 & E1 & E). assert (c1 = c) by (injection E1; congruence). subst c1. clear E1.
  apply bind_ok in E as (u & c2 & E2 & E). pose proof (keep_lp _ lp_skip _ _ _ X E2) as X2.
  apply bind_ok in E as (s & c3 & E3 & E). apply bind_ok in E as (u4 & c4 & E4 & E). apply bind_ok in E as (m5 & c5 & E5 & E).
  injection E5 as <- <-. injection E as _ <-.
  assert (K : ats c3 /\ nth 0 (c_text c3) 0 <> 0x20).
  { revert E3. apply (loop_inv _ (fun _ c => ats c) (fun _ c => ats c /\ nth 0 (c_text c) 0 <> 0x20)); [|exact X2].
    clear. intros s c r c' X E.
    apply bind_ok in E as (? & c1 & E1 & E). pose proof (keep_lp _ (lp_cache _) _ _ _ X E1) as X1. clear E1 X.
    apply bind_ok in E as (i & c2 & E2 & E). pose proof (keep_lp _ lp_indicator _ _ _ X1 E2) as X2. clear E2 X1. destruct i; [discriminate|].
    apply bind_ok in E as (z & c3 & E3 & E). pose proof (keep_lp _ (lp_check _ _) _ _ _ X2 E3) as X3. clear E3 X2. destruct z; [discriminate|].
    apply bind_ok in E as (? & c4 & E4 & E). pose proof (keep_lp _ (lp_cache _) _ _ _ X3 E4) as X4. clear E4 X3.
    apply bind_ok in E as ([s' lb] & c5 & E5 & E). pose proof (keep_word _ _ _ _ _ _ X4 E5) as X5. clear E5 X4.
    apply bind_ok in E as (? & c6 & E6 & E). pose proof (keep_lp _ (lp_cache _) _ _ _ X5 E6) as X6. clear E6 X5.
    apply bind_ok in E as (q & c7 & E7 & E). apply check_ok in E7 as [-> E7]. destruct q.
    - injection E as <- <-. split; [exact X6|]. unfold eqc in E7. symmetry in E7. apply N.eqb_eq in E7. rewrite E7. destruct b; discriminate.
    - apply bind_ok in E as (? & c8 & E8 & E). pose proof (keep_lp _ (lp_cache _) _ _ _ X6 E8) as X8. clear E8 X6.
      apply bind_ok in E as ([[[lb' ws] ld] tr] & c9 & E9 & E). pose proof (keep_qblanks _ _ _ _ X8 E9) as X9. clear E9 X8.
      apply bind_ok in E as (s2 & c10 & E10 & E). injection E as <- <-.
      assert (L : lp (if lb' then fold_breaks s' ld tr else ret (s' ++ ws))) by (destruct lb'; auto with lps).
      exact (keep_lp _ L _ _ _ X9 E10). }
  destruct K as [X3 N3]. destruct (skip_eq _ _ _ E4) as (x & r & T1 & T2 & T3). rewrite T1 in N3. cbn [nth] in N3.
  exists (m_index (c_mark c3)). rewrite T3. unfold next_column. cbn. split; [lia|]. split; [lia|].
  rewrite <- (hd_text _ X3), T1. exact N3.
Qed.

(* one character that is not a space has been passed *)
Lemma skip_ink c u c' : ats c -> nth 0 (c_text c) 0 <> 0x20 -> skip c = COk u c' -> ink (c_mark c').
Proof.
  intros X H E. rewrite (hd_text _ X) in H. destruct (skip_eq _ _ _ E) as (x & r & T1 & T2 & T3).
  exists (m_index (c_mark c)). rewrite T3. unfold next_column. cbn. repeat split; auto; lia.
Qed.
Lemma read_ink s c s' c' : ats c -> nth 0 (c_text c) 0 <> 0x20 -> read s c = COk s' c' -> ink (c_mark c').
Proof.
  intros X H E. apply bind_ok in E as (x & c1 & E1 & E). unfold peek in E1. destruct (_ && _); [|discriminate]. injection E1 as <- <-.
  apply bind_ok in E as (u & c2 & E2 & E). injection E as _ <-. eapply skip_ink; eauto.
Qed.
(* the first character of what is passed on one line *)
Lemma lp_ink {A} (m : cm A) c a c' : lp m -> ats c -> nth 0 (c_text c) 0 <> 0x20 -> (length (c_text c') < length (c_text c))%nat ->
  m c = COk a c' -> ink (c_mark c').
Proof.
  intros L X H Ln E. destruct (L _ _ _ X E) as [X' [A1 A2]]. exists (m_index (c_mark c)). rewrite (hd_text _ X) in H.
  split; [lia|]. split; [|exact H]. unfold ats in *. destruct (N.eq_dec (m_index (c_mark c)) (m_index (c_mark c'))) as [e|]; [|lia].
  rewrite X, X', e in Ln. lia.
Qed.

(* between tokens: either the line has something on it or a line break has been passed *)
Lemma to_next_ink a c a' c' : ats c -> scan_to_next_token false a c = COk a' c' -> ink (c_mark c) \/ a = true ->
  ats c' /\ (ink (c_mark c') \/ a' = true).
Proof.
  intros X E H. unfold scan_to_next_token in E. revert E.
  apply (loop_inv _ (fun a c => ats c /\ (ink (c_mark c) \/ a = true)) (fun a c => ats c /\ (ink (c_mark c) \/ a = true))); [|auto].
  clear. intros a c r c' [X H] E.
  assert (Step : forall B (m : cm B) c b c1, lp m -> ats c /\ (ink (c_mark c) \/ a = true) -> m c = COk b c1 -> ats c1 /\ (ink (c_mark c1) \/ a = true)).
  { intros B m c0 b c1 L [X0 H0] E0. destruct (L _ _ _ X0 E0) as [X1 A1]. split; [exact X1|]. destruct H0 as [H0|H0]; [left; eapply along_ink; eauto|auto]. }
  pose proof (conj X H) as XH. clear X H.
  apply bind_ok in E as (? & c1 & E1 & E). apply (Step _ _ _ _ _ (lp_cache _) XH) in E1. clear XH.
  apply bind_ok in E as (? & c2 & E2 & E). apply (Step _ _ _ _ _ lp_column E1) in E2. clear E1.
  apply bind_ok in E as (b & c3 & E3 & E). apply (Step _ _ _ _ _ (lp_andc _ _ (lp_ret _) (lp_check _ _)) E2) in E3. clear E2.
  apply bind_ok in E as (? & c4 & E4 & E). assert (L4 : lp (if b then skip else ret tt)) by (destruct b; auto with lps). apply (Step _ _ _ _ _ L4 E3) in E4. clear E3 L4.
  apply bind_ok in E as (? & c5 & E5 & E). apply (Step _ _ _ _ _ (lp_cache _) E4) in E5. clear E4.
  apply bind_ok in E as (? & c6 & E6 & E). apply (Step _ _ _ _ _ (lp_skip_while _) E5) in E6. clear E5.
  apply bind_ok in E as (h & c7 & E7 & E). apply (Step _ _ _ _ _ (lp_check _ _) E6) in E7. clear E6.
  apply bind_ok in E as (? & c8 & E8 & E). assert (L8 : lp (if h then skip_while (fun x => negb (is_breakz x)) else ret tt)) by (destruct h; auto with lps).
  apply (Step _ _ _ _ _ L8 E7) in E8. clear E7 L8.
  apply bind_ok in E as (k & c9 & E9 & E). apply (Step _ _ _ _ _ (lp_check _ _) E8) in E9. clear E8. destruct k.
  - apply bind_ok in E as (? & c10 & E10 & E). apply (Step _ _ _ _ _ (lp_cache _) E9) in E10. clear E9.
    apply bind_ok in E as (? & c11 & E11 & E). injection E as <- <-. split; [|auto]. eapply keep_skip_line; [apply E10|exact E11].
  - injection E as <- <-. exact E9.
Qed.

(* a plain scalar: either its last line has something on it or a line break follows *)
Definition pinv (m : mark) (lb : bool) (c : cur) : Prop :=
  ats c /\ (lb = true \/ ink (c_mark c) \/ m_index (c_mark c) = m_index m).
Lemma along_pinv m lb c c1 : ats c1 -> along (c_mark c) (c_mark c1) -> m_index (c_mark c1) = m_index (c_mark c) -> pinv m lb c -> pinv m lb c1.
Proof. intros X A E [_ H]. split; [exact X|]. destruct H as [H|[H|H]]; [auto|right; left; eapply along_ink; eauto|right; right; lia]. Qed.
(* operations that do not move *)
Definition still {A} (m : cm A) : Prop := forall c a c', m c = COk a c' -> c_text c' = c_text c /\ c_mark c' = c_mark c.
Lemma still_ret {A} (a : A) : still (ret a). Proof. intros c b c' [= _ <-]. auto. Qed.
Lemma still_bind {A B} (m : cm A) (k : A -> cm B) : still m -> (forall a, still (k a)) -> still (bind m k).
Proof. intros H K c b c' E. apply bind_ok in E as (a & c1 & E1 & E2). apply H in E1 as [E3 E4]. apply K in E2 as [-> ->]. auto. Qed.
Lemma still_err {A} ctx p : still (err (A := A) ctx p). Proof. intros c a c' E. discriminate. Qed.
Lemma still_ub {A} : still (ub (A := A)). Proof. intros c a c' E. discriminate. Qed.
Lemma still_peek k : still (peek k). Proof. intros c a c' E. unfold peek in E. destruct (_ && _); [|discriminate]. injection E as _ <-. auto. Qed.
Lemma still_check k p : still (check k p). Proof. apply still_bind; [apply still_peek|intros; apply still_ret]. Qed.
Lemma still_andc a b : still a -> still b -> still (andc a b). Proof. intros. apply still_bind; [assumption|]. intros []; [assumption|apply still_ret]. Qed.
Lemma still_orc a b : still a -> still b -> still (orc a b). Proof. intros. apply still_bind; [assumption|]. intros []; [apply still_ret|assumption]. Qed.
Lemma still_cache n : still (cache n).
Proof. intros c a c' E. unfold cache in E. destruct (_ <=? _)%nat; [injection E as _ <-; auto|]. destruct (c_bad c && _); [discriminate|]. injection E as _ <-. auto. Qed.
Lemma still_column : still column. Proof. intros c a c' [= _ <-]. auto. Qed.
Lemma still_mark : still get_mark. Proof. intros c a c' [= _ <-]. auto. Qed.
Lemma still_put s b : still (put s b). Proof. unfold put. destruct (_ <=? _)%nat; [apply still_ret|apply still_ub]. Qed.
Lemma still_fold s l t : still (fold_breaks s l t).
Proof. unfold fold_breaks. destruct (starts_lf l); [destruct (nonempty t)|]; first [apply still_ret|apply still_put]. Qed.
Hint Resolve still_ret still_err still_ub still_peek still_check still_andc still_orc still_cache still_column still_mark still_put still_fold : lps.
Lemma still_indicator : still document_indicator. Proof. unfold document_indicator, triple. apply still_bind; auto with lps. intros. auto 10 with lps. Qed.
Lemma still_pinv {A} (mm : cm A) m lb c a c1 : still mm -> pinv m lb c -> mm c = COk a c1 -> pinv m lb c1.
Proof. intros S [X H] E. apply S in E as [E1 E2]. unfold pinv, ats in *. rewrite E1, E2. auto. Qed.

Lemma plain_word_inv m flow start st c st' c' : pinv m (fst (fst (fst (snd (fst st))))) c ->
  scan_plain_word flow start st c = COk st' c' -> pinv m (fst (fst (fst (snd (fst st'))))) c'.
Proof.
  intros H E. revert E. unfold scan_plain_word.
  apply (loop_inv _ (fun st c => pinv m (fst (fst (fst (snd (fst st))))) c) (fun st c => pinv m (fst (fst (fst (snd (fst st))))) c)); [|exact H].
  clear. intros [[s [[[lb ws] ld] tr]] e] c r c' H E. cbn [fst snd] in H.
  apply bind_ok in E as (z & c1 & E1 & E). apply check_ok in E1 as [-> Ez]. destruct z; [injection E as <- <-; exact H|].
  apply bind_ok in E as (k & c2 & E2 & E).
  assert (S2 : still (andc (ret flow) (andc (check 0 (eqc 0x3A)) (check 1 (fun x => flow_end x || (x =? 0x3F)))))) by auto 10 with lps.
  pose proof (S2 _ _ _ E2) as [T2 M2]. apply (still_pinv _ _ _ _ _ _ S2 H) in E2. clear S2 H. destruct k; [discriminate|].
  apply bind_ok in E as (k & c3 & E3 & E).
  assert (S3 : still (orc (andc (check 0 (eqc 0x3A)) (check 1 is_blankz)) (andc (ret flow) (check 0 flow_end)))) by auto 10 with lps.
  pose proof (S3 _ _ _ E3) as [T3 M3]. apply (still_pinv _ _ _ _ _ _ S3 E2) in E3. clear S3 E2. destruct k; [injection E as <- <-; exact E3|].
  apply bind_ok in E as (s1 & c4 & E4 & E). assert (S4 : still (if lb then fold_breaks s ld tr else ret (s ++ ws))) by (destruct lb; auto with lps).
  pose proof (S4 _ _ _ E4) as [T4 M4]. apply (still_pinv _ _ _ _ _ _ S4 E3) in E4. clear S4 E3.
  apply bind_ok in E as (s2 & c5 & E5 & E). apply bind_ok in E as (e' & c6 & E6 & E). apply bind_ok in E as (? & c7 & E7 & E). injection E as <- <-. cbn [fst snd].
  assert (N4 : nth 0 (c_text c4) 0 <> 0x20).
  { rewrite T4, T3, T2. intros Q. rewrite Q in Ez. discriminate. }
  pose proof (lp_read _ _ _ _ (proj1 E4) E5) as [X5 _]. pose proof (read_ink _ _ _ _ (proj1 E4) N4 E5) as I5.
  assert (P5 : pinv m false c5) by (split; auto).
  apply (still_pinv _ _ _ _ _ _ still_mark P5) in E6. apply (still_pinv _ _ _ _ _ _ (still_cache _) E6) in E7. exact E7.
Qed.

Lemma plain_blanks_inv m i start b c b' c' : is_blank (nth (N.to_nat (m_index m)) T 0) = false -> is_break (nth (N.to_nat (m_index m)) T 0) = false ->
  pinv m (fst (fst (fst b))) c -> scan_plain_blanks i start b c = COk b' c' -> pinv m (fst (fst (fst b'))) c'.
Proof.
  intros N1 N2 H E. revert E. unfold scan_plain_blanks.
  apply (loop_inv _ (fun b c => pinv m (fst (fst (fst b))) c) (fun b c => pinv m (fst (fst (fst b))) c)); [|exact H].
  clear -N1 N2. intros [[[lb ws] ld] tr] c r c' H E. cbn [fst snd] in H.
  apply bind_ok in E as (x & c1 & E1 & E). unfold peek in E1. destruct (_ && _); [|discriminate]. injection E1 as <- <-.
  destruct (is_blank (nth 0 (c_text c) 0)) eqn:B.
  - apply bind_ok in E as (col & c1 & E1 & E). injection E1 as <- <-. destruct (_ && _ && _); [discriminate|]. destruct lb.
    + apply bind_ok in E as (? & c1 & E1 & E). apply bind_ok in E as (? & c2 & E2 & E). injection E as <- <-.
      pose proof (lp_skip _ _ _ (proj1 H) E1) as [X1 _]. split; [|left; reflexivity]. eapply keep_lp; [apply lp_cache|exact X1|exact E2].
    + apply bind_ok in E as (w & c1 & E1 & E). apply bind_ok in E as (? & c2 & E2 & E). injection E as <- <-.
      assert (I : ink (c_mark c)).
      { destruct H as [X [H|[H|H]]]; [discriminate|exact H|]. rewrite (hd_text _ X), H in B. congruence. }
      pose proof (lp_read _ _ _ _ (proj1 H) E1) as [X1 A1]. destruct (lp_cache _ _ _ _ X1 E2) as [X2 A2]. split; [exact X2|].
      right. left. eapply along_ink; [exact A2|]. eapply along_ink; eauto.
  - destruct (is_break (nth 0 (c_text c) 0)) eqn:Bk; [|injection E as <- <-; exact H].
    apply bind_ok in E as (? & c1 & E1 & E). pose proof (keep_lp _ (lp_cache _) _ _ _ (proj1 H) E1) as X1. destruct lb.
    + apply bind_ok in E as (? & c2 & E2 & E). apply bind_ok in E as (? & c3 & E3 & E). injection E as <- <-.
      split; [|left; reflexivity]. eapply keep_lp; [apply lp_cache| |exact E3]. eapply keep_read_line; eauto.
    + apply bind_ok in E as (? & c2 & E2 & E). apply bind_ok in E as (? & c3 & E3 & E). injection E as <- <-.
      split; [|left; reflexivity]. eapply keep_lp; [apply lp_cache| |exact E3]. eapply keep_read_line; eauto.
Qed.

Lemma plain_ink flow i c tk lb c' : ats c -> is_blank (nth 0 (c_text c) 0) = false -> is_break (nth 0 (c_text c) 0) = false ->
  (length (c_text c') < length (c_text c))%nat -> scan_plain_scalar flow i c = COk (tk, lb) c' -> lb = true \/ ink (c_mark c').
Proof.
  intros X N1 N2 Ln E. unfold scan_plain_scalar in E. apply bind_ok in E as (m & c1 & E1 & E). injection E1 as <- <-.
  rewrite (hd_text _ X) in N1, N2.
  assert (P0 : pinv (c_mark c) false c) by (split; auto). remember (c_mark c) as m eqn:Em in N1, N2, E, P0.
  apply bind_ok in E as ([[s [[[lb' ws] ld] tr]] e] & c1 & E1 & E). injection E as <- <- <-.
  assert (K : pinv m lb' c1).
  { change lb' with (fst (fst (fst (snd (fst (s, (lb', ws, ld, tr), e)))))). revert E1.
    apply (loop_inv _ (fun st c => pinv m (fst (fst (fst (snd (fst st))))) c) (fun st c => pinv m (fst (fst (fst (snd (fst st))))) c)).
    2:{ exact P0. }
    clear -N1 N2. intros [[s [[[lb ws] ld] tr]] e] c r c' H E. cbn [fst snd] in H.
    apply bind_ok in E as (? & c1 & E1 & E). apply (still_pinv _ _ _ _ _ _ (still_cache _) H) in E1. clear H.
    apply bind_ok in E as (ind & c2 & E2 & E). apply (still_pinv _ _ _ _ _ _ still_indicator E1) in E2. clear E1. destruct ind; [injection E as <- <-; exact E2|].
    apply bind_ok in E as (h & c3 & E3 & E). apply (still_pinv _ _ _ _ _ _ (still_check _ _) E2) in E3. clear E2. destruct h; [injection E as <- <-; exact E3|].
    apply bind_ok in E as (st1 & c4 & E4 & E). pose proof (plain_word_inv m _ _ (s, (lb, ws, ld, tr), e) _ _ _ E3 E4) as H4. clear E3 E4.
    apply bind_ok in E as (k & c5 & E5 & E). apply (still_pinv _ _ _ _ _ _ (still_check _ _) H4) in E5. clear H4. destruct k; [|injection E as <- <-; exact E5].
    cbn [negb] in E. apply bind_ok in E as (? & c6 & E6 & E). apply (still_pinv _ _ _ _ _ _ (still_cache _) E5) in E6. clear E5.
    destruct st1 as [[s1 b1] e1]. apply bind_ok in E as (b2 & c7 & E7 & E). cbn [fst snd] in E6. apply (plain_blanks_inv m _ _ b1 _ _ _ N1 N2 E6) in E7. clear E6.
    apply bind_ok in E as (col & c8 & E8 & E). injection E8 as <- <-. destruct (_ && _); injection E as <- <-; exact E7. }
  destruct K as [X1 [K|[K|K]]]; [auto|auto|]. unfold ats in *. rewrite X, X1, K, Em in Ln. lia.
Qed.
End S.
