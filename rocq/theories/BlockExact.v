(* A block scalar is read as it is spelled. *)
From Verif Require Import Base ReaderModel Utf8Spec Utf8Lemmas CharSpec Types CursorModel ScanModel ScannerModel CursorProofs ScanProofs ScanQuoted RoundSpec LexSpec GapExact QuotedExact LexUnique PlainExact.

Lemma widest_spaces k s : Forall (fun x => x = 0x20) s -> widest k s = k + nlen s.
Proof.
  intros F. revert k. induction F as [|x s -> F IH]; intros k; cbn [widest]; [rewrite nlen_nil; lia|].
  change (0x20 =? 0x20) with true. cbv iota. rewrite IH, nlen_cons. lia.
Qed.
Lemma widest_line k s b r : Forall (fun x => x = 0x20) s -> line_break b -> widest k (s ++ b ++ r) = N.max (k + nlen s) (widest 0 r).
Proof.
  intros F B. revert k. induction F as [|x s -> F IH]; intros k; cbn [app widest].
  - rewrite nlen_nil. destruct B as [(x & -> & B)| ->]; cbn [app widest].
    + replace (x =? 0x20) with false; [lia|]. symmetry. apply N.eqb_neq. intros ->. discriminate.
    + change (0xD =? 0x20) with false. change (0xA =? 0x20) with false. cbv iota. lia.
  - change (0x20 =? 0x20) with true. cbv iota. rewrite IH, nlen_cons. lia.
Qed.
Lemma joined_utf8 (literal : bool) v ld bs (kept : bool) : ld = [] \/ (exists x, ld = [x]) ->
  (if negb literal && starts_lf (utf8 ld) && negb kept then if nonempty (utf8 bs) then utf8 v else utf8 v ++ [0x20] else utf8 v ++ utf8 ld) ++ utf8 bs
  = utf8 (v ++ joined literal ld bs kept).
Proof.
  intros [->|(x & ->)]; rewrite utf8_app.
  - cbn [utf8 flat_map starts_lf joined]. rewrite andb_false_r. cbn [andb]. rewrite app_nil_r. reflexivity.
  - cbn [joined]. rewrite utf8_one. destruct literal; cbn [negb andb orb].
    + change (utf8 (x :: bs)) with (utf8_enc x ++ utf8 bs). rewrite <- app_assoc. reflexivity.
    + destruct kept; cbn [negb andb].
      * rewrite andb_false_r. change (utf8 (x :: bs)) with (utf8_enc x ++ utf8 bs). rewrite <- app_assoc. reflexivity.
      * rewrite andb_true_r, folded_utf8. destruct (starts_lf (utf8_enc x)); [|rewrite <- app_assoc; reflexivity].
        destruct (nonempty (utf8 bs)) eqn:Ne; [reflexivity|]. destruct (utf8 bs); [rewrite app_nil_r; reflexivity|discriminate].
Qed.

Lemma digit_is x : is_digit x = true <-> digit x.
Proof. unfold is_digit, in_range, digit. rewrite andb_true_iff, !N.leb_le. tauto. Qed.
Lemma sign_is x : (x =? 0x2B) || (x =? 0x2D) = true <-> sign x.
Proof. unfold sign. rewrite orb_true_iff, !N.eqb_eq. tauto. Qed.
Lemma adv_over w t : Forall (fun x => is_break x = false) w -> forall m, adv (w ++ t) m t (next_column (nlen w) m).
Proof.
  induction 1 as [|x w B F IH]; intros m; cbn [app].
  - replace (next_column (nlen (@nil N)) m) with m; [constructor|]. unfold next_column. destruct m. cbn. f_equal; lia.
  - apply adv_char; [exact B|]. replace (next_column (nlen (x :: w)) m) with (next_column (nlen w) (next_column 1 m)); [apply IH|].
    rewrite nlen_cons. unfold next_column. cbn [m_index m_line m_column]. f_equal; lia.
Qed.
Lemma x_read_while (E : serr -> Prop) (HE : forall m, E (mkSerr SReader None m)) p s n t m c (Q : list N -> cur -> Prop) :
  hold n t m c -> (1 <= n)%nat -> (forall x, p x = true -> x <> 0 /\ is_break x = false) ->
  (forall w t' c', t = w ++ t' -> Forall (fun x => p x = true) w -> hold 1 t' (next_column (nlen w) m) c' -> p (nth 0 t' 0) = false -> Q (s ++ utf8 w) c') ->
  wp (read_while p s) c Q E.
Proof.
  intros H Hn Hp HQ. apply (wp_loop (fun s' c => exists w t', t = w ++ t' /\ Forall (fun x => p x = true) w /\ hold 1 t' (next_column (nlen w) m) c /\ s' = s ++ utf8 w)).
  { exists [], t. split; [reflexivity|]. split; [constructor|]. split; [|cbn; rewrite app_nil_r; reflexivity]. replace (next_column (nlen (@nil N)) m) with m; [eapply hold_le; eauto|].
    unfold next_column. destruct m. cbn. f_equal; lia. }
  intros s1 c1 (w & t1 & T & F & H1 & S1). apply wp_bind. eapply wp_check0; [exact H1|lia|].
  destruct (p (nth 0 t1 0)) eqn:P1.
  - destruct (Hp _ P1) as [Z B]. destruct (nth0_cons t1 Z) as [x [r ->]]. cbn [nth] in *.
    apply wp_bind. eapply wp_read; [exact H1|]. intros c2 H2. apply wp_bind. eapply x_cache; [exact HE|exact H2|]. intros c3 H3. apply wp_ret. split.
    + exists (w ++ [x]), r. split; [rewrite <- app_assoc; exact T|]. split; [apply Forall_app; auto|].
      replace (next_column (nlen (w ++ [x])) m) with (next_column 1 (next_column (nlen w) m)).
      * split; [eapply hold_le; [exact H3|lia]|]. rewrite S1, utf8_app, utf8_one, app_assoc. reflexivity.
      * unfold next_column. cbn [m_index m_line m_column]. rewrite nlen_app, nlen_cons, nlen_nil. f_equal; lia.
    + rewrite (proj1 H1), (proj1 H3). cbn [length]. lia.
  - apply wp_ret. subst s1. eapply HQ; eauto.
Qed.
Section Read.
Set Default Proof Using "All".
Variables (t0 : list N) (m0 : mark) (start : mark) (E : serr -> Prop).
Hypothesis HEr : forall m, E (mkSerr SReader None m).
Hypothesis HEz : forall m, zero_indent t0 (m_index m - m_index m0) -> E (mkSerr SZeroIndent (Some start) m).
Hypothesis HEh : forall m, bad_header t0 (m_index m - m_index m0) -> E (mkSerr SBlockHeaderEnd (Some start) m).
Variable nothing : Prop.
Hypothesis HEt : forall m, bad_block_tab t0 (m_index m - m_index m0) -> nothing -> E (mkSerr SBlockTab (Some start) m).
Notation after_start := (after_start t0 m0).
Lemma x_header n c (Q : option bool * Z -> cur -> Prop) : hold n t0 m0 c ->
  (forall h chomp inc r m c', t0 = h ++ r -> block_header h chomp inc r -> hold 0 r m c' -> after_start r m -> Q (chomp, inc) c') ->
  wp (scan_block_header start) c Q E.
Proof.
  intros H HQ. unfold scan_block_header. apply wp_bind. eapply x_cache; [exact HEr|exact H|]. intros c1 H1. apply wp_bind. eapply wp_peek0; [exact H1|lia|].
  assert (A0 : after_start t0 m0) by (exists []; split; [reflexivity|cbn; lia]).
  assert (Sx : forall x, sign x -> exists r, True) by (intros; exists (@nil N); exact I). clear Sx.
  destruct ((nth 0 t0 0 =? 0x2B) || (nth 0 t0 0 =? 0x2D)) eqn:S0.
  - apply sign_is in S0. destruct (nth0_cons t0) as (x & r & E0); [intros Z; rewrite Z in S0; destruct S0; discriminate|]. rewrite E0 in *. cbn [nth] in *.
    pose proof (start_char _ _ _ _ _ A0) as A1.
    apply wp_bind. eapply wp_skip; [apply (hold_le 1%nat _ _ _ _ H1); lia|]. intros c2 H2. apply wp_bind. eapply x_cache; [exact HEr|exact H2|]. intros c3 H3. apply wp_bind. eapply wp_peek0; [exact H3|lia|].
    destruct (is_digit (nth 0 r 0)) eqn:D.
    + apply digit_is in D. destruct (nth0_cons r) as (y & q & ->); [intros Z; rewrite Z in D; destruct D; lia|]. cbn [nth] in *. destruct (N.eqb_spec y 0x30) as [->|Ny].
      * eapply wp_err; [exact H3|]. apply HEz. exists [x], q. split; [reflexivity|]. cbn [next_column m_index length]. split; [lia|]. right. exists x. auto.
      * apply wp_bind. eapply wp_skip; [apply (hold_le 1%nat _ _ _ _ H3); lia|]. intros c4 H4. apply wp_ret. eapply (HQ [x; y]); [reflexivity|apply header_sign_count; [exact S0|unfold digit, count in *; lia]|eapply hold_le; [exact H4|lia]|eapply start_char; exact A1].
    + apply wp_ret. eapply (HQ [x]); [reflexivity|apply header_sign; [exact S0|rewrite <- digit_is, D; discriminate]|eapply hold_le; [exact H3|lia]|exact A1].
  - assert (S0' : ~ sign (nth 0 t0 0)) by (rewrite <- sign_is, S0; discriminate). destruct (is_digit (nth 0 t0 0)) eqn:D.
    + apply digit_is in D. destruct (nth0_cons t0) as (x & r & E0); [intros Z; rewrite Z in D; destruct D; lia|]. rewrite E0 in *. cbn [nth] in *. destruct (N.eqb_spec x 0x30) as [->|Nx].
      * eapply wp_err; [exact H1|]. apply HEz. exists [], r. split; [reflexivity|]. cbn [length]. split; [lia|]. left. reflexivity.
      * pose proof (start_char _ _ _ _ _ A0) as A1. assert (Cx : count x) by (unfold digit, count in *; lia).
        apply wp_bind. eapply wp_skip; [apply (hold_le 1%nat _ _ _ _ H1); lia|]. intros c2 H2. apply wp_bind. eapply x_cache; [exact HEr|exact H2|]. intros c3 H3. apply wp_bind. eapply wp_peek0; [exact H3|lia|].
        destruct ((nth 0 r 0 =? 0x2B) || (nth 0 r 0 =? 0x2D)) eqn:S1.
        -- apply sign_is in S1. destruct (nth0_cons r) as (y & q & ->); [intros Z; rewrite Z in S1; destruct S1; discriminate|]. cbn [nth] in *.
           apply wp_bind. eapply wp_skip; [apply (hold_le 1%nat _ _ _ _ H3); lia|]. intros c4 H4. apply wp_ret. eapply (HQ [x; y]); [reflexivity|apply header_count_sign; assumption|eapply hold_le; [exact H4|lia]|eapply start_char; exact A1].
        -- apply wp_ret. eapply (HQ [x]); [reflexivity|apply header_count; [exact Cx|rewrite <- sign_is, S1; discriminate]|eapply hold_le; [exact H3|lia]|exact A1].
    + apply wp_ret. eapply (HQ []); [reflexivity|apply header_none; [exact S0'|rewrite <- digit_is, D; discriminate]|eapply hold_le; [exact H1|lia]|exact A0].
Qed.
Lemma x_line_end n h chomp inc t m c (Q : unit -> cur -> Prop) : hold n t m c -> t0 = h ++ t -> block_header h chomp inc t -> after_start t m ->
  (forall w r m' c', t = w ++ r -> line_tail w r -> nth 0 r 0 = 0 -> hold 0 r m' c' -> after_start r m' -> Q tt c') ->
  (forall w b r m' c', t = w ++ b ++ r -> line_tail w (b ++ r) -> line_break b -> (b = [0xD] -> nth 0 r 0 <> 0xA) -> m_column m' = 0 -> hold 0 r m' c' -> after_start r m' -> Q tt c') ->
  wp (scan_line_end start SBlockHeaderEnd) c Q E.
Proof.
  intros H E0 Hh A0 HQz HQb. unfold scan_line_end. apply wp_bind. eapply x_cache; [exact HEr|exact H|]. intros c1 H1.
  apply wp_bind. eapply x_skip_while; [exact HEr|exact H1|lia|intros x X ->; discriminate|]. intros bl t1 c2 -> Fb H2 Nb.
  assert (A1 : after_start t1 (next_column (nlen bl) m)).
  { eapply start_adv; [exact A0|]. apply adv_over. eapply Forall_impl; [|exact Fb]. intros x X. cbv beta in X. cls. }
  assert (K : forall cm t2 m2 c3, t1 = cm ++ t2 -> (cm = [] /\ nth 0 t2 0 <> 0x23 \/ exists s, cm = 0x23 :: s /\ Forall (fun x => is_breakz x = false) s /\ is_breakz (nth 0 t2 0) = true) ->
     hold 1 t2 m2 c3 -> after_start t2 m2 ->
     wp (e <- check 0 is_breakz ;; if negb e then err (Some start) SBlockHeaderEnd else b <- check 0 is_break ;; if b then cache 2 ;;; skip_line else ret tt) c3 Q E).
  { intros cm t2 m2 c3 E1 Hc H3 A2.
    assert (LT : line_tail (bl ++ cm) t2) by (exists bl, cm; split; [reflexivity|]; split; [exact Fb|]; split; [rewrite <- E1; exact Nb|exact Hc]).
    apply wp_bind. eapply wp_check0; [exact H3|lia|]. destruct (is_breakz (nth 0 t2 0)) eqn:Bz; cbn [negb].
    2:{ eapply wp_err; [exact H3|]. apply HEh. exists h, chomp, inc, (bl ++ cm), t2. rewrite <- app_assoc, <- E1. split; [exact E0|]. split; [|auto].
        destruct A2 as (pre & E2 & I2). rewrite E0, E1 in E2. apply (f_equal (@length N)) in E2. rewrite !app_length in *. lia. }
    apply wp_bind. eapply wp_check0; [exact H3|lia|]. destruct (is_break (nth 0 t2 0)) eqn:Bk.
    - apply wp_bind. eapply x_cache; [exact HEr|exact H3|]. intros c4 H4. eapply wp_skip_line; [exact H4|lia|exact Bk|]. intros t3 m3 c5 S5 H5.
      destruct (line_step_break _ _ _ _ S5) as (b & E3 & B3 & N3 & C3). eapply (HQb (bl ++ cm) b t3); [rewrite E1, E3, <- app_assoc; reflexivity|rewrite <- E3; exact LT|exact B3|exact N3|exact C3|eapply hold_le; [exact H5|lia]|].
      eapply start_adv; [exact A2|]. apply line_step_adv. exact S5.
    - apply wp_ret. eapply (HQz (bl ++ cm) t2); [rewrite E1, <- app_assoc; reflexivity|exact LT| |eapply hold_le; [exact H3|lia]|exact A2].
      unfold is_breakz in Bz. rewrite Bk in Bz. apply N.eqb_eq. exact Bz. }
  apply wp_bind. eapply wp_check0; [exact H2|lia|]. unfold eqc. destruct (N.eqb_spec (nth 0 t1 0) 0x23) as [X|X]; apply wp_bind.
  - eapply x_skip_while; [exact HEr|exact H2|lia|intros x Hx ->; discriminate|]. intros w t2 c3 E2 F2 H3 N3. destruct w as [|x w].
    { cbn [app] in E2. subst t2. rewrite X in N3. discriminate. }
    rewrite E2 in X. cbn in X. subst x. apply Forall_inv_tail in F2 as F2'.
    assert (F3 : Forall (fun x => is_breakz x = false) w) by (eapply Forall_impl; [|exact F2']; intros x Hx; cbv beta in *; destruct (is_breakz x); [discriminate|reflexivity]).
    apply (K (0x23 :: w) t2 (next_column (nlen (0x23 :: w)) (next_column (nlen bl) m)) c3 E2); [right; exists w; split; [reflexivity|]; split; [exact F3|destruct (is_breakz (nth 0 t2 0)); [reflexivity|discriminate]]|exact H3|].
    eapply start_adv; [exact A1|]. rewrite E2. apply adv_over. constructor; [reflexivity|]. eapply Forall_impl; [|exact F3]. intros x Hx. cbv beta in *. cls.
  - apply wp_ret. apply (K [] t1 (next_column (nlen bl) m) c2 eq_refl); [left; auto|exact H2|exact A1].
Qed.
Lemma x_breaks pindent indent b n t m c (Q : Z * list N * mark -> cur -> Prop) : hold n t m c -> (exists w, t0 = w ++ b ++ t) -> after_start t m ->
  line_break b -> (b = [0xD] -> nth 0 t 0 <> 0xA) -> m_column m = 0 ->
  (forall s vs col r, t = s ++ 9 :: r -> lines (low_space indent) b s vs col -> low indent col -> nothing) ->
  (forall s vs e t' m' c', t = s ++ t' -> lines (low_space indent) b s vs (m_column m') -> text_begins indent (m_column m') t' -> hold 1 t' m' c' -> after_start t' m' ->
     adv t m t' m' -> Q (found_indent pindent indent s, utf8 vs, e) c') ->
  wp (scan_block_scalar_breaks pindent indent [] start) c Q E.
Proof.
  intros H [w0 E0] A0 B0 N0 C0 Hn HQ. unfold scan_block_scalar_breaks. apply wp_bind. eapply wp_get_mark; [exact H|]. apply wp_bind.
  apply (wp_loop (fun (a : Z * list N * mark) c => exists s vs t1 m1 mi e, a = (Z.of_N mi, utf8 vs, e) /\ hold 0 t1 m1 c /\ t = s ++ t1 /\ lines (low_space indent) b s vs 0 /\ m_column m1 = 0 /\
     after_start t1 m1 /\ adv t m t1 m1 /\ (last (b ++ s) 0 = 0xD -> nth 0 t1 0 <> 0xA) /\ forall r, widest 0 (s ++ r) = N.max mi (widest 0 r))).
  { exists [], [], t, m, 0, m. split; [reflexivity|]. split; [eapply hold_le; [exact H|lia]|]. split; [reflexivity|]. split; [constructor|]. split; [exact C0|]. split; [exact A0|]. split; [constructor|].
    split; [rewrite app_nil_r; apply (last_cr b t B0 N0)|]. intros r. cbn [app]. lia. }
  clear H c. intros ? c0 (s & vs & t1 & m1 & mi & e & -> & H0 & Et & Ls & C1 & A1 & Ad & Lc & W).
  apply wp_bind. eapply x_cache; [exact HEr|exact H0|]. intros c1 H1. apply wp_bind.
  apply (wp_loop (fun (_ : unit) c => exists sp t2 m2, hold 1 t2 m2 c /\ t1 = sp ++ t2 /\ Forall (fun x => x = 0x20) sp /\ m_column m2 = nlen sp /\ after_start t2 m2 /\ adv t m t2 m2 /\
     lines (low_space indent) b (s ++ sp) vs (nlen sp) /\ (last (b ++ s ++ sp) 0 = 0xD -> nth 0 t2 0 <> 0xA))).
  { exists [], t1, m1. split; [eapply hold_le; [exact H1|lia]|]. split; [reflexivity|]. split; [constructor|]. split; [exact C1|]. split; [exact A1|]. split; [exact Ad|]. rewrite app_nil_r. auto. }
  clear H1 c1. intros _ c (sp & t2 & m2 & H & E1 & F & C2 & A2 & Ad2 & Ls2 & Lc2).
  assert (Ew : t0 = (w0 ++ b ++ s ++ sp) ++ t2) by (rewrite E0, Et, E1, <- !app_assoc; reflexivity).
  assert (Lt : m_index m2 - m_index m0 = N.of_nat (length (w0 ++ b ++ s ++ sp))).
  { destruct A2 as (pre & E2 & I2). rewrite Ew in E2. apply (f_equal (@length N)) in E2. rewrite !app_length in *. lia. }
  apply wp_bind. eapply wp_column; [exact H|]. apply wp_bind.
  assert (Lo : (indent =? 0)%Z || (Z.of_N (m_column m2) <? indent)%Z = true <-> low indent (m_column m2)) by (unfold low; lia).
  eapply (wp_mono _ _ (fun b c' => c' = c /\ b = ((indent =? 0)%Z || (Z.of_N (m_column m2) <? indent)%Z) && is_space (nth 0 t2 0))); [|intros sb c' [-> ->]|intros ? X; exact X].
  { apply wp_andc, wp_ret. destruct ((indent =? 0)%Z || (Z.of_N (m_column m2) <? indent)%Z); [|split; reflexivity]. eapply wp_check0; [exact H|lia|]. split; reflexivity. }
  destruct (((indent =? 0)%Z || (Z.of_N (m_column m2) <? indent)%Z) && is_space (nth 0 t2 0)) eqn:Sp.
  { apply andb_true_iff in Sp as [S1 S2]. apply Lo in S1. destruct (nth0_cons t2) as (x & r & ->); [intros Z; rewrite Z in S2; discriminate|]. cbn [nth] in *. apply N.eqb_eq in S2. subst x.
    apply wp_bind. eapply wp_skip; [exact H|]. intros c1 H1. apply wp_bind. eapply x_cache; [exact HEr|exact H1|]. intros c2 H2. apply wp_ret. split; [|rewrite (proj1 H), (proj1 H2); cbn [length]; lia].
    exists (sp ++ [0x20]), r, (next_column 1 m2). split; [eapply hold_le; [exact H2|lia]|]. split; [rewrite <- app_assoc; exact E1|]. split; [apply Forall_app; auto|].
    rewrite nlen_app, nlen_cons, nlen_nil. cbn [next_column m_column]. split; [lia|]. split; [eapply start_char; exact A2|]. split; [eapply adv_trans; [exact Ad2|apply adv_one; reflexivity]|].
    rewrite !app_assoc. split; [|rewrite last_last; discriminate]. replace (nlen sp + (0 + 1)) with (nlen sp + 1) by lia. apply lines_blank; [exact Ls2|]. split; [reflexivity|]. rewrite <- C2. exact S1. }
  apply wp_ret. apply wp_bind. eapply wp_column; [exact H|]. apply wp_bind.
  eapply (wp_mono _ _ (fun b c' => c' = c /\ b = ((indent =? 0)%Z || (Z.of_N (m_column m2) <? indent)%Z) && is_tab (nth 0 t2 0))); [|intros sb c' [-> ->]|intros ? X; exact X].
  { apply wp_andc, wp_ret. destruct ((indent =? 0)%Z || (Z.of_N (m_column m2) <? indent)%Z); [|split; reflexivity]. eapply wp_check0; [exact H|lia|]. split; reflexivity. }
  destruct (((indent =? 0)%Z || (Z.of_N (m_column m2) <? indent)%Z) && is_tab (nth 0 t2 0)) eqn:Tb.
  { eapply wp_err; [exact H|]. apply andb_true_iff in Tb as [T1 T2]. apply Lo in T1. destruct (nth0_cons t2) as (x & r & ->); [intros Z; rewrite Z in T2; discriminate|]. cbn [nth] in *. apply N.eqb_eq in T2. subst x. rewrite C2 in T1.
    apply HEt; [|eapply (Hn (s ++ sp) vs (nlen sp) r); [rewrite Et, E1, <- app_assoc; reflexivity|exact Ls2|exact T1]]. rewrite <- C2 in T1.
    exists w0, b, (s ++ sp), vs, indent, (nlen sp), r. split; [rewrite Ew, <- !app_assoc; reflexivity|]. rewrite <- C2 in *. auto. }
  assert (Tx : low indent (m_column m2) -> nth 0 t2 0 <> 0x20 /\ nth 0 t2 0 <> 9).
  { intros L. apply Lo in L. rewrite L in Sp, Tb. cbn [andb] in Sp, Tb. unfold is_space, is_tab in *. lia. }
  apply wp_bind. eapply wp_check0; [exact H|lia|]. destruct (is_break (nth 0 t2 0)) eqn:Bk; cbn [negb].
  - apply wp_bind. eapply x_cache; [exact HEr|exact H|]. intros c1 H1. apply wp_bind. eapply wp_read_line; [exact H1|lia|exact Bk|]. intros t3 m3 c3 S3 H3.
    destruct (line_step_break _ _ _ _ S3) as (b3 & E3 & B3 & N3 & C3). destruct (line_break_some _ B3) as (Nb & _).
    apply wp_bind. eapply wp_get_mark; [exact H3|]. apply wp_ret. split.
    2:{ rewrite (proj1 H3), (proj1 H0), E1, E3, !app_length. destruct b3; [destruct (Nb eq_refl)|]. cbn [length]. lia. }
    exists ((s ++ sp) ++ b3), (vs ++ [break_value b3]), t3, m3, (N.max mi (nlen sp)), m3. split.
    { rewrite E3, break_bytes_app by exact Nb. rewrite utf8_app, utf8_one, (break_one b3 B3). rewrite C2. f_equal. f_equal. lia. }
    split; [eapply hold_le; [exact H3|lia]|]. split; [rewrite Et, E1, E3, <- !app_assoc; reflexivity|]. split.
    { eapply lines_break; [exact Ls2|exact B3|]. intros X ->. apply (Lc2 X). rewrite E3. reflexivity. }
    split; [exact C3|]. split; [eapply start_adv; [exact A2|apply line_step_adv; exact S3]|]. split; [eapply adv_trans; [exact Ad2|apply line_step_adv; exact S3]|]. split.
    { intros X. apply (last_cr b3 t3 B3 N3). destruct (exists_last Nb) as (u & y & ->). rewrite !app_assoc, last_last in X. rewrite last_last. exact X. }
    intros r. rewrite <- !app_assoc, W, (widest_line 0 sp b3 r F B3). lia.
  - apply wp_ret. apply wp_ret. rewrite <- C2 in Ls2. specialize (W sp). rewrite (widest_spaces 0 sp F), <- C2 in W.
    replace (if (indent =? 0)%Z then Z.max (Z.max (Z.max (Z.of_N mi) (Z.of_N (m_column m2))) (pindent + 1)) 1 else indent) with (found_indent pindent indent (s ++ sp)).
    2:{ unfold found_indent. destruct (indent =? 0)%Z; [|reflexivity]. rewrite W. lia. }
    eapply HQ; [rewrite Et, E1, <- app_assoc; reflexivity|exact Ls2|split; [exact Bk|exact Tx]|exact H|exact A2|exact Ad2].
Qed.
Lemma x_breaks_z pindent indent n t m c (Q : Z * list N * mark -> cur -> Prop) : hold n t m c -> nth 0 t 0 = 0 ->
  (forall i e c', hold 1 t m c' -> Q (i, [], e) c') -> wp (scan_block_scalar_breaks pindent indent [] start) c Q E.
Proof.
  intros H Zt HQ. unfold scan_block_scalar_breaks. apply wp_bind. eapply wp_get_mark; [exact H|]. apply wp_bind.
  apply (wp_loop (fun (a : Z * list N * mark) c => (exists i e, a = (i, [], e)) /\ hold 0 t m c)).
  { split; [eexists; eexists; reflexivity|eapply hold_le; [exact H|lia]]. }
  clear c H. intros ? c ((i & e & ->) & H). apply wp_bind. eapply x_cache; [exact HEr|exact H|]. intros c1 H1. apply wp_bind.
  apply (wp_loop (fun (_ : unit) c => hold 1 t m c)); [eapply hold_le; [exact H1|lia]|]. clear c1 H1. intros _ c1 H1. apply wp_bind. eapply wp_column; [exact H1|]. apply wp_bind.
  eapply (wp_mono _ _ (fun b c' => c' = c1 /\ b = false)); [|intros sb c' [-> ->]|intros ? X; exact X].
  { apply wp_andc, wp_ret. destruct (_ || _); [|split; reflexivity]. eapply wp_check0; [exact H1|lia|]. rewrite Zt. split; reflexivity. }
  apply wp_ret. apply wp_bind. eapply wp_column; [exact H1|]. apply wp_bind.
  eapply (wp_mono _ _ (fun b c' => c' = c1 /\ b = false)); [|intros sb c' [-> ->]|intros ? X; exact X].
  { apply wp_andc, wp_ret. destruct (_ || _); [|split; reflexivity]. eapply wp_check0; [exact H1|lia|]. rewrite Zt. split; reflexivity. }
  apply wp_bind. eapply wp_check0; [exact H1|lia|]. rewrite Zt. cbn [negb]. apply wp_ret. apply wp_ret. apply HQ. exact H1.
Qed.
(* the lines of text *)
Definition finish (literal : bool) (chomping : option bool) (st : list N * list N * list N * bool * mark) : cm token :=
  let '(s, leading, trailing, _, e) := st in
  let s := match chomping with Some false => s | _ => s ++ leading end in
  let s := match chomping with Some true => s ++ trailing | _ => s end in
  ret (mkToken (TScalar s (if literal then Literal else Folded)) start e false).
Lemma finish_value literal (chomp : option bool) (v ld bs : list N) (k : bool) (e : mark) (c : cur) (Q : token -> cur -> Prop) : (forall e, Q (mkToken (TScalar (utf8 (v ++ chomped chomp ld bs)) (if (literal : bool) then Literal else Folded)) start e false) c) ->
  wp (finish literal chomp (utf8 v, utf8 ld, utf8 bs, k, e)) c Q E.
Proof.
  intros H. specialize (H e). rewrite utf8_app in H. destruct chomp as [[]|]; cbn [finish chomped] in *; apply wp_ret.
  - rewrite utf8_app, app_assoc in H. exact H.
  - change (utf8 []) with (@nil N) in H. rewrite app_nil_r in H. exact H.
  - exact H.
Qed.
Lemma x_lines pindent literal chomp indent bs e0 n t m c (Q : token -> cur -> Prop) : hold n t m c -> (1 <= n)%nat -> after_start t m -> is_break (nth 0 t 0) = false ->
  ((forall v r, ~ block_rest literal chomp indent false [] bs (m_column m) t v r) -> nothing) ->
  (forall v r e c', block_rest literal chomp indent false [] bs (m_column m) t v r -> (forall v0 r0, block_rest literal chomp indent false [] bs (m_column m) t v0 r0 -> v0 = v /\ r0 = r) -> hold 0 r (c_mark c') c' -> Q (mkToken (TScalar (utf8 v) (if literal then Literal else Folded)) start e false) c') ->
  wp (r <- loop (fun st : list N * list N * list N * bool * mark =>
    let '(s, leading, trailing, leading_blank, e) := st in
    col <- column ;;
    more <- andc (ret (Z.of_N col =? indent)%Z) (check 0 (fun x => negb (is_z x))) ;;
    if negb more then ret (inr st) else
    trailing_blank <- check 0 is_blank ;;
    s <- (if negb literal && starts_lf leading && negb leading_blank && negb trailing_blank
          then if nonempty trailing then ret s else put s [0x20]
          else ret (s ++ leading)) ;;
    let s := s ++ trailing in
    leading_blank <- check 0 is_blank ;;
    s <- read_while (fun x => negb (is_breakz x)) s ;;
    cache 2 ;;;
    leading <- read_line [] ;;
    r <- scan_block_scalar_breaks pindent indent [] start ;;
    let '(_, trailing, e) := r in
    ret (inl (s, leading, trailing, leading_blank, e))) ([], [], utf8 bs, false, e0) ;; finish literal chomp r) c Q E.
Proof.
  intros H Hn A0 B0 Ho HQ. apply wp_bind.
  apply (wp_loop (fun (a : list N * list N * list N * bool * mark) c => exists v ld tr k e t1 m1, a = (utf8 v, utf8 ld, utf8 tr, k, e) /\ hold 1 t1 m1 c /\ after_start t1 m1 /\ is_break (nth 0 t1 0) = false /\
     (ld = [] \/ exists x, ld = [x]) /\ (forall v' r, block_rest literal chomp indent k ld tr (m_column m1) t1 v' r -> block_rest literal chomp indent false [] bs (m_column m) t (v ++ v') r) /\
     forall v0 r, block_rest literal chomp indent false [] bs (m_column m) t v0 r -> exists v', v0 = v ++ v' /\ block_rest literal chomp indent k ld tr (m_column m1) t1 v' r)).
  { exists [], [], bs, false, e0, t, m. split; [reflexivity|]. split; [eapply hold_le; [exact H|lia]|]. split; [exact A0|]. split; [exact B0|]. split; [left; reflexivity|]. split; [auto|]. intros v0 r X. exists v0. auto. }
  clear c H A0 B0. intros ? c (v & ld & tr & k & e & t1 & m1 & -> & H & A1 & B1 & Ld & G & G').
  apply wp_bind. eapply wp_column; [exact H|]. apply wp_bind.
  eapply (wp_mono _ _ (fun b c' => c' = c /\ b = (Z.of_N (m_column m1) =? indent)%Z && negb (is_z (nth 0 t1 0)))); [|intros sb c' [-> ->]|intros ? X; exact X].
  { apply wp_andc, wp_ret. destruct (Z.of_N (m_column m1) =? indent)%Z; [|split; reflexivity]. eapply wp_check0; [exact H|lia|]. split; reflexivity. }
  destruct ((Z.of_N (m_column m1) =? indent)%Z && negb (is_z (nth 0 t1 0))) eqn:Mo; cbn [negb].
  2:{ apply wp_ret. apply finish_value. intros e'. assert (En : Z.of_N (m_column m1) <> indent \/ nth 0 t1 0 = 0) by (apply andb_false_iff in Mo as [Mo|Mo]; [left; lia|right]; apply negb_false_iff, N.eqb_eq in Mo; exact Mo).
      eapply (HQ _ t1); [| |destruct H as (T & M & U); repeat split; [exact T|lia]]; [apply G; constructor; exact En|].
      intros v0 r0 X. destruct (G' _ _ X) as (v' & -> & X'). destruct (rest_end _ _ _ _ _ _ _ _ _ _ En X') as [-> ->]. auto. }
  apply andb_true_iff in Mo as [Mc Mz]. apply Z.eqb_eq in Mc. apply negb_true_iff in Mz.
  apply wp_bind. eapply wp_check0; [exact H|lia|]. apply wp_bind.
  eapply (wp_mono _ _ (fun (s' : list N) c' => c' = c /\ s' ++ utf8 tr = utf8 (v ++ joined literal ld tr (k || is_blank (nth 0 t1 0))))); [|intros s' c' [-> Es]|intros ? X; exact X].
  { rewrite <- (joined_utf8 literal v ld tr (k || is_blank (nth 0 t1 0)) Ld).
    replace (negb literal && starts_lf (utf8 ld) && negb k && negb (is_blank (nth 0 t1 0))) with (negb literal && starts_lf (utf8 ld) && negb (k || is_blank (nth 0 t1 0))) by (rewrite negb_orb, andb_assoc; reflexivity).
    destruct (negb literal && starts_lf (utf8 ld) && negb (k || is_blank (nth 0 t1 0))); [|apply wp_ret; split; reflexivity].
    destruct (nonempty (utf8 tr)); [apply wp_ret; split; reflexivity|]. apply wp_put; [cbn; unfold room; lia|split; reflexivity]. }
  cbv zeta. rewrite Es. apply wp_bind. eapply wp_check0; [exact H|lia|]. apply wp_bind.
  eapply (x_read_while _ HEr); [exact H|lia|intros x X; destruct x; [discriminate|split; [discriminate|]]; unfold is_breakz in X; destruct (is_break (N.pos p)); [discriminate|reflexivity]|].
  intros w t2 c2 E2 F2 H2 N2.
  assert (F2' : Forall (fun x => is_breakz x = false) w) by (eapply Forall_impl; [|exact F2]; intros x Hx; cbv beta in *; destruct (is_breakz x); [discriminate|reflexivity]).
  assert (Bz : is_breakz (nth 0 t2 0) = true) by (destruct (is_breakz (nth 0 t2 0)); [reflexivity|discriminate]).
  assert (Nw : w <> []).
  { intros ->. cbn [app] in E2. subst t2. unfold is_breakz in Bz. rewrite B1, Mz in Bz. discriminate. }
  assert (Hw : nth 0 t1 0 = nth 0 w 0) by (destruct w as [|x w]; [destruct (Nw eq_refl)|rewrite E2; reflexivity]).
  assert (A2 : after_start t2 (next_column (nlen w) m1)).
  { eapply start_adv; [exact A1|]. rewrite E2. apply adv_over. eapply Forall_impl; [|exact F2']. intros x X. cbv beta in X. cls. }
  apply wp_bind. eapply x_cache; [exact HEr|exact H2|]. intros c3 H3. apply wp_bind. destruct (is_break (nth 0 t2 0)) eqn:B2.
  - eapply wp_read_line; [exact H3|lia|exact B2|]. intros t4 m4 c4 S4 H4. destruct (line_step_break _ _ _ _ S4) as (b & E4 & Lb & N4 & C4). destruct (line_break_some _ Lb) as (Nb & _).
    apply wp_bind. eapply (x_breaks pindent indent b); [exact H4| |eapply start_adv; [exact A2|apply line_step_adv; exact S4]|exact Lb|exact N4|exact C4| |].
    { destruct A2 as (pre & E5 & _). exists pre. rewrite E5, E4. reflexivity. }
    { intros s vs col r Et4 Ls Lo. apply Ho. intros v0 r0 X. destruct (G' _ _ X) as (v' & _ & X'). rewrite E2, E4, Et4 in X'. exact (rest_tab _ _ _ _ _ _ _ _ _ _ _ _ _ _ _ Mc Nw F2' Lb Ls Lo X'). }
    intros s vs e5 t5 m5 c5 E5 Ls Tb H5 A5 Ad. apply wp_ret. split.
    2:{ rewrite (proj1 H5), (proj1 H), E2, E4, E5, !app_length. destruct w; [destruct (Nw eq_refl)|]. cbn [length]. lia. }
    exists ((v ++ joined literal ld tr (k || is_blank (nth 0 t1 0))) ++ w), [break_value b], vs, (is_blank (nth 0 t1 0)), e5, t5, m5. split.
    { rewrite E4, break_bytes_app by exact Nb. rewrite utf8_one, (break_one b Lb), !utf8_app. reflexivity. }
    split; [exact H5|]. split; [exact A5|]. split; [apply Tb|]. split; [right; eexists; reflexivity|]. rewrite Hw. split.
    + intros v' r P. rewrite <- !app_assoc. apply G. rewrite E2, E4, E5. eapply block_line; eassumption.
    + intros v0 r X. destruct (G' _ _ X) as (v' & -> & X'). rewrite E2, E4, E5 in X'. destruct (rest_line _ _ _ _ _ _ _ _ _ _ _ _ _ _ _ Mc Nw F2' Lb Ls Tb X') as (v1 & -> & X1). exists v1. rewrite <- !app_assoc. auto.
  - assert (Z2 : nth 0 t2 0 = 0) by (unfold is_breakz in Bz; rewrite B2 in Bz; apply N.eqb_eq; exact Bz).
    eapply wp_read_line_z; [exact H3|lia|rewrite Z2; reflexivity|]. intros _. apply wp_bind. eapply x_breaks_z; [exact H3|exact Z2|]. intros i e5 c5 H5. apply wp_ret. split.
    2:{ rewrite (proj1 H5), (proj1 H), E2, !app_length. destruct w; [destruct (Nw eq_refl)|]. cbn [length]. lia. }
    exists ((v ++ joined literal ld tr (k || is_blank (nth 0 t1 0))) ++ w), [], [], (is_blank (nth 0 t1 0)), e5, t2, (next_column (nlen w) m1). split; [rewrite !utf8_app; reflexivity|].
    split; [exact H5|]. split; [exact A2|]. split; [exact B2|]. split; [left; reflexivity|]. rewrite Hw. split.
    2:{ intros v0 r X. destruct (G' _ _ X) as (v' & -> & X'). rewrite E2 in X'. destruct (rest_last _ _ _ _ _ _ _ _ _ _ _ Mc Nw F2' Z2 X') as [-> ->]. exists []. rewrite app_nil_r, <- app_assoc. split; [reflexivity|].
      assert (Cn : chomped chomp [] [] = []) by (destruct chomp as [[]|]; reflexivity). pose proof (block_end literal chomp indent (is_blank (nth 0 w 0)) [] [] (m_column (next_column (nlen w) m1)) t2 (or_intror Z2)) as Kn. rewrite Cn in Kn. exact Kn. }
    intros v' r P.
    assert (P' : v' = [] /\ r = t2).
    { inversion P; subst; [split; [|reflexivity]; destruct chomp as [[]|]; reflexivity| |]; exfalso;
        match goal with X : ?l <> [] , F : Forall _ ?l |- _ => destruct l as [|y l]; [destruct (X eq_refl)|]; apply Forall_inv in F; cbn [app nth] in Z2; rewrite Z2 in F; discriminate end. }
    destruct P' as [-> ->]. rewrite app_nil_r, <- !app_assoc. apply G. rewrite E2. apply block_last; assumption.
Qed.
End Read.

Definition block_outcome (literal : bool) (pindent : Z) (t : list N) (m : mark) (r : cres token) : Prop :=
  match r with
  | COk tk c' => exists v e, tk = mkToken (TScalar (utf8 v) (if literal then Literal else Folded)) m e false /\ block_scalar literal pindent t v (c_text c') /\ forall v0 r0, block_scalar literal pindent t v0 r0 -> v0 = v /\ r0 = c_text c'
  | CErr e => let n := m_index (se_mark e) - (m_index m + 1) in
      se_problem e = SReader \/ (se_problem e = SZeroIndent /\ zero_indent t n \/ se_problem e = SBlockHeaderEnd /\ bad_header t n \/
      se_problem e = SBlockTab /\ bad_block_tab t n) /\ forall v r, ~ block_scalar literal pindent t v r
  | _ => False
  end.
Lemma x_scan_block_scalar literal pindent c x t : (1 <= c_unread c)%nat -> c_text c = x :: t ->
  block_outcome literal pindent t (c_mark c) (scan_block_scalar pindent literal c).
Proof.
  intros U T. set (m := c_mark c).
  set (E := fun e => let n := m_index (se_mark e) - (m_index m + 1) in
      se_problem e = SReader \/ (se_problem e = SZeroIndent /\ zero_indent t n \/ se_problem e = SBlockHeaderEnd /\ bad_header t n \/ se_problem e = SBlockTab /\ bad_block_tab t n) /\ forall v r, ~ block_scalar literal pindent t v r).
  set (nothing := forall v r, ~ block_scalar literal pindent t v r).
  assert (H : hold 1 (x :: t) m c) by (repeat split; [exact T|lia]).
  cut (wp (scan_block_scalar pindent literal) c (fun tk c' => exists v e, tk = mkToken (TScalar (utf8 v) (if literal then Literal else Folded)) m e false /\ block_scalar literal pindent t v (c_text c') /\ forall v0 r0, block_scalar literal pindent t v0 r0 -> v0 = v /\ r0 = c_text c') E).
  { unfold wp. destruct (scan_block_scalar pindent literal c); cbn; auto. }
  assert (HEr : forall m, E (mkSerr SReader None m)) by (left; reflexivity).
  assert (HEz : forall m', zero_indent t (m_index m' - m_index (next_column 1 m)) -> E (mkSerr SZeroIndent (Some m) m')) by (intros m' Hz; right; split; [left; auto|intros v r; exact (scalar_zero _ _ _ _ _ _ Hz)]).
  assert (HEh : forall m', bad_header t (m_index m' - m_index (next_column 1 m)) -> E (mkSerr SBlockHeaderEnd (Some m) m')) by (intros m' Hz; right; split; [right; left; auto|intros v r; exact (scalar_header _ _ _ _ _ _ Hz)]).
  assert (HEt : forall m', bad_block_tab t (m_index m' - m_index (next_column 1 m)) -> nothing -> E (mkSerr SBlockTab (Some m) m')) by (intros m' Hb Hn; right; split; [right; right; auto|exact Hn]).
  unfold scan_block_scalar. apply wp_bind. eapply wp_get_mark; [exact H|]. apply wp_bind. eapply wp_skip; [exact H|]. intros c1 H1.
  apply wp_bind. eapply (x_header t (next_column 1 m) m E HEr HEz HEh nothing HEt); [exact H1|]. intros h chomp inc r m2 c2 E2 Hh H2 A2.
  apply wp_bind. eapply (x_line_end t (next_column 1 m) m E HEr HEz HEh nothing HEt); [exact H2|exact E2|exact Hh|exact A2| |].
  - intros w r' m3 c3 E3 Lt Z3 H3 A3. cbv zeta. apply wp_bind. eapply (x_breaks_z t (next_column 1 m) m E HEr HEz HEh nothing HEt); [exact H3|exact Z3|]. intros i e c4 H4. cbv beta iota.
    apply wp_bind. eapply x_cache; [exact HEr|exact H4|]. intros c5 H5.
    assert (B3 : is_break (nth 0 r' 0) = false) by (rewrite Z3; reflexivity).
    eapply (x_lines t (next_column 1 m) m E HEr HEz HEh nothing HEt pindent literal chomp i [] e); [exact H5|lia|exact A3|exact B3| |].
    { intros X. exfalso. eapply X. apply block_end. right. exact Z3. }
    intros v r2 e' c6 P _ H6. exists v, e'. split; [reflexivity|]. rewrite E2, E3, (proj1 H6).
    assert (P' : v = [] /\ r2 = r').
    { inversion P; subst; [split; [destruct chomp as [[]|]|]; reflexivity| |]; exfalso;
        match goal with X : ?l <> [] , F : Forall _ ?l |- _ => destruct l as [|y l]; [destruct (X eq_refl)|]; apply Forall_inv in F; cbn [app nth] in Z3; rewrite Z3 in F; discriminate end. }
    destruct P' as [-> ->]. rewrite E3 in Hh. split; [eapply block_nothing; eassumption|]. intros v0 r0 X. eapply scalar_nothing; eassumption.
  - intros w b r' m3 c3 E3 Lt Lb N3 C3 H3 A3. cbv zeta. apply wp_bind.
    change (if (inc =? 0)%Z then 0%Z else if (0 <=? pindent)%Z then (pindent + inc)%Z else inc) with (given_indent pindent inc).
    eapply (x_breaks t (next_column 1 m) m E HEr HEz HEh nothing HEt pindent (given_indent pindent inc) b); [exact H3|exists (h ++ w); rewrite E2, E3, <- app_assoc; reflexivity|exact A3|exact Lb|exact N3|exact C3| |].
    { intros s vs col q E4 Ls Lo v r2 X. rewrite E2, E3, E4 in X. rewrite E3, E4 in Hh. rewrite E4 in Lt. eapply scalar_tab; eassumption. }
    intros s vs e t' m' c' E4 Ls Tb H4 A4 _. cbv beta iota. apply wp_bind. eapply x_cache; [exact HEr|exact H4|]. intros c5 H5.
    eapply (x_lines t (next_column 1 m) m E HEr HEz HEh nothing HEt pindent literal chomp (found_indent pindent (given_indent pindent inc) s) vs e); [exact H5|lia|exact A4|apply Tb| |].
    { intros X v r2 Y. rewrite E2, E3, E4 in Y. rewrite E3, E4 in Hh. rewrite E4 in Lt. eapply X. eapply scalar_text; eassumption. }
    intros v r2 e' c6 P Un H6. exists v, e'. split; [reflexivity|]. rewrite E2, E3, E4, (proj1 H6). rewrite E3, E4 in Hh. rewrite E4 in Lt. split; [eapply block_text; eassumption|].
    intros v0 r0 X. apply Un. eapply scalar_text; eassumption.
Qed.
Theorem block_exact literal pindent c x t : (1 <= c_unread c)%nat -> c_text c = x :: t ->
  match scan_block_scalar pindent literal c with
  | COk tk c' => exists v e, tk = mkToken (TScalar (utf8 v) (if literal then Literal else Folded)) (c_mark c) e false /\
      forall v' r, block_scalar literal pindent t v' r <-> v' = v /\ r = c_text c'
  | CErr e => let n := m_index (se_mark e) - (m_index (c_mark c) + 1) in
      se_problem e = SReader \/
      (se_problem e = SZeroIndent /\ zero_indent t n \/ se_problem e = SBlockHeaderEnd /\ bad_header t n \/ se_problem e = SBlockTab /\ bad_block_tab t n) /\
      forall v r, ~ block_scalar literal pindent t v r
  | CBad | CFuel => False
  end.
Proof.
  intros U T. pose proof (x_scan_block_scalar literal pindent c x t U T) as X. unfold block_outcome in X. destruct (scan_block_scalar pindent literal c) as [tk c'|e| |]; auto.
  destruct X as (v & e & -> & P & W). exists v, e. split; [reflexivity|]. intros v' r. split; [apply W|intros (-> & ->); exact P].
Qed.
