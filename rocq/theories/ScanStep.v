(* Fetching the tokens of a text step by step: the scanner on a text that is completely
   in the buffer, from the beginning of one token to the beginning of the next. *)
From Verif Require Import Base ReaderModel Utf8Spec CharSpec Types CursorModel ScanModel ScannerModel CursorProofs ScanProofs ScanQuoted ScannerSpec ScannerInv ScannerFinal PlanFree FullRun QuotedRun PlainRun TagRun WriterModel WriterSpec PenModel RoundSpec EagerScan.
From Verif Require PlainTrip.

(* ---- white space between tokens ---- *)
(* the text begins with a token, or is empty *)
Definition starts (t : list N) : Prop :=
  is_blank (nth 0 t 0) = false /\ is_break (nth 0 t 0) = false /\ nth 0 t 0 <> 0x23 /\ nth 0 t 0 <> 0xFEFF.
Notation wcol := PlainTrip.wcol.

Definition gap_goal (flow al : bool) (ws t : list N) (m : mark) : Prop :=
  exists m', adv (ws ++ t) m t m' /\ m_column m' = wcol ws (m_column m) /\
    (if existsb is_break ws then m_line m < m_line m' else m_line m' = m_line m) /\
    scan_to_next_token flow al (fc (ws ++ t) m) = COk (al || (existsb is_break ws && negb flow)) (fc t m').
Lemma white_split ws : white_text ws -> exists k ws', ws = repeat 0x20 k ++ ws' /\ white_text ws' /\ (ws' = [] \/ is_break (nth 0 ws' 0) = true).
Proof.
  induction ws as [|c ws IH]; intros W; [exists O, []; repeat split; [constructor|auto]|]. inversion W as [|? ? Wc W']; subst.
  destruct (IH W') as (k & ws' & -> & W2 & H). destruct Wc as [->|Bc]; [exists (S k), ws'; auto|].
  exists O, (c :: repeat 0x20 k ++ ws'). split; [reflexivity|]. split; [exact W|right; exact Bc].
Qed.
Lemma spaces_white k : white_text (repeat 0x20 k).
Proof. induction k; constructor; auto. Qed.
Lemma spaces_no_break k : existsb is_break (repeat 0x20 k) = false.
Proof. induction k; auto. Qed.
Lemma adv_spaces k : forall t m, adv (repeat 0x20 k ++ t) m t (next_column (N.of_nat k) m).
Proof.
  induction k as [|k IH]; intros t m; [cbn; rewrite next_column_0; constructor|]. cbn [repeat app]. apply adv_char; [reflexivity|].
  replace (next_column (N.of_nat (S k)) m) with (next_column (N.of_nat k) (next_column 1 m)); [apply IH|]. unfold next_column. cbn. f_equal; lia.
Qed.
Lemma wcol_app a b c : wcol (a ++ b) c = wcol b (wcol a c).
Proof. unfold wcol. apply fold_left_app. Qed.
Lemma wcol_spaces k c : wcol (repeat 0x20 k) c = c + N.of_nat k.
Proof. revert c. unfold wcol. induction k as [|k IH]; intros c; [cbn; lia|]. cbn [repeat fold_left]. change (is_break 0x20) with false. cbv iota. rewrite IH. lia. Qed.
Lemma is_tab_blank c : is_blank c = false -> is_space c = false /\ is_tab c = false.
Proof. unfold is_blank. apply orb_false_iff. Qed.
Lemma break_facts c : is_break c = true -> is_blank c = false /\ is_bom c = false /\ eqc 0x23 c = false /\ is_space c = false /\ is_tab c = false.
Proof. unfold is_break, is_blank, is_space, is_tab, is_bom, eqc. intros H. repeat split; lia. Qed.

Lemma nlen_repeat (x : N) k : nlen (repeat x k) = N.of_nat k.
Proof. unfold nlen. rewrite repeat_length. reflexivity. Qed.

Definition next_body (flow : bool) (allowed : bool) : cm (bool + bool) :=
    cache 1 ;;;
    col <- column ;;
    bom <- andc (ret (col =? 0)) (check 0 is_bom) ;;
    (if bom then skip else ret tt) ;;;
    cache 1 ;;;
    skip_while (fun x => is_space x || ((flow || negb allowed) && is_tab x)) ;;;
    hash <- check 0 (eqc 0x23) ;;
    (if hash then skip_while (fun x => negb (is_breakz x)) else ret tt) ;;;
    b <- check 0 is_break ;;
    if b then cache 2 ;;; skip_line ;;; ret (inl (if flow then allowed else true))
    else ret (inr allowed).
Lemma no_bom {X} t m (k : unit -> cm X) : nth 0 t 0 <> 0xFEFF -> bind (andc (ret (m_column m =? 0)) (check 0 is_bom)) (fun bom => bind (if bom then skip else ret tt) k) (fc t m) = k tt (fc t m).
Proof.
  intros H. unfold andc. rewrite r_bind, r_ret. destruct (m_column m =? 0); [|reflexivity]. rewrite r_check0. unfold is_bom. destruct (N.eqb_spec (nth 0 t 0) 0xFEFF); [contradiction|]. reflexivity.
Qed.
Lemma body_head flow al k t m : is_blank (nth 0 t 0) = false -> nth 0 t 0 <> 0x23 -> nth 0 t 0 <> 0xFEFF ->
  next_body flow al (fc (repeat 0x20 k ++ t) m) =
  (b <- check 0 is_break ;; if b then cache 2 ;;; skip_line ;;; ret (inl (if flow then al else true)) else ret (inr al)) (fc t (next_column (N.of_nat k) m)).
Proof.
  intros Hb Hh Hm. unfold next_body. rewrite r_cache, r_column, no_bom; [|destruct k; [exact Hm|discriminate]]. rewrite r_cache. unfold bind at 1. rewrite skip_while_run.
  - cbv iota. rewrite nlen_repeat. rewrite r_check0. unfold eqc. destruct (N.eqb_spec (nth 0 t 0) 0x23); [contradiction|]. rewrite r_ret. reflexivity.
  - apply Forall_forall. intros x I. apply repeat_spec in I. subst. reflexivity.
  - destruct (is_tab_blank _ Hb) as [-> ->]. rewrite andb_false_r. reflexivity.
Qed.
Lemma gap_scan flow t : starts t -> forall n ws al m, (length ws <= n)%nat -> white_text ws -> gap_goal flow al ws t m.
Proof.
  intros (S1 & S2 & S3 & S4). induction n as [|n IH]; intros ws al m Hn W; destruct (white_split ws W) as (k & ws' & -> & W' & H).
  - rewrite app_length, repeat_length in Hn. destruct ws'; [|cbn in Hn; lia]. destruct k; [|lia]. exists m. cbn [repeat app]. split; [constructor|]. split; [reflexivity|]. split; [reflexivity|].
    cbn [existsb andb]. rewrite orb_false_r. change (scan_to_next_token flow al) with (loop (next_body flow) al). apply (loop_end (next_body flow)). pose proof (body_head flow al 0 t m S1 S3 S4) as E. cbn [repeat app] in E. rewrite E.
    rewrite r_check0, S2. cbn. rewrite next_column_0. reflexivity.
  - destruct H as [->|Hb].
    + rewrite app_nil_r in *. exists (next_column (N.of_nat k) m). split; [apply adv_spaces|]. split; [rewrite wcol_spaces; reflexivity|]. rewrite spaces_no_break. split; [reflexivity|].
      cbn [andb]. rewrite orb_false_r. change (scan_to_next_token flow al) with (loop (next_body flow) al). apply (loop_end (next_body flow)). rewrite (body_head flow al k t m S1 S3 S4). rewrite r_check0, S2. reflexivity.
    + destruct ws' as [|c ws']; [discriminate|]. cbn [nth] in Hb. inversion W' as [|? ? _ W2]; subst. rewrite app_length, repeat_length in Hn. cbn [length] in Hn.
      assert (Hd : exists b ws2 j m1, (length ws2 <= n)%nat /\ white_text ws2 /\ c :: ws' = b ++ ws2 /\ adv (b ++ ws2 ++ t) (next_column (N.of_nat k) m) (ws2 ++ t) m1 /\ m1 = next_line j (next_column (N.of_nat k) m) /\ (forall c, wcol b c = 0) /\ (1 <= length b)%nat /\
        skip_line (fc (b ++ ws2 ++ t) (next_column (N.of_nat k) m)) = COk tt (fc (ws2 ++ t) m1)).
      { set (m0 := next_column (N.of_nat k) m). assert (Wc : forall x, wcol [c] x = 0) by (intros x; unfold wcol; cbn; rewrite Hb; reflexivity). destruct (N.eqb_spec c 0xD) as [->|Nc].
        - destruct (N.eqb_spec (nth 0 (ws' ++ t) 0) 0xA) as [E|E].
          + destruct ws' as [|d ws']; [cbn [app] in E; rewrite E in S2; discriminate|]. cbn in E. subst d. inversion W2; subst.
            exists [0xD; 0xA], ws', 2, (next_line 2 m0). split; [cbn [length] in Hn; lia|]. split; [assumption|]. split; [reflexivity|]. split; [apply adv_crlf; constructor|]. split; [reflexivity|]. split; [reflexivity|]. split; [cbn; lia|]. reflexivity.
          + exists [0xD], ws', 1, (next_line 1 m0). split; [lia|]. split; [assumption|]. split; [reflexivity|]. split.
            { apply adv_line; [reflexivity| |constructor]. destruct (N.eqb_spec (nth 0 (ws' ++ t) 0) 0xA); [contradiction|reflexivity]. }
            split; [reflexivity|]. split; [exact Wc|]. split; [cbn; lia|].
            unfold skip_line, is_crlf. cbn [app]. rewrite r_and, r_check0. unfold eqc at 1. cbn [nth]. rewrite N.eqb_refl. cbv iota. rewrite (r_check 1); [|cbn; lia|reflexivity]. unfold eqc. cbn [nth]. destruct (N.eqb_spec (nth 0 (ws' ++ t) 0) 0xA); [contradiction|]. reflexivity.
        - exists [c], ws', 1, (next_line 1 m0). split; [lia|]. split; [assumption|]. split; [reflexivity|]. split.
          { apply adv_line; [exact Hb| |constructor]. destruct (N.eqb_spec c 0xD); [contradiction|reflexivity]. }
          split; [reflexivity|]. split; [exact Wc|]. split; [cbn; lia|].
          unfold skip_line, is_crlf. cbn [app]. rewrite r_and, r_check0. unfold eqc. cbn [nth]. destruct (N.eqb_spec c 0xD); [contradiction|]. rewrite r_ret, r_check0. cbn [nth]. rewrite Hb. reflexivity. }
      destruct Hd as (b & ws2 & j & m1 & L2 & W3 & Eb & A1 & E1 & Wb & Lb & Sk).
      destruct (IH ws2 (if flow then al else true) m1 L2 W3) as (m' & A & C & Ln & R).
      exists m'. rewrite Eb. split; [rewrite <- app_assoc; eapply adv_trans; [apply adv_spaces|]; rewrite <- app_assoc; eapply adv_trans; eassumption|].
      split; [rewrite C, E1, !wcol_app, Wb; reflexivity|].
      assert (Ex : existsb is_break (repeat 0x20 k ++ b ++ ws2) = true) by (rewrite <- Eb, existsb_app; cbn [existsb]; rewrite Hb, orb_true_r; reflexivity). rewrite Ex.
      split. { assert (L1 : m_line m < m_line m1) by (rewrite E1; unfold next_line, next_column; cbn; lia). destruct (existsb is_break ws2); [lia|rewrite Ln; exact L1]. }
      rewrite <- !app_assoc. change (scan_to_next_token flow al) with (loop (next_body flow) al). apply (loop_go (next_body flow) _ _ (if flow then al else true) (fc (ws2 ++ t) m1)).
      * assert (Hc : nth 0 (b ++ ws2 ++ t) 0 = c) by (rewrite app_assoc, <- Eb; reflexivity). destruct (break_facts c Hb) as (B1 & B2 & B3 & _).
        rewrite (body_head flow al k (b ++ ws2 ++ t) m); [|rewrite Hc; exact B1|rewrite Hc; intros ->; discriminate B3|rewrite Hc; intros ->; discriminate B2].
        rewrite r_check0, Hc, Hb, r_cache. unfold bind. rewrite Sk. reflexivity.
      * cbn [fc c_text]. rewrite !app_length, repeat_length. lia.
      * etransitivity; [exact R|]. f_equal. destruct flow; cbn [negb]; rewrite ?andb_false_r, ?andb_true_r, ?orb_false_r, ?orb_true_r; reflexivity.
Qed.
Lemma gap_run flow al ws t m : starts t -> white_text ws -> gap_goal flow al ws t m.
Proof. intros S W. exact (gap_scan flow t S (length ws) ws al m (Nat.le_refl _) W). Qed.

(* ---- simple keys ---- *)
Definition harmless (m : mark) (k : skey) : Prop := k_possible k = true -> k_required k = false /\ m_line (k_mark k) <= m_line m.
Definition tidy (m : mark) (ks : list skey) : Prop := Forall (harmless m) ks.
(* no simple key is required *)
Definition idle (m : mark) (ks : list skey) : Prop := ks <> [] /\ tidy m ks.
Definition dead (ks : list skey) : Prop := match ks with k :: _ => k_possible k = false | [] => False end.
Lemma tidy_later m m' ks : m_line m <= m_line m' -> tidy m ks -> tidy m' ks.
Proof. intros L. apply Forall_impl. intros k H P. destruct (H P). split; [assumption|lia]. Qed.
Lemma idle_later m m' ks : m_line m <= m_line m' -> idle m ks -> idle m' ks.
Proof. intros L [H T]. split; [exact H|]. eapply tidy_later; eauto. Qed.
Definition kill (k : skey) : skey := mkKey false (k_required k) (k_number k) (k_mark k).
(* fewer keys are possible *)
Definition fewer (ks ks' : list skey) : Prop := Forall2 (fun k k' => k_possible k = false -> k_possible k' = false) ks ks'.
Lemma fewer_refl ks : fewer ks ks.
Proof. induction ks; constructor; auto. Qed.
Lemma fewer_trans a : forall b c, fewer a b -> fewer b c -> fewer a c.
Proof. induction a as [|k a IH]; intros b c H1 H2; inversion H1; subst; inversion H2; subst; constructor; auto. eapply IH; eauto. Qed.
Lemma fewer_len a b : fewer a b -> length b = length a.
Proof. induction 1; cbn; auto. Qed.
Lemma tidy_stale m m0 : forall ks, tidy m0 ks -> exists ks', stale m ks = inl ks' /\ tidy m0 ks' /\ fewer ks ks'.
Proof.
  induction ks as [|k ks IH]; intros T; [exists []; cbn; repeat split; constructor|]. inversion T as [|? ? Hk Tk]; subst. destruct (IH Tk) as (r & E & Tr & L).
  cbn [stale]. rewrite E. destruct (k_possible k && _) eqn:O.
  - apply andb_true_iff in O as [P _]. destruct (Hk P) as [R _]. rewrite R. eexists. split; [reflexivity|]. split; [constructor; [intros Q; discriminate|exact Tr]|constructor; auto].
  - eexists. split; [reflexivity|]. split; [constructor; auto|constructor; auto].
Qed.
(* the same without the first key, which stays impossible where no new key may begin *)
Definition kept (al : bool) (ks ks' : list skey) : Prop :=
  match ks, ks' with k :: kr, k' :: kr' => (al = false -> k_possible k = false -> k_possible k' = false) /\ fewer kr kr' | _, _ => False end.
Lemma kept_trans al a b c : kept al a b -> kept false b c -> kept al a c.
Proof. destruct a, b, c; cbn; try contradiction. intros [H1 H2] [H3 H4]. split; [auto|eapply fewer_trans; eauto]. Qed.
Lemma fewer_kept al a b : a <> [] -> fewer a b -> kept al a b.
Proof. intros N F. destruct F; [contradiction|]. split; auto. Qed.
Lemma kept_len al a b : kept al a b -> length b = length a.
Proof. destruct a, b; cbn; try contradiction. intros [_ F]. rewrite (fewer_len _ _ F). reflexivity. Qed.
Lemma kept_false a b : kept false a b -> fewer a b.
Proof. destruct a, b; cbn; try contradiction. intros [H F]. constructor; auto. Qed.
Lemma idle_stale_from m m0 ks : idle m0 ks -> exists k kr, stale m ks = inl (k :: kr) /\ idle m0 (k :: kr) /\ fewer ks (k :: kr).
Proof.
  intros [N T]. destruct (tidy_stale m m0 ks T) as (ks' & E & T' & L). destruct ks' as [|k kr]; [inversion L; subst; contradiction|]. exists k, kr.
  split; [exact E|]. split; [split; [discriminate|exact T']|exact L].
Qed.
Lemma idle_stale m ks : idle m ks -> exists k kr, stale m ks = inl (k :: kr) /\ idle m (k :: kr) /\ fewer ks (k :: kr).
Proof. apply idle_stale_from. Qed.
(* on a new line no key is left *)
Lemma new_line_stale m m' ks : m_line m < m_line m' -> tidy m ks -> exists ks', stale m' ks = inl ks' /\ Forall (fun k => k_possible k = false) ks' /\ length ks' = length ks.
Proof.
  intros L. induction ks as [|k ks IH]; intros T; [exists []; cbn; auto|]. inversion T as [|? ? Hk Tk]; subst. destruct (IH Tk) as (r & E & Tr & Ln). cbn [stale]. rewrite E.
  destruct (k_possible k) eqn:P; cbn [andb].
  - destruct (Hk P) as [R H]. rewrite R. replace (m_line (k_mark k) <? m_line m') with true by lia. cbn [orb]. eexists. split; [reflexivity|]. split; [constructor; auto|cbn; auto].
  - eexists. split; [reflexivity|]. split; [constructor; auto|cbn; auto].
Qed.
Lemma fresh_stale m K kr : tidy m kr -> too_old m K = false -> exists kr', stale m (K :: kr) = inl (K :: kr') /\ tidy m kr' /\ fewer kr kr'.
Proof.
  intros T O. destruct (tidy_stale m m kr T) as (r & E & Tr & L). cbn [stale]. rewrite E. fold (too_old m K). rewrite O, andb_false_r. eauto.
Qed.
Lemma all_dead_tidy m ks : Forall (fun k => k_possible k = false) ks -> tidy m ks.
Proof. apply Forall_impl. intros k H P. congruence. Qed.
Lemma harmless_soft m k kr : idle m (k :: kr) -> k_possible k && k_required k = false.
Proof. intros [_ T]. inversion T as [|? ? Hk _]; subst. destruct (k_possible k) eqn:P; [|reflexivity]. destruct (Hk P) as [-> _]. reflexivity. Qed.

(* ---- states and steps ---- *)
Lemma cache_fc n t m : cache n (fc t m) = COk tt (fc t m).
Proof. apply cache_full. Qed.
Section Steps.
Variables (enc : encoding) (nest : Z).
Definition st (t : list N) (m : mark) (f : N) (q : list token) (is : list Z) (i : Z) (al : bool) (ks : list skey) : sc :=
  mkSc (fc t m) enc true false None f q 0 false is i al ks nest.
Definition fits (is : list Z) (f : N) : Prop := (Z.of_nat (length is) + Z.of_N f < nest)%Z.
Lemma st_running t m f q is i al ks : fits is f -> running (st t m f q is i al ks).
Proof. intros F. unfold running, is_deep. cbn. repeat split. unfold fits in F. lia. Qed.
(* the same step, and no token lost *)
Definition alike (s s' : sc) : Prop := fetch_next_token s = fetch_next_token s' /\ incl (s_tokens s) (s_tokens s').
Lemma alike_refl s : alike s s.
Proof. split; [reflexivity|apply incl_refl]. Qed.
Definition leads (a b : sc) : Prop := forall s, alike s a -> exists n s', eager n s s' /\ alike s' b.
Lemma leads_refl a : leads a a.
Proof. intros s A. exists O, s. split; [constructor|exact A]. Qed.
Lemma eager_app n s s1 : eager n s s1 -> forall n' s2, eager n' s1 s2 -> eager (n + n') s s2.
Proof. induction 1; intros n' s3 E; [exact E|]. cbn [plus]. econstructor; eauto. Qed.
Lemma leads_trans a b c : leads a b -> leads b c -> leads a c.
Proof.
  intros H1 H2 s A. destruct (H1 s A) as (n & s1 & E1 & A1). destruct (H2 s1 A1) as (n2 & s2 & E2 & A2). exists (n + n2)%nat, s2. split; [eapply eager_app; eauto|exact A2].
Qed.
Lemma leads_alike a b : alike a b -> leads a b.
Proof. intros [H I] s [A I2]. exists O, s. split; [constructor|]. split; [congruence|eapply incl_tran; eauto]. Qed.
Lemma leads_step a b : fetch_next_token a = SOk tt b -> running b -> leads a b.
Proof. intros E R s [A _]. exists 1%nat, b. split; [|apply alike_refl]. econstructor; [rewrite A; exact E|exact R|constructor]. Qed.

Definition fl (f : N) : bool := negb (f =? 0).
Lemma gap_fetch ws t m f q is i al ks : starts t -> white_text ws -> exists m', adv (ws ++ t) m t m' /\ m_column m' = wcol ws (m_column m) /\
  (if existsb is_break ws then m_line m < m_line m' else m_line m' = m_line m) /\
  fetch_next_token (st (ws ++ t) m f q is i al ks) =
    match stale m' ks with
    | inl r => fetch_rest (st t m' f q is i (al || (existsb is_break ws && negb (fl f))) r)
    | inr x => SErr (mkSerr SNoColon (Some x) m')
    end.
Proof.
  intros S W. destruct (gap_run (fl f) al ws t m S W) as (m' & A & C & L & R). exists m'. repeat split; auto.
  rewrite (fetch_eq (st (ws ++ t) m f q is i al ks) eq_refl). cbn [st s_cur s_allowed s_keys].
  rewrite cache_fc. change (in_flow (st (ws ++ t) m f q is i al ks)) with (fl f). rewrite R. cbn [fc c_mark]. destruct (stale m' ks); reflexivity.
Qed.
Lemma alike_gap ws t m f q is i al ks : starts t -> white_text ws -> exists m', adv (ws ++ t) m t m' /\ m_column m' = wcol ws (m_column m) /\
  (if existsb is_break ws then m_line m < m_line m' else m_line m' = m_line m) /\
  alike (st (ws ++ t) m f q is i al ks) (st t m' f q is i (al || (existsb is_break ws && negb (fl f))) ks).
Proof.
  intros S W. destruct (gap_fetch ws t m f q is i al ks S W) as (m' & A & C & L & R). exists m'. do 3 (split; [assumption|]).
  destruct (gap_fetch [] t m' f q is i (al || (existsb is_break ws && negb (fl f))) ks S (Forall_nil _)) as (m2 & A2 & _ & _ & R2). cbn [app existsb andb] in *. rewrite orb_false_r in R2.
  assert (m2 = m') by (exact (PlainTrip.adv_det _ _ _ _ A2 _ _ (adv_refl _ _) eq_refl)). subst m2. split; [rewrite R, R2; reflexivity|apply incl_refl].
Qed.
Lemma fetch_at t m f q is i al ks : starts t -> fetch_next_token (st t m f q is i al ks) =
  match stale m ks with inl r => fetch_rest (st t m f q is i al r) | inr x => SErr (mkSerr SNoColon (Some x) m) end.
Proof.
  intros S. destruct (gap_fetch [] t m f q is i al ks S (Forall_nil _)) as (m2 & A2 & _ & _ & R2). cbn [app existsb andb] in *. rewrite orb_false_r in R2.
  assert (m2 = m) by (exact (PlainTrip.adv_det _ _ _ _ A2 _ _ (adv_refl _ _) eq_refl)). subst m2. exact R2.
Qed.
(* spaces on the same line *)
Lemma alike_spaces k t m f q is i al ks : starts t -> alike (st (repeat 0x20 k ++ t) m f q is i al ks) (st t (next_column (N.of_nat k) m) f q is i al ks).
Proof.
  intros S. destruct (alike_gap (repeat 0x20 k) t m f q is i al ks S (spaces_white k)) as (m' & A & _ & _ & H). rewrite spaces_no_break in H. cbn [andb] in H. rewrite orb_false_r in H.
  rewrite <- (PlainTrip.adv_det _ _ _ _ A _ _ (adv_spaces k t m) eq_refl). exact H.
Qed.

(* ---- indentation ---- *)
Lemma unroll_more m col i is : forall is' i' q q2, (col <= i)%Z -> unroll m i i' is' q = Some (i, is, q2) -> unroll m col i' is' q = unroll m col i is q2.
Proof.
  induction is' as [|j is' IH]; intros i' q q2 L H; cbn [unroll] in H.
  - destruct (Z.ltb_spec i i'); [discriminate|]. injection H as -> <- <-. reflexivity.
  - destruct (Z.ltb_spec i i'); [|injection H as -> <- <-; reflexivity]. cbn [unroll]. destruct (Z.ltb_spec col i'); [|lia]. apply IH; assumption.
Qed.
Lemma unroll_incl m col : forall is i q i2 is2 q2, unroll m col i is q = Some (i2, is2, q2) -> incl q q2.
Proof.
  induction is as [|j is IH]; intros i q i2 is2 q2 H; cbn [unroll] in H; destruct (col <? i)%Z; try discriminate; try (injection H as <- <- <-; apply incl_refl).
  apply IH in H. intros x I. apply H, in_or_app. auto.
Qed.
Definition rest_of (flow : bool) (s : sc) : sres unit := (lift (cache 4) ~;; b <~ lift (choose flow) ;; fetch_branch b) s.
Lemma rest_eq t m f q is i al ks : fetch_rest (st t m f q is i al ks) =
  if fl f then rest_of (fl f) (st t m f q is i al ks) else
  match unroll m (Z.of_N (m_column m)) i is q with
  | None => SBad
  | Some (i2, is2, q2) => rest_of (fl f) (st t m f q2 is2 i2 al ks)
  end.
Proof.
  unfold fetch_rest, sbind at 1, get, sbind at 1, unroll_indent. change (in_flow (st t m f q is i al ks)) with (fl f). destruct (fl f); [reflexivity|]. cbn [st s_cur s_indent s_indents s_tokens]. unfold smark. cbn [st s_cur fc c_mark].
  destruct (unroll m (Z.of_N (m_column m)) i is q) as [[[i2 is2] q2]|]; reflexivity.
Qed.
Lemma alike_unroll t m q is' i' is i q2 al ks : starts t -> (Z.of_N (m_column m) <= i)%Z -> unroll m i i' is' q = Some (i, is, q2) ->
  alike (st t m 0 q is' i' al ks) (st t m 0 q2 is i al ks).
Proof.
  intros S L U. split; [|exact (unroll_incl _ _ _ _ _ _ _ _ U)]. rewrite !fetch_at by exact S. destruct (stale m ks) as [r|]; [|reflexivity]. rewrite !rest_eq. cbn [fl N.eqb negb]. rewrite (unroll_more m _ i is is' i' q q2 L U). reflexivity.
Qed.
Lemma step t m f q is i al ks ks' b : starts t -> stale m ks = inl ks' -> f <> 0 \/ (i <= Z.of_N (m_column m))%Z -> choose (fl f) (fc t m) = COk b (fc t m) ->
  fetch_next_token (st t m f q is i al ks) = fetch_branch b (st t m f q is i al ks').
Proof.
  intros S E U C. rewrite fetch_at by exact S. rewrite E, rest_eq.
  assert (R : forall q is, rest_of (fl f) (st t m f q is i al ks') = fetch_branch b (st t m f q is i al ks')).
  { intros q0 is0. unfold rest_of, sbind at 1, lift. cbn [st s_cur]. rewrite cache_fc. unfold sbind. cbn [set_cur s_cur]. rewrite C. reflexivity. }
  destruct (fl f) eqn:F; [apply R|]. assert (F0 : f = 0) by (unfold fl in F; apply negb_false_iff, N.eqb_eq in F; exact F). destruct U as [U|U]; [contradiction|].
  assert (Un : unroll m (Z.of_N (m_column m)) i is q = Some (i, is, q)) by (destruct is; cbn [unroll]; (destruct (Z.ltb_spec (Z.of_N (m_column m)) i); [lia|reflexivity])).
  rewrite Un. apply R.
Qed.

(* ---- the kind of the next token ---- *)
Definition choose_in (flow : bool) (x : N) : cm branch :=
  if x =? 0x5B then ret BFlowSeqStart else
  if x =? 0x7B then ret BFlowMapStart else
  if x =? 0x5D then ret BFlowSeqEnd else
  if x =? 0x7D then ret BFlowMapEnd else
  if x =? 0x2C then ret BFlowEntry else
  b <- andc (ret (x =? 0x2D)) (check 1 is_blankz) ;;
  if b then ret BBlockEntry else
  b <- andc (ret (x =? 0x3F)) (orc (ret flow) (check 1 is_blankz)) ;;
  if b then ret BKey else
  b <- andc (ret (x =? 0x3A)) (orc (ret flow) (check 1 is_blankz)) ;;
  if b then ret BValue else
  if x =? 0x2A then ret BAlias else
  if x =? 0x26 then ret BAnchor else
  if x =? 0x21 then ret BTag else
  if (x =? 0x7C) && negb flow then ret BLiteral else
  if (x =? 0x3E) && negb flow then ret BFolded else
  if x =? 0x27 then ret BSingle else
  if x =? 0x22 then ret BDouble else
  p <- plain_start flow ;;
  if p then ret BPlain else ret BError.
Lemma choose_skip flow x t m : x <> 0 -> x <> 0x25 -> at_document_indicator (x :: t) m = false -> choose flow (fc (x :: t) m) = choose_in flow x (fc (x :: t) m).
Proof.
  intros Z P D. unfold choose. rewrite r_column, r_peek0. cbn [nth]. unfold is_z. destruct (N.eqb_spec x 0); [contradiction|]. destruct (N.eqb_spec x 0x25); [contradiction|]. rewrite andb_false_r.
  unfold at_document_indicator, is_indicator in D. rewrite r_and, r_ret. destruct (m_column m =? 0).
  2:{ rewrite r_ret, r_and, r_ret. rewrite r_ret. reflexivity. }
  cbn [andb] in D. apply orb_false_iff in D as [D1 D2]. rewrite r_and, r_triple by (reflexivity || lia).
  assert (T : forall {X} (k : bool -> cm X), bind (andc (ret true) (andc (triple 0x2E) (check 3 is_blankz))) k (fc (x :: t) m) = k false (fc (x :: t) m)).
  { intros X k. rewrite r_and, r_ret, r_and, r_triple by (reflexivity || lia). destruct (is_triple 0x2E (x :: t)) eqn:T2; [|rewrite r_ret; reflexivity].
    destruct (triple_ascii _ _ T2 eq_refl) as [A L]. rewrite (r_check 3) by assumption. cbn [andb] in D2. rewrite D2. reflexivity. }
  destruct (is_triple 0x2D (x :: t)) eqn:T1.
  - destruct (triple_ascii _ _ T1 eq_refl) as [A L]. rewrite (r_check 3) by assumption. cbn [andb] in D1. rewrite D1, T. reflexivity.
  - rewrite r_ret, T. reflexivity.
Qed.
Lemma no_marker x t m : x <> 0x2D -> x <> 0x2E -> at_document_indicator (x :: t) m = false.
Proof.
  intros H1 H2. unfold at_document_indicator, is_indicator. destruct (m_column m =? 0); [|reflexivity]. destruct t as [|y [|z r]]; cbn [is_triple]; try reflexivity.
  destruct (N.eqb_spec x 0x2D); [contradiction|]. destruct (N.eqb_spec x 0x2E); [contradiction|]. reflexivity.
Qed.
Ltac eqs := repeat match goal with |- context [N.eqb ?a ?b] =>
  let r := eval vm_compute in (N.eqb a b) in match r with true => change (N.eqb a b) with true | false => change (N.eqb a b) with false end end.
Ltac chooser := intros; rewrite choose_skip; [reflexivity|discriminate|discriminate|apply no_marker; discriminate].
Lemma choose_flow_seq flow t m : choose flow (fc (0x5B :: t) m) = COk BFlowSeqStart (fc (0x5B :: t) m). Proof. chooser. Qed.
Lemma choose_flow_map flow t m : choose flow (fc (0x7B :: t) m) = COk BFlowMapStart (fc (0x7B :: t) m). Proof. chooser. Qed.
Lemma choose_flow_seq_end flow t m : choose flow (fc (0x5D :: t) m) = COk BFlowSeqEnd (fc (0x5D :: t) m). Proof. chooser. Qed.
Lemma choose_flow_map_end flow t m : choose flow (fc (0x7D :: t) m) = COk BFlowMapEnd (fc (0x7D :: t) m). Proof. chooser. Qed.
Lemma choose_flow_entry flow t m : choose flow (fc (0x2C :: t) m) = COk BFlowEntry (fc (0x2C :: t) m). Proof. chooser. Qed.
Lemma choose_alias flow t m : choose flow (fc (0x2A :: t) m) = COk BAlias (fc (0x2A :: t) m). Proof. chooser. Qed.
Lemma choose_anchor flow t m : choose flow (fc (0x26 :: t) m) = COk BAnchor (fc (0x26 :: t) m). Proof. chooser. Qed.
Lemma choose_tag flow t m : choose flow (fc (0x21 :: t) m) = COk BTag (fc (0x21 :: t) m). Proof. chooser. Qed.
Lemma choose_single flow t m : choose flow (fc (0x27 :: t) m) = COk BSingle (fc (0x27 :: t) m). Proof. chooser. Qed.
Lemma choose_double flow t m : choose flow (fc (0x22 :: t) m) = COk BDouble (fc (0x22 :: t) m). Proof. chooser. Qed.
Lemma choose_literal t m : choose false (fc (0x7C :: t) m) = COk BLiteral (fc (0x7C :: t) m). Proof. chooser. Qed.
Lemma choose_folded t m : choose false (fc (0x3E :: t) m) = COk BFolded (fc (0x3E :: t) m). Proof. chooser. Qed.
Lemma check_1 {X} p x t m (k : bool -> cm X) : is_ascii x = true -> bind (check 1 p) k (fc (x :: t) m) = k (p (nth 0 t 0)) (fc (x :: t) m).
Proof. intros A. rewrite (r_check 1); [reflexivity|cbn; lia|cbn; rewrite A; reflexivity]. Qed.
Ltac crun := repeat first [rewrite r_and | rewrite r_or | rewrite r_ret | rewrite r_check0 | rewrite check_1 by reflexivity | progress (unfold eqc; cbn [andb orb negb nth]) | progress eqs | progress cbv iota].
Lemma choose_key flow t m : flow = true \/ is_blankz (nth 0 t 0) = true -> choose flow (fc (0x3F :: t) m) = COk BKey (fc (0x3F :: t) m).
Proof.
  intros H. rewrite choose_skip; [|discriminate|discriminate|apply no_marker; discriminate]. unfold choose_in. crun.
  destruct flow; crun; [reflexivity|]. destruct H as [H|H]; [discriminate|]. rewrite H. reflexivity.
Qed.
Lemma choose_value flow t m : flow = true \/ is_blankz (nth 0 t 0) = true -> choose flow (fc (0x3A :: t) m) = COk BValue (fc (0x3A :: t) m).
Proof.
  intros H. rewrite choose_skip; [|discriminate|discriminate|apply no_marker; discriminate]. unfold choose_in. crun.
  destruct flow; crun; [reflexivity|]. destruct H as [H|H]; [discriminate|]. rewrite H. reflexivity.
Qed.
Lemma choose_entry t m : is_blankz (nth 0 t 0) = true -> choose false (fc (0x2D :: t) m) = COk BBlockEntry (fc (0x2D :: t) m).
Proof.
  intros H. rewrite choose_skip; [|discriminate|discriminate|].
  - unfold choose_in. crun. rewrite H. reflexivity.
  - unfold at_document_indicator, is_indicator. destruct (m_column m =? 0); [|reflexivity]. destruct t as [|y [|z r]]; cbn [is_triple]; try reflexivity. cbn [nth] in H.
    destruct (N.eqb_spec y 0x2D) as [->|]; [discriminate H|]. reflexivity.
Qed.
Lemma choose_end flow m : choose flow (fc [] m) = COk BStreamEnd (fc [] m). Proof. reflexivity. Qed.
Lemma choose_directive flow t m : m_column m = 0 -> choose flow (fc (0x25 :: t) m) = COk BDirective (fc (0x25 :: t) m).
Proof. intros C. unfold choose. rewrite r_column, r_peek0. cbn [nth]. rewrite C. reflexivity. Qed.
Lemma choose_doc_start flow t m : m_column m = 0 -> is_blankz (nth 0 t 0) = true -> choose flow (fc (0x2D :: 0x2D :: 0x2D :: t) m) = COk BDocStart (fc (0x2D :: 0x2D :: 0x2D :: t) m).
Proof.
  intros C H. unfold choose. rewrite r_column, r_peek0. cbn [nth]. rewrite C. unfold is_z; eqs; cbn [andb]. rewrite r_and, r_ret. cbv iota. rewrite r_and, r_triple by (reflexivity || lia). cbn [is_triple]; eqs; cbn [andb]; cbv iota.
  rewrite (r_check 3); [|cbn; lia|reflexivity]. cbn [nth]. rewrite H. reflexivity.
Qed.
Lemma choose_doc_end flow t m : m_column m = 0 -> is_blankz (nth 0 t 0) = true -> choose flow (fc (0x2E :: 0x2E :: 0x2E :: t) m) = COk BDocEnd (fc (0x2E :: 0x2E :: 0x2E :: t) m).
Proof.
  intros C H. unfold choose. rewrite r_column, r_peek0. cbn [nth]. rewrite C. unfold is_z; eqs; cbn [andb]. rewrite r_and, r_ret. cbv iota. rewrite r_and, r_triple by (reflexivity || lia). cbn [is_triple]; eqs; cbn [andb]; cbv iota.
  rewrite r_ret, r_and, r_ret. cbv iota. rewrite r_and, r_triple by (reflexivity || lia). cbn [is_triple]; eqs; cbn [andb]; cbv iota. rewrite (r_check 3); [|cbn; lia|reflexivity]. cbn [nth]. rewrite H. reflexivity.
Qed.
Definition plain_begins (flow : bool) (x : N) (t : list N) : Prop :=
  plain_first x = true \/ (x = 0x2D /\ is_blankz (nth 0 t 0) = false) \/ (flow = false /\ (x = 0x3F \/ x = 0x3A) /\ is_blankz (nth 0 t 0) = false).
Lemma choose_plain flow x t m : plain_begins flow x t -> at_document_indicator (x :: t) m = false -> choose flow (fc (x :: t) m) = COk BPlain (fc (x :: t) m).
Proof.
  intros H D. destruct H as [H|[[-> H]|(-> & Hx & H)]].
  - unfold plain_first in H. apply negb_true_iff, orb_false_iff in H as [H1 H2]. rewrite choose_skip; [|intros ->; discriminate H1|intros ->; discriminate H2|exact D].
    assert (E : forall y, In y [0x2D; 0x3F; 0x3A; 0x2C; 0x5B; 0x5D; 0x7B; 0x7D; 0x23; 0x26; 0x2A; 0x21; 0x7C; 0x3E; 0x27; 0x22; 0x25; 0x40; 0x60] -> x =? y = false).
    { intros y I. destruct (x =? y) eqn:E; [|reflexivity]. assert (existsb (fun y => x =? y) [0x2D; 0x3F; 0x3A; 0x2C; 0x5B; 0x5D; 0x7B; 0x7D; 0x23; 0x26; 0x2A; 0x21; 0x7C; 0x3E; 0x27; 0x22; 0x25; 0x40; 0x60] = true) by (apply existsb_exists; eauto). congruence. }
    unfold choose_in. rewrite !E by (cbn; tauto). crun. unfold plain_start. crun. unfold plain_first. rewrite H1, H2. reflexivity.
  - rewrite choose_skip; [|discriminate|discriminate|exact D]. unfold choose_in. crun. rewrite H. crun. unfold plain_start. crun. change (plain_first 0x2D) with false. crun.
    replace (negb (is_blank (nth 0 t 0))) with true; [reflexivity|]. unfold is_blankz in H. apply orb_false_iff in H as [-> _]. reflexivity.
  - assert (Dm : choose false (fc (x :: t) m) = choose_in false x (fc (x :: t) m)) by (destruct Hx as [-> | ->]; (rewrite choose_skip; [reflexivity|discriminate|discriminate|exact D])). rewrite Dm.
    destruct Hx as [-> | ->]; unfold choose_in; crun; rewrite H; crun; unfold plain_start; crun.
    + change (plain_first 0x3F) with false. crun. rewrite H. reflexivity.
    + change (plain_first 0x3A) with false. crun. rewrite H. reflexivity.
Qed.

(* ---- one token ---- *)
Definition new_key (f : N) (q : list token) (i : Z) (m : mark) : skey := mkKey true (negb (fl f) && (i =? Z.of_N (m_column m))%Z) (nlen q) m.
Definition soft (k : skey) : Prop := k_possible k && k_required k = false.
Lemma save_run t m f q is i al k kr : (al = true -> soft k) ->
  save_simple_key (st t m f q is i al (k :: kr)) = SOk tt (st t m f q is i al ((if al then new_key f q i m else k) :: kr)).
Proof.
  intros H. unfold save_simple_key, sbind at 1, get. cbn [st s_allowed]. destruct al; [|reflexivity]. unfold sbind, remove_simple_key. cbn [st s_keys]. rewrite (H eq_refl). reflexivity.
Qed.
Lemma remove_run t m f q is i al k kr : soft k -> remove_simple_key (st t m f q is i al (k :: kr)) = SOk tt (st t m f q is i al (kill k :: kr)).
Proof. intros H. unfold remove_simple_key. cbn [st s_keys]. rewrite H. reflexivity. Qed.
Definition at_column (f : N) (i : Z) (m : mark) : Prop := f <> 0 \/ (i <= Z.of_N (m_column m))%Z.
(* a token that may begin a simple key *)
Definition tok_step (f : N) (i : Z) (t : list N) (m : mark) (al2 : bool) (t' : list N) (e : mark) (tk : token) : Prop :=
  forall q is al ks k kr, fits is f -> stale m ks = inl (k :: kr) -> (al = true -> soft k) ->
    leads (st t m f q is i al ks) (st t' e f (q ++ [tk]) is i al2 ((if al then new_key f q i m else k) :: kr)).
Lemma sbind_ok {A B} (a : sm A) (k : A -> sm B) s x s' : a s = SOk x s' -> sbind a k s = k x s'.
Proof. unfold sbind. intros ->. reflexivity. Qed.
Lemma lift_ok {A} (a : cm A) t m f q is i al ks x t' e : a (fc t m) = COk x (fc t' e) -> lift a (st t m f q is i al ks) = SOk x (st t' e f q is i al ks).
Proof. intros H. unfold lift. cbn [st s_cur]. rewrite H. reflexivity. Qed.
Lemma one_token f i t m b (scan : cm token) t' e tk : starts t -> at_column f i m -> choose (fl f) (fc t m) = COk b (fc t m) ->
  (forall q is al ks, fetch_branch b (st t m f q is i al ks) = (save_simple_key ~;; allow false ~;; t <~ lift scan ;; enqueue t) (st t m f q is i al ks)) ->
  scan (fc t m) = COk tk (fc t' e) -> tok_step f i t m false t' e tk.
Proof.
  intros S C Ch B Sc q is al ks k kr F E K. apply leads_step; [|apply st_running; exact F]. rewrite (step t m f q is i al ks (k :: kr) b S E C Ch), B.
  erewrite sbind_ok by (apply save_run; exact K). unfold sbind at 1, allow, modify. change (set_allowed (st t m f q is i al ?x) false) with (st t m f q is i false x).
  erewrite sbind_ok by (apply lift_ok; exact Sc). reflexivity.
Qed.
Lemma tok_double f i t m t' e tk : at_column f i m -> scan_flow_scalar false (fc (0x22 :: t) m) = COk tk (fc t' e) -> tok_step f i (0x22 :: t) m false t' e tk.
Proof. intros C S. eapply one_token; [repeat split; discriminate|exact C|apply choose_double|reflexivity|exact S]. Qed.
Lemma tok_single f i t m t' e tk : at_column f i m -> scan_flow_scalar true (fc (0x27 :: t) m) = COk tk (fc t' e) -> tok_step f i (0x27 :: t) m false t' e tk.
Proof. intros C S. eapply one_token; [repeat split; discriminate|exact C|apply choose_single|reflexivity|exact S]. Qed.
Lemma tok_anchor f i t m t' e tk : at_column f i m -> scan_anchor true (fc (0x26 :: t) m) = COk tk (fc t' e) -> tok_step f i (0x26 :: t) m false t' e tk.
Proof. intros C S. eapply one_token; [repeat split; discriminate|exact C|apply choose_anchor|reflexivity|exact S]. Qed.
Lemma tok_alias f i t m t' e tk : at_column f i m -> scan_anchor false (fc (0x2A :: t) m) = COk tk (fc t' e) -> tok_step f i (0x2A :: t) m false t' e tk.
Proof. intros C S. eapply one_token; [repeat split; discriminate|exact C|apply choose_alias|reflexivity|exact S]. Qed.
Lemma tok_tag f i t m t' e tk : at_column f i m -> scan_tag (fl f) (fc (0x21 :: t) m) = COk tk (fc t' e) -> tok_step f i (0x21 :: t) m false t' e tk.
Proof.
  intros C S q is al ks k kr F E K. apply leads_step; [|apply st_running; exact F].
  rewrite (step (0x21 :: t) m f q is i al ks (k :: kr) BTag); [|repeat split; discriminate|exact E|exact C|apply choose_tag]. cbn [fetch_branch]. unfold fetch_tag.
  erewrite sbind_ok by (apply save_run; exact K). unfold sbind at 1, allow, modify. change (set_allowed (st (0x21 :: t) m f q is i al ?x) false) with (st (0x21 :: t) m f q is i false x).
  unfold sbind at 1, get. change (in_flow (st (0x21 :: t) m f q is i false ?x)) with (fl f).
  erewrite sbind_ok by (apply lift_ok; exact S). reflexivity.
Qed.
Lemma tok_plain f i x t m t' e tk (lb : bool) : starts (x :: t) -> plain_begins (fl f) x t -> at_document_indicator (x :: t) m = false -> at_column f i m ->
  scan_plain_scalar (fl f) i (fc (x :: t) m) = COk (tk, lb) (fc t' e) -> tok_step f i (x :: t) m lb t' e tk.
Proof.
  intros St Pb D C S q is al ks k kr F E K. apply leads_step; [|apply st_running; exact F].
  rewrite (step (x :: t) m f q is i al ks (k :: kr) BPlain); [|exact St|exact E|exact C|apply choose_plain; assumption]. cbn [fetch_branch]. unfold fetch_plain_scalar.
  erewrite sbind_ok by (apply save_run; exact K). unfold sbind at 1, allow, modify. change (set_allowed (st (x :: t) m f q is i al ?y) false) with (st (x :: t) m f q is i false y).
  unfold sbind at 1, get. change (in_flow (st (x :: t) m f q is i false ?y)) with (fl f). change (s_indent (st (x :: t) m f q is i false ?y)) with i.
  erewrite sbind_ok by (apply lift_ok; exact S). destruct lb; reflexivity.
Qed.
(* a token that may begin a simple key, in a state with no required key *)
Definition calm (f : N) (i : Z) (m : mark) (al : bool) : Prop := f <> 0 \/ al = false \/ (i < Z.of_N (m_column m))%Z.
Lemma calm_key f i m al q : calm f i m al -> al = true -> k_required (new_key f q i m) = false.
Proof.
  intros [H|[H|H]] A; [|congruence|]; unfold new_key, fl; cbn [k_required].
  - destruct (N.eqb_spec f 0); [contradiction|reflexivity].
  - destruct (i =? Z.of_N (m_column m))%Z eqn:E; [lia|]. apply andb_false_r.
Qed.
Lemma idle_token f i t m al2 t' e tk q is (al : bool) ks m0 : tok_step f i t m al2 t' e tk -> m_line m0 <= m_line m -> fits is f -> idle m0 ks -> calm f i m al ->
  exists ks', leads (st t m f q is i al ks) (st t' e f (q ++ [tk]) is i al2 ks') /\ idle (if al then m else m0) ks' /\ kept al ks ks'.
Proof.
  intros H L F I C. destruct (idle_stale_from m m0 ks I) as (k & kr & E & I' & D). eexists. split; [apply (H q is al ks k kr F E); intros _; eapply harmless_soft; eauto|].
  destruct I' as [_ T]. inversion T as [|? ? Hk Tk]; subst. split.
  - split; [discriminate|]. destruct al; [|exact T]. constructor; [|apply (tidy_later m0 m); assumption].
    intros _. split; [eapply calm_key; eauto|cbn; lia].
  - inversion D; subst. split; [intros ->; assumption|assumption].
Qed.
(* the first token of a simple key, and the others *)
Lemma key_token f i t m al2 t' e tk q is ks : tok_step f i t m al2 t' e tk -> m_line m <= m_line e -> fits is f -> idle m ks ->
  exists kr', leads (st t m f q is i true ks) (st t' e f (q ++ [tk]) is i al2 (new_key f q i m :: kr')) /\ tidy e kr' /\ fewer (tl ks) kr'.
Proof.
  intros H L F I. destruct (idle_stale m ks I) as (k & kr & E & I' & D). exists kr. split; [apply (H q is true ks k kr F E); intros _; eapply harmless_soft; eauto|].
  destruct I' as [_ T]. inversion T as [|? ? Hk Tk]; subst. split; [apply (tidy_later m e); auto|]. inversion D; subst. assumption.
Qed.
Lemma keyed_token f i t m al2 t' e tk q is K kr : tok_step f i t m al2 t' e tk -> m_line m <= m_line e -> fits is f -> tidy m kr -> too_old m K = false ->
  exists kr', leads (st t m f q is i false (K :: kr)) (st t' e f (q ++ [tk]) is i al2 (K :: kr')) /\ tidy e kr' /\ fewer kr kr'.
Proof.
  intros H L F I O. destruct (fresh_stale m K kr I O) as (kr' & E & T & Ln). exists kr'. split; [apply (H q is false _ K kr' F E); discriminate|]. split; [apply (tidy_later m e); auto|exact Ln].
Qed.

(* ---- indicators ---- *)
Notation after m := (next_column 1 m).
Definition mark_token (tk : tok) (m : mark) : token := mkToken tk m (after m) false.
Lemma chars1 x t m f q is i al ks tk : fetch_chars 1 tk (st (x :: t) m f q is i al ks) = SOk tt (st t (after m) f (q ++ [mark_token tk m]) is i al ks).
Proof. reflexivity. Qed.
Lemma allow_run b t m f q is i al ks : allow b (st t m f q is i al ks) = SOk tt (st t m f q is i b ks).
Proof. reflexivity. Qed.
Definition opening (x : N) (tk : tok) : Prop := (x = 0x5B /\ tk = TFlowSeqStart) \/ (x = 0x7B /\ tk = TFlowMapStart).
Definition closing (x : N) (tk : tok) : Prop := (x = 0x5D /\ tk = TFlowSeqEnd) \/ (x = 0x7D /\ tk = TFlowMapEnd).
Lemma open_step x tk t m f q is i al ks k kr : opening x tk -> at_column f i m -> fits is (f + 1) -> (nest <= Z.of_N INT_MAX)%Z -> stale m ks = inl (k :: kr) -> (al = true -> soft k) ->
  leads (st (x :: t) m f q is i al ks) (st t (after m) (f + 1) (q ++ [mark_token tk m]) is i true (key0 :: (if al then new_key f q i m else k) :: kr)).
Proof.
  intros O C F Hn E K. apply leads_step; [|apply st_running; exact F].
  assert (R : fetch_flow_collection_start tk (st (x :: t) m f q is i al (k :: kr)) = SOk tt (st t (after m) (f + 1) (q ++ [mark_token tk m]) is i true (key0 :: (if al then new_key f q i m else k) :: kr))).
  { unfold fetch_flow_collection_start. erewrite sbind_ok by (apply save_run; exact K). unfold increase_flow_level, sbind at 1, sbind at 1, get. cbn [st s_flow].
    replace (f =? INT_MAX) with false; [reflexivity|]. symmetry. apply N.eqb_neq. unfold fits in F. lia. }
  rewrite <- R. destruct O as [[-> ->]|[-> ->]].
  - exact (step (0x5B :: t) m f q is i al ks (k :: kr) BFlowSeqStart ltac:(repeat split; discriminate) E C (choose_flow_seq _ _ _)).
  - exact (step (0x7B :: t) m f q is i al ks (k :: kr) BFlowMapStart ltac:(repeat split; discriminate) E C (choose_flow_map _ _ _)).
Qed.
Lemma close_step x tk t m f q is i al ks k kr : closing x tk -> fits is f -> kr <> [] -> stale m ks = inl (k :: kr) -> soft k ->
  leads (st (x :: t) m (f + 1) q is i al ks) (st t (after m) f (q ++ [mark_token tk m]) is i false kr).
Proof.
  intros O F Nk E K. apply leads_step; [|apply st_running; exact F].
  assert (R : fetch_flow_collection_end tk (st (x :: t) m (f + 1) q is i al (k :: kr)) = SOk tt (st t (after m) f (q ++ [mark_token tk m]) is i false kr)).
  { unfold fetch_flow_collection_end. erewrite sbind_ok by (apply remove_run; exact K). unfold sbind at 1, decrease_flow_level. cbn [st s_flow s_keys].
    replace (f + 1 =? 0) with false by (symmetry; apply N.eqb_neq; lia).
    change (ScannerModel.set_flow (set_keys (st (x :: t) m (f + 1) q is i al (kill k :: kr)) kr) (f + 1 - 1)) with (st (x :: t) m (f + 1 - 1) q is i al kr).
    replace (f + 1 - 1) with f by lia. reflexivity. }
  rewrite <- R. assert (C : at_column (f + 1) i m) by (left; lia). destruct O as [[-> ->]|[-> ->]].
  - exact (step (0x5D :: t) m (f + 1) q is i al ks (k :: kr) BFlowSeqEnd ltac:(repeat split; discriminate) E C (choose_flow_seq_end _ _ _)).
  - exact (step (0x7D :: t) m (f + 1) q is i al ks (k :: kr) BFlowMapEnd ltac:(repeat split; discriminate) E C (choose_flow_map_end _ _ _)).
Qed.
Lemma comma_step t m f q is i al ks k kr : f <> 0 -> fits is f -> stale m ks = inl (k :: kr) -> soft k ->
  leads (st (0x2C :: t) m f q is i al ks) (st t (after m) f (q ++ [mark_token TFlowEntry m]) is i true (kill k :: kr)).
Proof.
  intros O F E K. apply leads_step; [|apply st_running; exact F].
  rewrite (step (0x2C :: t) m f q is i al ks (k :: kr) BFlowEntry ltac:(repeat split; discriminate) E (or_introl O) (choose_flow_entry _ _ _)). cbn [fetch_branch]. unfold fetch_flow_entry.
  erewrite sbind_ok by (apply remove_run; exact K). reflexivity.
Qed.
Lemma flow_key_step t m f q is i al ks k kr : f <> 0 -> fits is f -> stale m ks = inl (k :: kr) -> soft k ->
  leads (st (0x3F :: t) m f q is i al ks) (st t (after m) f (q ++ [mark_token TKey m]) is i false (kill k :: kr)).
Proof.
  intros O F E K. assert (Fl : fl f = true) by (unfold fl; destruct (N.eqb_spec f 0); [contradiction|reflexivity]). apply leads_step; [|apply st_running; exact F].
  rewrite (step (0x3F :: t) m f q is i al ks (k :: kr) BKey ltac:(repeat split; discriminate) E (or_introl O) (choose_key _ _ _ (or_introl Fl))). cbn [fetch_branch]. unfold fetch_key.
  erewrite sbind_ok.
  2:{ unfold block_start, sbind, get. change (in_flow (st (0x3F :: t) m f q is i al (k :: kr))) with (fl f). rewrite Fl. reflexivity. }
  erewrite sbind_ok by (apply remove_run; exact K). unfold sbind at 1, get. change (in_flow (st (0x3F :: t) m f q is i al (kill k :: kr))) with (fl f). rewrite Fl. reflexivity.
Qed.
(* ':' after an explicit key *)
Lemma flow_value_step t m f q is i al ks k kr : f <> 0 -> fits is f -> stale m ks = inl (k :: kr) -> k_possible k = false ->
  leads (st (0x3A :: t) m f q is i al ks) (st t (after m) f (q ++ [mark_token TValue m]) is i false (k :: kr)).
Proof.
  intros O F E K. assert (Fl : fl f = true) by (unfold fl; destruct (N.eqb_spec f 0); [contradiction|reflexivity]). apply leads_step; [|apply st_running; exact F].
  rewrite (step (0x3A :: t) m f q is i al ks (k :: kr) BValue ltac:(repeat split; discriminate) E (or_introl O) (choose_value _ _ _ (or_introl Fl))). cbn [fetch_branch]. unfold fetch_value.
  unfold sbind at 1, get at 1. cbn [st s_keys]. rewrite K.
  erewrite sbind_ok.
  2:{ erewrite sbind_ok. 2:{ unfold block_start, sbind, get. change (in_flow (st (0x3A :: t) m f q is i al (k :: kr))) with (fl f). rewrite Fl. reflexivity. }
      apply allow_run. }
  unfold in_flow. cbn [st s_flow]. fold (fl f). rewrite Fl. reflexivity.
Qed.
(* ':' after a simple key that begins at the place [length q1] of the queue *)
Lemma insert_at n tk q1 q2 t m f is i al ks : n = nlen q1 ->
  queue_insert n tk (st t m f (q1 ++ q2) is i al ks) = SOk tt (st t m f (q1 ++ tk :: q2) is i al ks).
Proof.
  intros ->. unfold queue_insert. cbn [st s_parsed s_tokens]. rewrite N.sub_0_r. unfold nlen. rewrite Nat2N.id.
  replace (0 <=? N.of_nat (length q1)) with true by lia. replace (length q1 <=? length (q1 ++ q2))%nat with true by (rewrite app_length; symmetry; apply Nat.leb_le; lia). cbn [andb].
  change (length q1) with (length q1). rewrite firstn_app, Nat.sub_diag, firstn_all, skipn_app, skipn_all, Nat.sub_diag. cbn [firstn skipn app]. rewrite app_nil_r. reflexivity.
Qed.
Definition zero_token (tk : tok) (m : mark) : token := mkToken tk m m false.
Lemma simple_value_step t m f q1 q2 is i al ks K kr : fits is f -> at_column f i m -> f <> 0 \/ is_blankz (nth 0 t 0) = true -> stale m ks = inl (K :: kr) -> k_possible K = true -> k_number K = nlen q1 ->
  f <> 0 \/ (Z.of_N (m_column (k_mark K)) <= i)%Z ->
  leads (st (0x3A :: t) m f (q1 ++ q2) is i al ks) (st t (after m) f (q1 ++ zero_token TKey (k_mark K) :: q2 ++ [mark_token TValue m]) is i false (kill K :: kr)).
Proof.
  intros F C Bz E P Nk R. apply leads_step; [|apply st_running; exact F].
  rewrite (step (0x3A :: t) m f (q1 ++ q2) is i al ks (K :: kr) BValue ltac:(repeat split; discriminate) E C); [|apply choose_value; unfold fl; destruct Bz as [Bz|Bz]; [left; destruct (N.eqb_spec f 0); [contradiction|reflexivity]|right; exact Bz]].
  cbn [fetch_branch]. unfold fetch_value.
  unfold sbind at 1, get at 1. cbn [st s_keys]. rewrite P.
  erewrite sbind_ok.
  2:{ erewrite sbind_ok by (apply insert_at; exact Nk). erewrite sbind_ok.
      2:{ unfold roll_indent, sbind at 1, get. change (in_flow (st (0x3A :: t) m f ?q is i al ?ks)) with (fl f). cbn [st s_indent]. instantiate (1 := st (0x3A :: t) m f (q1 ++ zero_token TKey (k_mark K) :: q2) is i al (K :: kr)). instantiate (1 := tt).
          destruct (fl f) eqn:Fl; [reflexivity|]. destruct R as [R|R]; [unfold fl in Fl; destruct (N.eqb_spec f 0); [contradiction|discriminate]|].
          destruct (Z.ltb_spec i (Z.of_N (m_column (k_mark K)))); [lia|reflexivity]. }
      unfold sbind, modify. apply allow_run. }
  etransitivity; [apply (chars1 0x3A t m f (q1 ++ zero_token TKey (k_mark K) :: q2) is i false (kill K :: kr))|]. rewrite <- app_assoc. reflexivity.
Qed.
Lemma first_value_step t m q1 q2 is i al ks K kr : fits (i :: is) 0 -> at_column 0 i m -> is_blankz (nth 0 t 0) = true -> stale m ks = inl (K :: kr) -> k_possible K = true -> k_number K = nlen q1 ->
  (i < Z.of_N (m_column (k_mark K)))%Z -> m_column (k_mark K) <= INT_MAX ->
  leads (st (0x3A :: t) m 0 (q1 ++ q2) is i al ks)
    (st t (after m) 0 (q1 ++ zero_token TBlockMapStart (k_mark K) :: zero_token TKey (k_mark K) :: q2 ++ [mark_token TValue m]) (i :: is) (Z.of_N (m_column (k_mark K))) false (kill K :: kr)).
Proof.
  intros F C Bz E P Nk R Mx. apply leads_step; [|apply st_running; exact F].
  rewrite (step (0x3A :: t) m 0 (q1 ++ q2) is i al ks (K :: kr) BValue ltac:(repeat split; discriminate) E C); [|apply choose_value; right; exact Bz].
  cbn [fetch_branch]. unfold fetch_value.
  unfold sbind at 1, get at 1. cbn [st s_keys]. rewrite P.
  erewrite sbind_ok.
  2:{ erewrite sbind_ok by (apply insert_at; exact Nk). erewrite sbind_ok.
      2:{ unfold roll_indent, sbind at 1, get. change (in_flow (st (0x3A :: t) m 0 ?q is i al ?ks)) with false. cbn [st s_indent].
          destruct (Z.ltb_spec i (Z.of_N (m_column (k_mark K)))); [|lia]. replace (INT_MAX <? m_column (k_mark K)) with false by lia.
          unfold sbind, modify. change (ScannerModel.set_indents ?s (Z.of_N (m_column (k_mark K))) ?l) with (st (0x3A :: t) m 0 (q1 ++ zero_token TKey (k_mark K) :: q2) (i :: is) (Z.of_N (m_column (k_mark K))) al (K :: kr)).
          apply insert_at. exact Nk. }
      unfold sbind, modify. apply allow_run. }
  etransitivity; [apply (chars1 0x3A t m 0 (q1 ++ zero_token TBlockMapStart (k_mark K) :: zero_token TKey (k_mark K) :: q2) (i :: is) (Z.of_N (m_column (k_mark K))) false (kill K :: kr))|]. rewrite <- app_assoc. reflexivity.
Qed.

(* ---- block collections ---- *)
Definition rolled (i : Z) (m : mark) (tk : tok) : list token := if (i <? Z.of_N (m_column m))%Z then [zero_token tk m] else [].
Definition roll_is (i : Z) (m : mark) (is : list Z) : list Z := if (i <? Z.of_N (m_column m))%Z then i :: is else is.
Definition roll_i (i : Z) (m : mark) : Z := if (i <? Z.of_N (m_column m))%Z then Z.of_N (m_column m) else i.
Lemma roll_run p tk t m q is i ks : m_column m <= INT_MAX -> block_start p tk (st t m 0 q is i true ks) = SOk tt (st t m 0 (q ++ rolled i m tk) (roll_is i m is) (roll_i i m) true ks).
Proof.
  intros Mx. unfold block_start, roll_indent, sbind at 1, get at 1. change (in_flow (st t m 0 q is i true ks)) with false. cbn [st s_allowed negb]. unfold sbind at 1, get at 1. change (in_flow (st t m 0 q is i true ks)) with false.
  change (smark (st t m 0 q is i true ks)) with m. cbn [st s_indent]. unfold rolled, roll_is, roll_i. destruct (i <? Z.of_N (m_column m))%Z; [|rewrite app_nil_r; reflexivity].
  replace (INT_MAX <? m_column m) with false by lia. reflexivity.
Qed.
Lemma entry_step t m q is i ks k kr : (i <= Z.of_N (m_column m))%Z -> m_column m <= INT_MAX -> is_blankz (nth 0 t 0) = true -> fits (roll_is i m is) 0 -> stale m ks = inl (k :: kr) -> soft k ->
  leads (st (0x2D :: t) m 0 q is i true ks)
    (st t (after m) 0 (q ++ rolled i m TBlockSeqStart ++ [mark_token TBlockEntry m]) (roll_is i m is) (roll_i i m) true (kill k :: kr)).
Proof.
  intros C Mx Bz F E K. apply leads_step; [|apply st_running; exact F].
  rewrite (step (0x2D :: t) m 0 q is i true ks (k :: kr) BBlockEntry ltac:(repeat split; discriminate) E (or_intror C) (choose_entry _ _ Bz)). cbn [fetch_branch]. unfold fetch_block_entry.
  erewrite sbind_ok by (apply roll_run; exact Mx). erewrite sbind_ok by (apply remove_run; exact K). erewrite sbind_ok by apply allow_run. rewrite chars1, <- app_assoc. reflexivity.
Qed.
Lemma block_key_step t m q is i ks k kr : (i <= Z.of_N (m_column m))%Z -> m_column m <= INT_MAX -> is_blankz (nth 0 t 0) = true -> fits (roll_is i m is) 0 -> stale m ks = inl (k :: kr) -> soft k ->
  leads (st (0x3F :: t) m 0 q is i true ks)
    (st t (after m) 0 (q ++ rolled i m TBlockMapStart ++ [mark_token TKey m]) (roll_is i m is) (roll_i i m) true (kill k :: kr)).
Proof.
  intros C Mx Bz F E K. apply leads_step; [|apply st_running; exact F].
  rewrite (step (0x3F :: t) m 0 q is i true ks (k :: kr) BKey ltac:(repeat split; discriminate) E (or_intror C) (choose_key _ _ _ (or_intror Bz))). cbn [fetch_branch]. unfold fetch_key.
  erewrite sbind_ok by (apply roll_run; exact Mx). erewrite sbind_ok by (apply remove_run; exact K). unfold sbind at 1, get. change (in_flow (st (0x3F :: t) m 0 ?a ?b ?c true ?d)) with false. cbn [negb].
  erewrite sbind_ok by apply allow_run. rewrite chars1, <- app_assoc. reflexivity.
Qed.
Lemma block_value_step t m q is i ks k kr : (i <= Z.of_N (m_column m))%Z -> m_column m <= INT_MAX -> is_blankz (nth 0 t 0) = true -> fits (roll_is i m is) 0 -> stale m ks = inl (k :: kr) -> k_possible k = false ->
  leads (st (0x3A :: t) m 0 q is i true ks)
    (st t (after m) 0 (q ++ rolled i m TBlockMapStart ++ [mark_token TValue m]) (roll_is i m is) (roll_i i m) true (k :: kr)).
Proof.
  intros C Mx Bz F E K. apply leads_step; [|apply st_running; exact F].
  rewrite (step (0x3A :: t) m 0 q is i true ks (k :: kr) BValue ltac:(repeat split; discriminate) E (or_intror C) (choose_value _ _ _ (or_intror Bz))). cbn [fetch_branch]. unfold fetch_value.
  unfold sbind at 1, get at 1. cbn [st s_keys]. rewrite K. erewrite sbind_ok.
  2:{ erewrite sbind_ok by (apply roll_run; exact Mx). change (in_flow (mkSc (fc (0x3A :: t) m) enc true false None 0 q 0 false is i true (k :: kr) nest)) with false. apply allow_run. }
  cbn [negb]. rewrite chars1, <- app_assoc. reflexivity.
Qed.
Lemma block_scalar_step (literal : bool) t m q is i al ks k kr t' e tk : (i <= Z.of_N (m_column m))%Z -> fits is 0 -> stale m ks = inl (k :: kr) -> soft k ->
  scan_block_scalar i literal (fc ((if literal then 0x7C else 0x3E) :: t) m) = COk tk (fc t' e) ->
  leads (st ((if literal then 0x7C else 0x3E) :: t) m 0 q is i al ks) (st t' e 0 (q ++ [tk]) is i true (kill k :: kr)).
Proof.
  intros C F E K S. apply leads_step; [|apply st_running; exact F].
  assert (B : fetch_next_token (st ((if literal then 0x7C else 0x3E) :: t) m 0 q is i al ks) = fetch_block_scalar literal (st ((if literal then 0x7C else 0x3E) :: t) m 0 q is i al (k :: kr))).
  { destruct literal; [exact (step (0x7C :: t) m 0 q is i al ks (k :: kr) BLiteral ltac:(repeat split; discriminate) E (or_intror C) (choose_literal _ _))|exact (step (0x3E :: t) m 0 q is i al ks (k :: kr) BFolded ltac:(repeat split; discriminate) E (or_intror C) (choose_folded _ _))]. }
  rewrite B. unfold fetch_block_scalar. erewrite sbind_ok by (apply remove_run; exact K). erewrite sbind_ok by apply allow_run. unfold sbind at 1, get. change (s_indent (st ?a m 0 q is i true ?b)) with i.
  erewrite sbind_ok by (apply lift_ok; exact S). reflexivity.
Qed.

(* ---- documents ---- *)
Lemma minus1 m : (-1 <= Z.of_N (m_column m))%Z. Proof. lia. Qed.
(* a document marker or the end of the text, at the beginning of a line *)
Definition document_ends (t : list N) : Prop := t = [] \/ document_marker t.
Lemma ends_starts t : document_ends t -> starts t.
Proof. intros [->|(x & r & [-> | ->] & -> & _)]; repeat split; discriminate. Qed.
Lemma reset_run t m f q i is al k kr q2 : fl f = false -> soft k -> unroll m (-1)%Z i is q = Some ((-1)%Z, [], q2) ->
  reset_block (st t m f q is i al (k :: kr)) = SOk tt (st t m f q2 [] (-1)%Z false (kill k :: kr)).
Proof.
  intros F K U. unfold reset_block. erewrite sbind_ok.
  2:{ unfold unroll_indent. change (in_flow (st t m f q is i al (k :: kr))) with (fl f). rewrite F. change (smark (st t m f q is i al (k :: kr))) with m. cbn [st s_indent s_indents s_tokens]. rewrite U. reflexivity. }
  erewrite sbind_ok by (apply (remove_run t m f q2 [] (-1)%Z al k kr K)). reflexivity.
Qed.
Definition marker_branch (t : list N) : branch := match t with [] => BStreamEnd | x :: _ => if x =? 0x2D then BDocStart else BDocEnd end.
Lemma choose_marker t m : document_ends t -> m_column m = 0 -> choose false (fc t m) = COk (marker_branch t) (fc t m).
Proof.
  intros [->|(x & r & [-> | ->] & -> & B)] C; [reflexivity|apply choose_doc_start; assumption|apply choose_doc_end; assumption].
Qed.
(* an open block collection at column 0 is closed there *)
Lemma alike_end t m q al ks k kr : document_ends t -> m_column m = 0 -> stale m ks = inl (k :: kr) -> soft k ->
  alike (st t m 0 q [(-1)%Z] 0 al ks) (st t m 0 (q ++ [zero_token TBlockEnd m]) [] (-1)%Z al ks).
Proof.
  intros D C E K. split; [|apply incl_appl, incl_refl]. rewrite !(step t m 0 _ _ _ al ks (k :: kr) (marker_branch t)); try (apply ends_starts; exact D); try exact E; try (right; lia); try (apply choose_marker; assumption).
  set (A := st t m 0 q [(-1)%Z] 0%Z al (k :: kr)). set (B := st t m 0 (q ++ [zero_token TBlockEnd m]) [] (-1)%Z al (k :: kr)).
  assert (R : reset_block A = reset_block B) by (unfold A, B; rewrite (reset_run t m 0 q 0 [(-1)%Z] al k kr (q ++ [zero_token TBlockEnd m]) eq_refl K eq_refl), (reset_run t m 0 (q ++ [zero_token TBlockEnd m]) (-1) [] al k kr (q ++ [zero_token TBlockEnd m]) eq_refl K eq_refl); reflexivity).
  assert (Fa : lift force_line A = SOk tt A) by (unfold A, lift, force_line; cbn; rewrite C; reflexivity).
  assert (Fb : lift force_line B = SOk tt B) by (unfold B, lift, force_line; cbn; rewrite C; reflexivity).
  assert (H : forall g : unit -> sm unit, sbind reset_block g A = sbind reset_block g B) by (intros g; unfold sbind; rewrite R; reflexivity).
  unfold marker_branch. destruct t as [|x t']; cbn [fetch_branch].
  - unfold fetch_stream_end. rewrite (sbind_ok _ _ _ _ _ Fa), (sbind_ok _ _ _ _ _ Fb). apply H.
  - destruct (x =? 0x2D); unfold fetch_branch, fetch_document_indicator; apply H.
Qed.
Lemma marker_step x tk t m q al ks k kr : (x = 0x2D /\ tk = TDocStart) \/ (x = 0x2E /\ tk = TDocEnd) -> is_blankz (nth 0 t 0) = true -> m_column m = 0 -> fits [] 0 -> stale m ks = inl (k :: kr) -> soft k ->
  leads (st (x :: x :: x :: t) m 0 q [] (-1)%Z al ks) (st t (next_column 3 m) 0 (q ++ [mkToken tk m (next_column 3 m) false]) [] (-1)%Z false (kill k :: kr)).
Proof.
  intros X B C F E K. apply leads_step; [|apply st_running; exact F].
  assert (R : fetch_document_indicator tk (st (x :: x :: x :: t) m 0 q [] (-1)%Z al (k :: kr)) = SOk tt (st t (next_column 3 m) 0 (q ++ [mkToken tk m (next_column 3 m) false]) [] (-1)%Z false (kill k :: kr))).
  { unfold fetch_document_indicator. rewrite (sbind_ok _ _ _ _ _ (reset_run (x :: x :: x :: t) m 0 q (-1) [] al k kr q eq_refl K eq_refl)).
    assert (M : next_column 3 m = after (after (after m))) by (unfold next_column; cbn; f_equal; lia). rewrite M. reflexivity. }
  rewrite <- R. destruct X as [[-> ->]|[-> ->]].
  - exact (step (0x2D :: 0x2D :: 0x2D :: t) m 0 q [] (-1)%Z al ks (k :: kr) BDocStart ltac:(repeat split; discriminate) E (or_intror (minus1 m)) (choose_doc_start _ _ _ C B)).
  - exact (step (0x2E :: 0x2E :: 0x2E :: t) m 0 q [] (-1)%Z al ks (k :: kr) BDocEnd ltac:(repeat split; discriminate) E (or_intror (minus1 m)) (choose_doc_end _ _ _ C B)).
Qed.
Lemma directive_step t m q al ks k kr t' e tk : m_column m = 0 -> fits [] 0 -> stale m ks = inl (k :: kr) -> soft k -> scan_directive (fc (0x25 :: t) m) = COk tk (fc t' e) ->
  leads (st (0x25 :: t) m 0 q [] (-1)%Z al ks) (st t' e 0 (q ++ [tk]) [] (-1)%Z false (kill k :: kr)).
Proof.
  intros C F E K S. apply leads_step; [|apply st_running; exact F].
  rewrite (step (0x25 :: t) m 0 q [] (-1)%Z al ks (k :: kr) BDirective ltac:(repeat split; discriminate) E (or_intror (minus1 m)) (choose_directive _ _ _ C)). cbn [fetch_branch]. unfold fetch_directive.
  rewrite (sbind_ok _ _ _ _ _ (reset_run (0x25 :: t) m 0 q (-1) [] al k kr q eq_refl K eq_refl)). erewrite sbind_ok by (apply lift_ok; exact S). reflexivity.
Qed.
Lemma end_fetch m q al ks k kr : m_column m = 0 -> stale m ks = inl (k :: kr) -> soft k ->
  fetch_next_token (st [] m 0 q [] (-1)%Z al ks) = SOk tt (st [] m 0 (q ++ [zero_token TStreamEnd m]) [] (-1)%Z false (kill k :: kr)).
Proof.
  intros C E K.
  rewrite (step [] m 0 q [] (-1)%Z al ks (k :: kr) BStreamEnd ltac:(repeat split; discriminate) E (or_intror (minus1 m)) (choose_end _ _)). cbn [fetch_branch]. unfold fetch_stream_end.
  erewrite sbind_ok. 2:{ unfold lift, force_line. cbn [st s_cur fc c_mark]. rewrite C. reflexivity. }
  rewrite (sbind_ok _ _ _ _ _ (reset_run [] m 0 q (-1) [] al k kr q eq_refl K eq_refl)). reflexivity.
Qed.
Lemma start_step T : fits [] 0 -> fetch_next_token (eager_start enc nest T) = SOk tt (st T mark0 0 [zero_token (TStreamStart enc) mark0] [] (-1)%Z true [key0]).
Proof.
  intros F. unfold fetch_next_token, eager_start. erewrite sbind_ok. 2:{ unfold lift. change (s_cur (fulls (init_scanner enc nest T false []))) with (fc T mark0). rewrite cache_fc. reflexivity. }
  reflexivity.
Qed.
End Steps.
